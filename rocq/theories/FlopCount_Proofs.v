(** Closed forms of the counts of FlopCount_Spec. *)
From Verif Require Import Base FlopCount_Spec.
From Coq Require Import Lia.
Local Open Scope Z_scope.

Fixpoint sumn (n : nat) (f : nat -> Z) : Z :=
  match n with O => 0 | S k => sumn k f + f k end.
Lemma sumn_ext n f g : (forall i, (i < n)%nat -> f i = g i) -> sumn n f = sumn n g.
Proof.
  induction n as [|n IH]; intros H; cbn [sumn]; [reflexivity|].
  rewrite IH by (intros; apply H; lia). rewrite H by lia. reflexivity.
Qed.
Lemma sumn_const n c : sumn n (fun _ => c) = Z.of_nat n * c.
Proof. induction n as [|n IH]; cbn [sumn]; [lia|]. rewrite IH. lia. Qed.

Fixpoint suml {A} (l : list A) (f : A -> Z) : Z :=
  match l with [] => 0 | a :: r => f a + suml r f end.
Lemma suml_app {A} (l r : list A) f : suml (l ++ r) f = suml l f + suml r f.
Proof. induction l as [|a l IH]; cbn [suml app]; [lia|]. rewrite IH. lia. Qed.
Lemma suml_map {A B} (g : A -> B) l f : suml (map g l) f = suml l (fun a => f (g a)).
Proof. induction l as [|a l IH]; cbn [suml map]; [reflexivity|]. rewrite IH. reflexivity. Qed.
Lemma suml_ext {A} (l : list A) f g : (forall a, f a = g a) -> suml l f = suml l g.
Proof. intros H. induction l as [|a l IH]; cbn [suml]; [reflexivity|]. rewrite IH, H. reflexivity. Qed.
Lemma suml_seq n f : suml (seq 0 n) f = sumn n f.
Proof.
  induction n as [|n IH]; [reflexivity|].
  rewrite seq_S, suml_app, IH. cbn [suml sumn]. cbn [Nat.add]. lia.
Qed.
Lemma suml_prod {A B} (l : list A) (r : list B) f :
  suml (list_prod l r) f = suml l (fun a => suml r (fun b => f (a, b))).
Proof.
  induction l as [|a l IH]; cbn [suml list_prod]; [reflexivity|].
  rewrite suml_app, suml_map, IH. reflexivity.
Qed.
Lemma length_filter {A} (P : A -> bool) l :
  Z.of_nat (length (filter P l)) = suml l (fun a => if P a then 1 else 0).
Proof.
  induction l as [|a l IH]; cbn [filter suml]; [reflexivity|].
  destruct (P a); cbn [length]; lia.
Qed.

Lemma triples_sum M N K P :
  triples M N K P = sumn M (fun i => sumn N (fun j => sumn K (fun k => if P i j k then 1 else 0))).
Proof.
  unfold triples. rewrite length_filter, suml_prod, suml_prod, suml_seq.
  apply sumn_ext. intros i _. rewrite suml_seq. apply sumn_ext. intros j _. rewrite suml_seq.
  reflexivity.
Qed.
Lemma pairs_sum M N P : pairs M N P = sumn M (fun i => sumn N (fun j => if P i j then 1 else 0)).
Proof.
  unfold pairs. rewrite length_filter, suml_prod, suml_seq.
  apply sumn_ext. intros i _. rewrite suml_seq. reflexivity.
Qed.

(** An indicator of an interval: a <= k < b. *)
Lemma sum_between n (P : nat -> bool) a b :
  (forall k, (k < n)%nat -> P k = (Nat.leb a k && Nat.ltb k b)%bool) ->
  sumn n (fun k => if P k then 1 else 0) = Z.max 0 (Z.of_nat (Nat.min n b) - Z.of_nat a).
Proof.
  induction n as [|n IH]; intros H; cbn [sumn]; [lia|].
  rewrite IH by (intros; apply H; lia). rewrite H by lia.
  destruct (Nat.leb_spec a n); destruct (Nat.ltb_spec n b); cbn [andb]; lia.
Qed.

Ltac indicator a b :=
  erewrite (sum_between _ _ a b)
    by (let k := fresh "k" in intros k ?;
        repeat match goal with
        | |- context [Nat.leb ?x ?y] => destruct (Nat.leb_spec x y)
        | |- context [Nat.ltb ?x ?y] => destruct (Nat.ltb_spec x y)
        end; cbn [andb]; try reflexivity; exfalso; lia).

Lemma sum_lin n a b : 2 * sumn n (fun i => a * Z.of_nat i + b) = a * (Z.of_nat n * (Z.of_nat n - 1)) + 2 * b * Z.of_nat n.
Proof. induction n as [|n IH]; cbn [sumn]; [lia|]. rewrite Z.mul_add_distr_l, IH. rewrite Nat2Z.inj_succ. lia. Qed.
Lemma sum_quad n a b c :
  6 * sumn n (fun i => a * (Z.of_nat i * Z.of_nat i) + b * Z.of_nat i + c) =
  a * (Z.of_nat n * (Z.of_nat n - 1) * (2 * Z.of_nat n - 1)) + 3 * b * (Z.of_nat n * (Z.of_nat n - 1)) + 6 * c * Z.of_nat n.
Proof. induction n as [|n IH]; cbn [sumn]; [lia|]. rewrite Z.mul_add_distr_l, IH. rewrite Nat2Z.inj_succ. lia. Qed.
Lemma sum_scale n c f : sumn n (fun i => c * f i) = c * sumn n f.
Proof. induction n as [|n IH]; cbn [sumn]; [lia|]. rewrite IH. lia. Qed.

Lemma general_product_eq M N K : general_product M N K = Z.of_nat M * Z.of_nat N * Z.of_nat K.
Proof.
  unfold general_product. rewrite triples_sum.
  rewrite (sumn_ext M _ (fun _ => Z.of_nat N * Z.of_nat K)).
  - rewrite sumn_const. lia.
  - intros i _. rewrite (sumn_ext N _ (fun _ => Z.of_nat K)); [apply sumn_const|].
    intros j _. rewrite sumn_const. lia.
Qed.
Lemma pairs_all M N : pairs M N (fun _ _ => true) = Z.of_nat M * Z.of_nat N.
Proof.
  rewrite pairs_sum. rewrite (sumn_ext M _ (fun _ => Z.of_nat N)); [apply sumn_const|].
  intros i _. rewrite sumn_const. lia.
Qed.
(** Sum of the triangle: from a count per row that is linear in i. *)
Lemma lower_product_eq n K : 2 * lower_product n K = Z.of_nat n * (Z.of_nat n + 1) * Z.of_nat K.
Proof.
  unfold lower_product. rewrite triples_sum.
  rewrite (sumn_ext n _ (fun i => Z.of_nat K * (1 * Z.of_nat i + 1))).
  - rewrite sum_scale. rewrite Z.mul_shuffle3, sum_lin. lia.
  - intros i Hi.
    rewrite (sumn_ext n _ (fun j => Z.of_nat K * (if Nat.leb j i then 1 else 0))).
    + rewrite sum_scale. f_equal. indicator 0%nat (S i). lia.
    + intros j _. rewrite sumn_const. destruct (Nat.leb j i); lia.
Qed.
Lemma lower_times_eq n N : 2 * lower_times n N = Z.of_nat n * (Z.of_nat n + 1) * Z.of_nat N.
Proof.
  unfold lower_times. rewrite triples_sum.
  rewrite (sumn_ext n _ (fun i => Z.of_nat N * (1 * Z.of_nat i + 1))).
  - rewrite sum_scale. rewrite Z.mul_shuffle3, sum_lin. lia.
  - intros i Hi. rewrite (sumn_ext N _ (fun _ => 1 * Z.of_nat i + 1)); [apply sumn_const|].
    intros j _. indicator 0%nat (S i). lia.
Qed.
Lemma lower_trans_times_eq n N : 2 * lower_trans_times n N = Z.of_nat n * (Z.of_nat n + 1) * Z.of_nat N.
Proof.
  unfold lower_trans_times. rewrite triples_sum.
  rewrite (sumn_ext n _ (fun i => Z.of_nat N * (-1 * Z.of_nat i + Z.of_nat n))).
  - rewrite sum_scale. rewrite Z.mul_shuffle3, sum_lin. lia.
  - intros i Hi. rewrite (sumn_ext N _ (fun _ => -1 * Z.of_nat i + Z.of_nat n)); [apply sumn_const|].
    intros j _. indicator i n. lia.
Qed.
Lemma times_lower_eq M n : 2 * times_lower M n = Z.of_nat n * (Z.of_nat n + 1) * Z.of_nat M.
Proof.
  unfold times_lower. rewrite triples_sum.
  rewrite (sumn_ext M _ (fun _ => sumn n (fun j => -1 * Z.of_nat j + Z.of_nat n))).
  - rewrite sumn_const. rewrite Z.mul_shuffle3, sum_lin. lia.
  - intros i _. apply sumn_ext. intros j Hj. indicator j n. lia.
Qed.
Lemma times_lower_trans_eq M n : 2 * times_lower_trans M n = Z.of_nat n * (Z.of_nat n + 1) * Z.of_nat M.
Proof.
  unfold times_lower_trans. rewrite triples_sum.
  rewrite (sumn_ext M _ (fun _ => sumn n (fun j => 1 * Z.of_nat j + 1))).
  - rewrite sumn_const. rewrite Z.mul_shuffle3, sum_lin. lia.
  - intros i _. apply sumn_ext. intros j Hj. indicator 0%nat (S j). lia.
Qed.
Lemma solve_lower_eq n N : 2 * solve_lower n N = Z.of_nat n * (Z.of_nat n + 1) * Z.of_nat N.
Proof.
  unfold solve_lower. rewrite pairs_all, triples_sum.
  rewrite (sumn_ext n _ (fun i => Z.of_nat N * (1 * Z.of_nat i + 0))).
  - rewrite sum_scale, Z.mul_add_distr_l, (Z.mul_shuffle3 2 (Z.of_nat N)), sum_lin. lia.
  - intros i Hi. rewrite (sumn_ext N _ (fun _ => 1 * Z.of_nat i + 0)); [apply sumn_const|].
    intros j _. indicator 0%nat i. lia.
Qed.
Lemma solve_lower_trans_eq n N : 2 * solve_lower_trans n N = Z.of_nat n * (Z.of_nat n + 1) * Z.of_nat N.
Proof.
  unfold solve_lower_trans. rewrite pairs_all, triples_sum.
  rewrite (sumn_ext n _ (fun i => Z.of_nat N * (-1 * Z.of_nat i + (Z.of_nat n - 1)))).
  - rewrite sum_scale, Z.mul_add_distr_l, (Z.mul_shuffle3 2 (Z.of_nat N)), sum_lin. lia.
  - intros i Hi. rewrite (sumn_ext N _ (fun _ => -1 * Z.of_nat i + (Z.of_nat n - 1))); [apply sumn_const|].
    intros j _. indicator (S i) n. lia.
Qed.
Lemma solve_times_lower_eq M n : 2 * solve_times_lower M n = Z.of_nat n * (Z.of_nat n + 1) * Z.of_nat M.
Proof.
  unfold solve_times_lower. rewrite pairs_all, triples_sum.
  rewrite (sumn_ext M _ (fun _ => sumn n (fun j => -1 * Z.of_nat j + (Z.of_nat n - 1)))).
  - rewrite sumn_const, Z.mul_add_distr_l, (Z.mul_shuffle3 2 (Z.of_nat M)), sum_lin. lia.
  - intros i _. apply sumn_ext. intros j Hj. indicator (S j) n. lia.
Qed.
Lemma solve_times_lower_trans_eq M n : 2 * solve_times_lower_trans M n = Z.of_nat n * (Z.of_nat n + 1) * Z.of_nat M.
Proof.
  unfold solve_times_lower_trans. rewrite pairs_all, triples_sum.
  rewrite (sumn_ext M _ (fun _ => sumn n (fun j => 1 * Z.of_nat j + 0))).
  - rewrite sumn_const, Z.mul_add_distr_l, (Z.mul_shuffle3 2 (Z.of_nat M)), sum_lin. lia.
  - intros i _. apply sumn_ext. intros j Hj. indicator 0%nat j. lia.
Qed.
Lemma pairs_strict n : 2 * pairs n n (fun i j => Nat.ltb j i) = Z.of_nat n * (Z.of_nat n - 1).
Proof.
  rewrite pairs_sum. rewrite (sumn_ext n _ (fun i => 1 * Z.of_nat i + 0)).
  - rewrite sum_lin. lia.
  - intros i Hi. indicator 0%nat i. lia.
Qed.
(** sum_{j<n} [j <= i] g j = sum_{j<=i} g j *)
Lemma sum_upto n i (P : nat -> bool) g : (i < n)%nat -> (forall j, (j < n)%nat -> P j = Nat.leb j i) ->
  sumn n (fun j => if P j then g j else 0) = sumn (S i) g.
Proof.
  intros Hi HP. rewrite (sumn_ext n _ (fun j => if Nat.leb j i then g j else 0))
    by (intros j Hj; rewrite HP by exact Hj; reflexivity).
  clear HP P. induction n as [|n IH]; [lia|]. cbn [sumn].
  destruct (Nat.eq_dec i n) as [->|Hn].
  - rewrite Nat.leb_refl. f_equal. apply sumn_ext. intros j Hj.
    destruct (Nat.leb_spec j n); [reflexivity|lia].
  - destruct (Nat.leb_spec n i); [lia|]. rewrite IH by lia. cbn [sumn]. lia.
Qed.
Lemma cholesky_triples n : 6 * triples n n n (fun i j k => (Nat.leb j i && Nat.ltb k j)%bool) =
  (Z.of_nat n - 1) * Z.of_nat n * (Z.of_nat n + 1).
Proof.
  rewrite triples_sum.
  assert (E : 2 * sumn n (fun i => sumn n (fun j => sumn n (fun k => if (Nat.leb j i && Nat.ltb k j)%bool then 1 else 0)))
              = sumn n (fun i => 1 * (Z.of_nat i * Z.of_nat i) + 1 * Z.of_nat i + 0)).
  { rewrite <- sum_scale. apply sumn_ext. intros i Hi.
    rewrite (sumn_ext n _ (fun j => if Nat.leb j i then Z.of_nat j else 0)).
    - rewrite (sum_upto n i _ Z.of_nat) by (auto; reflexivity).
      pose proof (sum_lin (S i) 1 0) as L. rewrite (sumn_ext (S i) Z.of_nat (fun i => 1 * Z.of_nat i + 0)) by (intros; lia). lia.
    - intros j Hj. destruct (Nat.leb_spec j i) as [H|H]; cbn [andb].
      + indicator 0%nat j. lia.
      + rewrite sumn_const. lia. }
  pose proof (sum_quad n 1 1 0) as Q. rewrite <- E in Q. lia.
Qed.
Lemma cholesky_count_eq n : cholesky_count n =
  (Z.of_nat n - 1) * Z.of_nat n * (Z.of_nat n + 1) / 6 + (Z.of_nat n - 1) * Z.of_nat n / 2 + 2 * Z.of_nat n.
Proof.
  unfold cholesky_count. rewrite <- cholesky_triples.
  replace ((Z.of_nat n - 1) * Z.of_nat n) with (2 * pairs n n (fun i j => Nat.ltb j i)) by (rewrite pairs_strict; lia).
  rewrite !(Z.mul_comm _ (triples _ _ _ _)), !(Z.mul_comm _ (pairs _ _ _)), !Z.div_mul by lia. lia.
Qed.
Lemma inverse_triples n : 6 * triples n n n (fun i j k => (Nat.leb j k && Nat.ltb k i)%bool) =
  (Z.of_nat n - 1) * Z.of_nat n * (Z.of_nat n + 1).
Proof.
  rewrite triples_sum.
  assert (E : 2 * sumn n (fun i => sumn n (fun j => sumn n (fun k => if (Nat.leb j k && Nat.ltb k i)%bool then 1 else 0)))
              = sumn n (fun i => 1 * (Z.of_nat i * Z.of_nat i) + 1 * Z.of_nat i + 0)).
  { rewrite <- sum_scale. apply sumn_ext. intros i Hi.
    rewrite (sumn_ext n _ (fun j => if Nat.leb j i then Z.of_nat i - Z.of_nat j else 0)).
    - rewrite (sum_upto n i _ (fun j => Z.of_nat i - Z.of_nat j)) by (auto; reflexivity).
      pose proof (sum_lin (S i) (-1) (Z.of_nat i)) as L.
      rewrite (sumn_ext (S i) (fun j => Z.of_nat i - Z.of_nat j) (fun j => -1 * Z.of_nat j + Z.of_nat i)) by (intros; lia). lia.
    - intros j Hj. indicator j i. destruct (Nat.leb_spec j i) as [H|H]; lia. }
  pose proof (sum_quad n 1 1 0) as Q. rewrite <- E in Q. lia.
Qed.
Lemma inverse_count_eq n : 6 * inverse_count n = Z.of_nat n * (Z.of_nat n + 1) * (Z.of_nat n + 2).
Proof.
  unfold inverse_count. pose proof (inverse_triples n). pose proof (pairs_strict n). lia.
Qed.
Lemma lauum_count_eq n : 6 * lauum_count n = Z.of_nat n * (Z.of_nat n + 1) * (Z.of_nat n + 2).
Proof.
  unfold lauum_count. rewrite triples_sum.
  assert (E : sumn n (fun i => sumn n (fun j => sumn n (fun k => if (Nat.leb j i && Nat.leb i k)%bool then 1 else 0)))
              = sumn n (fun i => -1 * (Z.of_nat i * Z.of_nat i) + (Z.of_nat n - 1) * Z.of_nat i + Z.of_nat n)).
  { apply sumn_ext. intros i Hi.
    rewrite (sumn_ext n _ (fun j => if Nat.leb j i then Z.of_nat n - Z.of_nat i else 0)).
    - rewrite (sum_upto n i _ (fun _ => Z.of_nat n - Z.of_nat i)) by (auto; reflexivity).
      rewrite sumn_const. lia.
    - intros j Hj. destruct (Nat.leb_spec j i) as [H|H]; cbn [andb].
      + indicator i n. lia.
      + rewrite sumn_const. lia. }
  pose proof (sum_quad n (-1) (Z.of_nat n - 1) (Z.of_nat n)) as Q. rewrite E. lia.
Qed.
