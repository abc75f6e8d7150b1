(** Cholesky factorization, triangular inverse, and their composition. *)
From Verif Require Import Base MatView_Model MatView_Spec HlBlas_Model HlBlas_Spec HlBlas_Proofs HlBlas_Routines
  Lapack_Model Lapack_Spec.
From Coq Require Import Field.
Local Open Scope Z_scope.
Local Arguments Z.eqb : simpl never.
Local Arguments Z.leb : simpl never.
Local Arguments Z.ltb : simpl never.
Local Arguments Z.max : simpl never.
Local Arguments Nat.sub : simpl never.

Section Ops.
Context {V : Type} (zero one : V) (add mul sub div : V -> V -> V).
Local Notation Sum := (Sum zero add).
Local Notation substitute := (substitute zero add mul sub div).

Lemma substitute_ext T T' b b' n :
  (forall r c, 0 <= r < Z.of_nat n -> 0 <= c <= r -> T r c = T' r c) ->
  (forall r, 0 <= r < Z.of_nat n -> b r = b' r) ->
  substitute T b n = substitute T' b' n.
Proof.
  induction n as [|n IH]; intros HT Hb; [reflexivity|]. cbn [HlBlas_Model.substitute].
  rewrite IH by (intros; first [apply HT | apply Hb]; lia).
  rewrite !total_Sum, Hb, HT by lia. do 3 f_equal. f_equal.
  apply Sum_ext. intros j Hj. f_equal. apply HT; lia.
Qed.

Context (positive : V -> bool) (sqrt : V -> V) (is_zero : V -> bool).
Local Notation cholesky := (cholesky zero add mul sub div positive sqrt).
Local Notation entry := (entry zero).

(** What a successful factorization of the leading n rows looks like. *)
Definition factor (A : Z -> Z -> V) (n : nat) (R : list (list V)) : Prop :=
  length R = n /\
  (forall i j, 0 <= j < i -> i < Z.of_nat n ->
     entry R i j = div (sub (A i j) (Sum j (fun k => mul (entry R j k) (entry R i k)))) (entry R j j)) /\
  (forall i, 0 <= i < Z.of_nat n ->
     let d := sub (A i i) (Sum i (fun k => mul (entry R i k) (entry R i k))) in
     positive d = true /\ entry R i i = sqrt d) /\
  (forall i j, 0 <= i < Z.of_nat n -> i < j -> entry R i j = zero).

Lemma entry_app_old R x i j : 0 <= i < Z.of_nat (length R) -> entry (R ++ [x]) i j = entry R i j.
Proof. intros H. unfold Lapack_Model.entry. now rewrite app_nth1 by lia. Qed.
Lemma entry_app_new R x j : entry (R ++ [x]) (Z.of_nat (length R)) j = nth (Z.to_nat j) x zero.
Proof. unfold Lapack_Model.entry. rewrite Nat2Z.id, app_nth2, Nat.sub_diag by lia. reflexivity. Qed.

(** The candidate row and pivot of step k. *)
Definition newrow (A : Z -> Z -> V) (R : list (list V)) (k : nat) : list V :=
  substitute (entry R) (fun j => A (Z.of_nat k) j) k.
Definition pivot (A : Z -> Z -> V) (R : list (list V)) (k : nat) : V :=
  sub (A (Z.of_nat k) (Z.of_nat k))
      (Sum (Z.of_nat k) (fun j => mul (nth (Z.to_nat j) (newrow A R k) zero) (nth (Z.to_nat j) (newrow A R k) zero))).

Lemma cholesky_step A k R : cholesky A k = (R, 0) ->
  cholesky A (S k) = if positive (pivot A R k) then (R ++ [newrow A R k ++ [sqrt (pivot A R k)]], 0)
                     else (R, Z.of_nat k + 1).
Proof.
  intros E. cbn [Lapack_Model.cholesky]. rewrite E. unfold pivot, newrow. rewrite total_Sum. reflexivity.
Qed.
Lemma newrow_length A R k : length (newrow A R k) = k.
Proof. apply substitute_length. Qed.
Lemma cholesky_info_mono A n R i : cholesky A (S n) = (R, i) -> i = 0 -> exists R', cholesky A n = (R', 0).
Proof.
  cbn [Lapack_Model.cholesky]. destruct (cholesky A n) as [R' i'].
  destruct (Z.eqb_spec i' 0) as [->|N]; [eauto|]. intros [= _ <-]. contradiction.
Qed.
Lemma cholesky_factor A n : forall R, cholesky A n = (R, 0) -> factor A n R.
Proof.
  induction n as [|n IH]; intros R E.
  - cbn in E. injection E as <-. split; [reflexivity|]. split; [|split]; intros; lia.
  - destruct (cholesky_info_mono _ _ _ _ E eq_refl) as (R' & E').
    rewrite (cholesky_step _ _ _ E') in E.
    destruct (positive (pivot A R' n)) eqn:P; [|injection E as <- E; lia].
    injection E as <-. specialize (IH R' E') as (L & F1 & F2 & F3).
    assert (OLD : forall i j, 0 <= i < Z.of_nat n ->
              entry (R' ++ [newrow A R' n ++ [sqrt (pivot A R' n)]]) i j = entry R' i j).
    { intros. apply entry_app_old. rewrite L. lia. }
    assert (NEW : forall j, entry (R' ++ [newrow A R' n ++ [sqrt (pivot A R' n)]]) (Z.of_nat n) j =
              nth (Z.to_nat j) (newrow A R' n ++ [sqrt (pivot A R' n)]) zero).
    { intros. pose proof (entry_app_new R' (newrow A R' n ++ [sqrt (pivot A R' n)]) j) as G.
      rewrite L in G. exact G. }
    assert (NEWR : forall j, 0 <= j < Z.of_nat n ->
              entry (R' ++ [newrow A R' n ++ [sqrt (pivot A R' n)]]) (Z.of_nat n) j = nth (Z.to_nat j) (newrow A R' n) zero).
    { intros. rewrite NEW, app_nth1 by (rewrite newrow_length; lia). reflexivity. }
    split; [rewrite app_length, L; cbn; lia|]. split; [|split].
    + intros i j Hj Hi. rewrite (OLD j j) by lia.
      destruct (Z.eq_dec i (Z.of_nat n)) as [->|N].
      * rewrite NEWR by lia. unfold newrow at 1.
        pose proof (substitute_step zero add mul sub div (entry R') (fun j0 => A (Z.of_nat n) j0) (Z.of_nat n) j) as G.
        rewrite Nat2Z.id in G. rewrite G by lia.
        do 2 f_equal. apply Sum_ext. intros k Hk. now rewrite OLD, NEWR by lia.
      * rewrite OLD by lia. rewrite F1 by lia. do 2 f_equal. apply Sum_ext. intros k Hk. now rewrite !OLD by lia.
    + intros i Hi. destruct (Z.eq_dec i (Z.of_nat n)) as [->|N].
      * cbv zeta.
        assert (ES : sub (A (Z.of_nat n) (Z.of_nat n))
                   (Sum (Z.of_nat n) (fun k => mul (entry (R' ++ [newrow A R' n ++ [sqrt (pivot A R' n)]]) (Z.of_nat n) k)
                                          (entry (R' ++ [newrow A R' n ++ [sqrt (pivot A R' n)]]) (Z.of_nat n) k)))
                   = pivot A R' n).
        { unfold pivot at 3. f_equal. apply Sum_ext. intros k Hk. now rewrite !NEWR by lia. }
        rewrite ES. split; [exact P|]. rewrite NEW, Nat2Z.id, app_nth2 by (rewrite newrow_length; lia).
        rewrite newrow_length, Nat.sub_diag. reflexivity.
      * specialize (F2 i ltac:(lia)). cbv zeta in *. rewrite OLD by lia.
        rewrite (Sum_ext zero add i _ (fun k => mul (entry R' i k) (entry R' i k))) by (intros; now rewrite !OLD by lia).
        exact F2.
    + intros i j Hi Hj. destruct (Z.eq_dec i (Z.of_nat n)) as [->|N].
      * rewrite NEW. apply nth_overflow. rewrite app_length, newrow_length. cbn. lia.
      * rewrite OLD by lia. apply F3; lia.
Qed.
(** A failure happens at the first row without a positive pivot. *)
Lemma cholesky_failure A n R i : cholesky A n = (R, i) -> i <> 0 ->
  exists k R', (k < n)%nat /\ i = Z.of_nat k + 1 /\ cholesky A k = (R', 0) /\ positive (pivot A R' k) = false.
Proof.
  revert R i. induction n as [|n IH]; intros R i E N.
  - cbn in E. congruence.
  - destruct (cholesky A n) as [R' i'] eqn:E'.
    destruct (Z.eq_dec i' 0) as [->|N'].
    + rewrite (cholesky_step _ _ _ E') in E. destruct (positive (pivot A R' n)) eqn:P; injection E as <- <-; [lia|].
      exists n, R'. repeat split; try assumption. lia.
    + cbn [Lapack_Model.cholesky] in E. rewrite E', (proj2 (Z.eqb_neq i' 0) N') in E. injection E as <- <-.
      destruct (IH R' i' eq_refl N') as (k & R'' & Hk & Hi & Ek & P). exists k, R''. repeat split; try assumption. lia.
Qed.
Lemma cholesky_ext A A' n : (forall i j, 0 <= i < Z.of_nat n -> 0 <= j <= i -> A i j = A' i j) ->
  cholesky A n = cholesky A' n.
Proof.
  induction n as [|n IH]; intros H; [reflexivity|]. cbn [Lapack_Model.cholesky].
  rewrite IH by (intros; apply H; lia). destruct (cholesky A' n) as [R i].
  rewrite (substitute_ext (entry R) (entry R) (fun j => A (Z.of_nat n) j) (fun j => A' (Z.of_nat n) j) n)
    by (intros; try reflexivity; apply H; lia).
  rewrite H by lia. reflexivity.
Qed.
Lemma first_zero_none A i n : first_zero is_zero A i n = 0 -> 0 <= i ->
  forall k, i <= k < i + Z.of_nat n -> is_zero (A k k) = false.
Proof.
  revert i. induction n as [|n IH]; intros i E Hi k Hk; [lia|]. cbn [first_zero] in E.
  destruct (is_zero (A i i)) eqn:Z0; [lia|].
  destruct (Z.eq_dec k i) as [->|N]; [exact Z0|]. apply (IH (i + 1) E); lia.
Qed.
Lemma first_zero_some A i n : 0 <= i -> (exists k, i <= k < i + Z.of_nat n /\ is_zero (A k k) = true) ->
  first_zero is_zero A i n <> 0.
Proof.
  revert i. induction n as [|n IH]; intros i Hi (k & Hk & Z0); [lia|]. cbn [first_zero].
  destruct (is_zero (A i i)) eqn:Zi; [lia|]. apply IH; [lia|]. exists k. split; [|exact Z0].
  assert (k <> i) by congruence. lia.
Qed.
End Ops.

Section Field.
Context {V : Type} (zero one : V) (add mul sub : V -> V -> V) (opp : V -> V) (div : V -> V -> V) (inv : V -> V).
Hypothesis Fth : field_theory zero one add mul sub opp div inv (@eq V).
Add Field VF2 : Fth.
Context (positive : V -> bool) (sqrt : V -> V).
Hypothesis sqrt_ok : forall d, positive d = true -> mul (sqrt d) (sqrt d) = d /\ sqrt d <> zero.
Local Notation Sum := (Sum zero add).
Local Notation product := (product zero add mul).
Local Notation entry := (entry zero).
Local Notation identity := (identity zero one).
Local Notation Sum_cut := (Sum_cut zero one add mul sub opp div inv Fth).
Local Notation Sum_last := (Sum_last zero one add mul sub opp div inv Fth).
Local Notation Sum_zero := (Sum_zero zero one add mul sub opp div inv Fth).
Local Notation Sum_scal := (Sum_scal zero one add mul sub opp div inv Fth).
Local Notation Sum_add := (Sum_add zero one add mul sub opp div inv Fth).
Local Notation Sum_swap := (Sum_swap zero one add mul sub opp div inv Fth).

Lemma factor_diag A n R i : factor zero add mul sub div positive sqrt A n R -> 0 <= i < Z.of_nat n -> entry R i i <> zero.
Proof using sqrt_ok.
  intros (_ & _ & F2 & _) Hi. specialize (F2 i Hi). cbv zeta in F2. destruct F2 as [P ->]. now apply sqrt_ok.
Qed.
(** R R^T is the symmetric matrix whose lower triangle is that of A. *)
Lemma factor_lower A n R i j : factor zero add mul sub div positive sqrt A n R -> 0 <= j <= i -> i < Z.of_nat n ->
  Sum (Z.of_nat n) (fun k => mul (entry R i k) (entry R j k)) = A i j.
Proof using Fth sqrt_ok.
  intros F Hj Hi. pose proof F as (_ & F1 & F2 & F3).
  rewrite (Sum_cut _ (j + 1)) by (try lia; intros k Hk; rewrite (F3 j k) by lia; ring).
  rewrite Sum_last by lia.
  destruct (Z.eq_dec i j) as [->|N].
  - specialize (F2 j ltac:(lia)). cbv zeta in F2. destruct F2 as [P E]. rewrite E.
    destruct (sqrt_ok _ P) as [S _]. rewrite S. ring.
  - rewrite (F1 i j) by lia.
    rewrite (Sum_ext zero add j (fun k => mul (entry R i k) (entry R j k)) (fun k => mul (entry R j k) (entry R i k)))
      by (intros; ring).
    field. apply (factor_diag A n R); [exact F|lia].
Qed.
Lemma factor_symmetric A n R : factor zero add mul sub div positive sqrt A n R ->
  agree (Z.of_nat n) (product (Z.of_nat n) (entry R) (transposed (entry R))) (symmetrized A).
Proof using Fth sqrt_ok.
  intros F i j Hi Hj. unfold HlBlas_Spec.product, transposed, symmetrized.
  destruct (Z.leb_spec j i).
  - apply (factor_lower A n R); [exact F|lia|lia].
  - rewrite <- (factor_lower A n R j i F) by lia. apply Sum_ext. intros; ring.
Qed.

(** Matrix algebra *)
Lemma product_assoc n k (f g h : matrix) i j :
  product k (product n f g) h i j = product n f (product k g h) i j.
Proof using Fth.
  unfold HlBlas_Spec.product.
  rewrite (Sum_ext zero add k _ (fun b => Sum n (fun a => mul (mul (f i a) (g a b)) (h b j)))).
  2:{ intros b Hb. rewrite (Sum_ext zero add n (fun a => mul (mul (f i a) (g a b)) (h b j))
                              (fun a => mul (h b j) (mul (f i a) (g a b)))) by (intros; ring).
      rewrite Sum_scal. ring. }
  rewrite Sum_swap. apply Sum_ext. intros a Ha. rewrite <- Sum_scal. apply Sum_ext. intros; ring.
Qed.
Lemma product_ext n (f f' g g' : matrix) i j : (forall k, 0 <= k < n -> f i k = f' i k) ->
  (forall k, 0 <= k < n -> g k j = g' k j) -> product n f g i j = product n f' g' i j.
Proof. intros H H'. apply Sum_ext. intros k Hk. now rewrite H, H' by exact Hk. Qed.
Lemma product_transposed n (f g : matrix) i j :
  product n (transposed f) (transposed g) i j = product n g f j i.
Proof using Fth. apply Sum_ext. intros k Hk. unfold transposed. ring. Qed.
Lemma Sum_single n (f : Z -> V) a : 0 <= a < n -> (forall k, 0 <= k < n -> k <> a -> f k = zero) -> Sum n f = f a.
Proof using Fth.
  intros Ha H. rewrite (Sum_cut n (a + 1)) by (try lia; intros; apply H; lia).
  rewrite Sum_last, Sum_zero by (try lia; intros; apply H; lia). ring.
Qed.
Lemma product_id_r n (f : matrix) i j : 0 <= j < n -> product n f identity i j = f i j.
Proof using Fth.
  intros Hj. unfold HlBlas_Spec.product, Lapack_Spec.identity. rewrite (Sum_single n _ j); [|exact Hj|].
  - rewrite Z.eqb_refl. ring.
  - intros k Hk N. rewrite (proj2 (Z.eqb_neq k j) N). ring.
Qed.
Lemma product_id_l n (f : matrix) i j : 0 <= i < n -> product n identity f i j = f i j.
Proof using Fth.
  intros Hi. unfold HlBlas_Spec.product, Lapack_Spec.identity. rewrite (Sum_single n _ i); [|exact Hi|].
  - rewrite Z.eqb_refl. ring.
  - intros k Hk N. rewrite (proj2 (Z.eqb_neq i k)) by congruence. ring.
Qed.

Definition lower_tri (n : Z) (f : matrix (V := V)) : Prop := forall i j, 0 <= i < n -> 0 <= j < n -> i < j -> f i j = zero.
(** The inverse of a lower triangular matrix, column by column. *)
Definition tri_inverse (T : matrix (V := V)) (n : Z) : matrix (V := V) :=
  fun i j => solve zero add mul sub div false T (fun k => if k =? j then one else zero) n i.
Lemma tri_inverse_right T n : lower_tri n T -> (forall i, 0 <= i < n -> T i i <> zero) ->
  agree n (product n T (tri_inverse T n)) identity.
Proof using Fth.
  intros L D i j Hi Hj. unfold HlBlas_Spec.product, tri_inverse.
  rewrite (solve_lower zero one add mul sub opp div inv Fth) by (try assumption; intros; now apply L). reflexivity.
Qed.
Lemma tri_inverse_lower T n : lower_tri n T -> (forall i, 0 <= i < n -> T i i <> zero) -> lower_tri n (tri_inverse T n).
Proof using Fth.
  intros L D i j Hi Hj. revert i Hi.
  assert (G : forall N, 0 <= N -> forall i, 0 <= i < n -> i < N -> i < j -> tri_inverse T n i j = zero).
  { apply (nonneg_ind (fun N => forall i, 0 <= i < n -> i < N -> i < j -> tri_inverse T n i j = zero)); [intros; lia|].
    intros N HN IH i Hi Hl Hij. unfold tri_inverse, HlBlas_Model.solve.
    rewrite (substitute_step zero add mul sub div) by exact Hi.
    rewrite (proj2 (Z.eqb_neq i j)) by lia. rewrite Sum_zero.
    - field. now apply D.
    - intros k Hk. change (nth (Z.to_nat k) _ zero) with (tri_inverse T n k j). rewrite IH by lia. ring. }
  intros i Hi Hij. apply (G n); lia.
Qed.
Lemma tri_inverse_diag T n i : lower_tri n T -> (forall i, 0 <= i < n -> T i i <> zero) -> 0 <= i < n ->
  mul (T i i) (tri_inverse T n i i) = one.
Proof using Fth.
  intros L D Hi. pose proof (tri_inverse_right T n L D i i Hi Hi) as E.
  unfold HlBlas_Spec.product, Lapack_Spec.identity in E. rewrite Z.eqb_refl in E. rewrite <- E. symmetry.
  apply (Sum_single n (fun k => mul (T i k) (tri_inverse T n k i))); [exact Hi|].
  intros k Hk N. destruct (Z_lt_le_dec k i).
  - rewrite (tri_inverse_lower T n L D k i) by lia. ring.
  - rewrite (L i k) by lia. ring.
Qed.
Lemma tri_inverse_left T n : lower_tri n T -> (forall i, 0 <= i < n -> T i i <> zero) ->
  agree n (product n (tri_inverse T n) T) identity.
Proof using Fth.
  intros L D.
  set (X := tri_inverse T n).
  assert (LX : lower_tri n X) by now apply tri_inverse_lower.
  assert (DX : forall i, 0 <= i < n -> X i i <> zero).
  { intros i Hi E. pose proof (tri_inverse_diag T n i L D Hi) as M. fold X in M. rewrite E in M.
    apply (F_1_neq_0 Fth). rewrite <- M. ring. }
  pose proof (tri_inverse_right X n LX DX) as XY. set (Y := tri_inverse X n) in *.
  pose proof (tri_inverse_right T n L D) as TX. fold X in TX.
  assert (E : agree n T Y).
  { intros i j Hi Hj.
    rewrite <- (product_id_r n T i j Hj).
    rewrite (product_ext n T T identity (product n X Y)) by (intros; try reflexivity; symmetry; now apply XY).
    rewrite <- product_assoc.
    rewrite (product_ext n (product n T X) identity Y Y) by (intros; try reflexivity; now apply TX).
    now apply product_id_l. }
  intros i j Hi Hj. rewrite (product_ext n X X T Y) by (intros; try reflexivity; now apply E).
  now apply XY.
Qed.
(** L^-T L^-1 is the inverse of L L^T. *)
Lemma inverse_of_square T n : lower_tri n T -> (forall i, 0 <= i < n -> T i i <> zero) ->
  agree n (product n (product n T (transposed T)) (product n (transposed (tri_inverse T n)) (tri_inverse T n))) identity.
Proof using Fth.
  intros L D i j Hi Hj. set (X := tri_inverse T n).
  rewrite product_assoc.
  rewrite (product_ext n T T _ X); [|reflexivity|].
  - now apply (tri_inverse_right T n L D).
  - intros k Hk. rewrite <- product_assoc.
    rewrite (product_ext n (product n (transposed T) (transposed X)) identity X X); [now apply product_id_l| |reflexivity].
    intros l Hl. rewrite product_transposed. pose proof (tri_inverse_left T n L D l k Hl Hk) as G. fold X in G. rewrite G.
    unfold Lapack_Spec.identity. now rewrite Z.eqb_sym.
Qed.
End Field.
