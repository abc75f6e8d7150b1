(** The reference BLAS computes the matrix formulas. *)
From Verif Require Import Base MatView_Model MatView_Spec HlBlas_Model HlBlas_Spec.
From Coq Require Import Field.
Local Open Scope Z_scope.
Local Arguments Z.eqb : simpl never.
Local Arguments Z.leb : simpl never.
Local Arguments Z.ltb : simpl never.
Local Arguments Z.max : simpl never.

Lemma In_range n i : In i (range n) <-> 0 <= i < n.
Proof.
  unfold range. rewrite in_map_iff. split.
  - intros (k & <- & H). apply in_seq in H. lia.
  - intros H. exists (Z.to_nat i). split; [lia|]. apply in_seq. lia.
Qed.
Lemma In_cells m n s i j : In (i, j) (cells m n s) <-> 0 <= i < m /\ 0 <= j < n /\ s i j = true.
Proof.
  unfold cells. rewrite filter_In. rewrite in_prod_iff, !In_range. simpl. tauto.
Qed.

Section Mem.
Context {V : Type} (zero : V).
Local Notation mem := (@MatView_Model.mem V).

Lemma col_inj ld r i j i' j' : 0 <= i < r -> 0 <= i' < r -> r <= ld ->
  i + j * ld = i' + j' * ld -> i = i' /\ j = j'.
Proof.
  intros H H' L E.
  assert (j = j') as ->.
  { destruct (Z.lt_trichotomy j j') as [G|[G|G]]; [exfalso|exact G|exfalso]; nia. }
  split; lia.
Qed.
Lemma address_inj o i j i' j' : legal o = true ->
  0 <= i < nrows o -> 0 <= j < ncols o -> 0 <= i' < nrows o -> 0 <= j' < ncols o ->
  address o i j = address o i' j' -> i = i' /\ j = j'.
Proof.
  unfold legal, address. intros L Hi Hj Hi' Hj' E.
  apply andb_prop in L as [_ L]. apply Z.leb_le in L.
  destruct (lay o).
  - apply (col_inj (ld o) (nrows o)); lia.
  - destruct (col_inj (ld o) (ncols o) j i j' i'); lia.
Qed.
Lemma write_at o f (m : mem) i j : legal o = true -> In (i, j) (cells (nrows o) (ncols o) (sel o)) ->
  write o f m (address o i j) = Some (f i j).
Proof.
  intros L H. unfold write.
  destruct (find _ _) as [[i' j']|] eqn:E.
  - apply find_some in E as [H' E]. simpl in *. apply Z.eqb_eq in E.
    apply In_cells in H, H'.
    destruct (address_inj o i' j' i j) as [-> ->]; tauto.
  - apply find_none with (x := (i, j)) in E; [|exact H]. simpl in E.
    now rewrite Z.eqb_refl in E.
Qed.
Lemma write_other o f (m : mem) a :
  (forall i j, In (i, j) (cells (nrows o) (ncols o) (sel o)) -> a <> address o i j) ->
  write o f m a = m a.
Proof.
  intros H. unfold write. destruct (find _ _) as [[i' j']|] eqn:E; [|reflexivity].
  apply find_some in E as [H' E]. simpl in *. apply Z.eqb_eq in E. exfalso. now apply (H i' j').
Qed.

(** An operand that describes a view. *)
Definition describes (o : operand) (v : view) (P : Z -> Z -> Prop) : Prop :=
  lay o = ColMajor /\ ptr o = data v /\ ld o = outer_stride v /\ nrows o = rows v /\ ncols o = cols v /\
  forall i j, sel o i j = true <-> P i j.
Lemma describes_cells o v P i j : describes o v P ->
  In (i, j) (cells (nrows o) (ncols o) (sel o)) <-> in_range v i j /\ P i j.
Proof.
  intros (_ & _ & _ & R & C & S). rewrite In_cells, R, C, S. unfold in_range. tauto.
Qed.
Lemma describes_address o v P i j : describes o v P -> inner_stride v = 1 -> address o i j = elem v i j.
Proof. intros (L & D & O & _) E. unfold address, elem. rewrite L, D, O, E. lia. Qed.
Lemma describes_legal o v P m : describes o v P -> usable (V := V) P v m -> legal o = true.
Proof.
  intros (L & D & O & R & C & _) (E & Hr & Hc & H1 & H2 & _). unfold legal. rewrite L, R, C, O.
  repeat (apply andb_true_intro; split); apply Z.leb_le; lia.
Qed.
Lemma describes_present o v P (m : mem) : describes o v P -> usable P v m -> present m o = true.
Proof.
  intros D U. unfold present. apply forallb_forall. intros a H.
  unfold addresses in H. apply in_map_iff in H as ([i j] & <- & H). simpl.
  apply (describes_cells o v P) in H as [R HP]; [|exact D].
  rewrite (describes_address o v P) by (try apply U; exact D).
  destruct U as (_ & _ & _ & _ & _ & U). specialize (U i j R HP).
  destruct (m (elem v i j)); [reflexivity|congruence].
Qed.
Lemma describes_value o v P (m : mem) i j : describes o v P -> inner_stride v = 1 -> value zero m o i j = shown zero m v i j.
Proof. intros D E. unfold value, shown. now rewrite (describes_address o v P) by assumption. Qed.
Lemma no_overlap o o' : (forall i j k l, In (i, j) (cells (nrows o) (ncols o) (sel o)) ->
    In (k, l) (cells (nrows o') (ncols o') (sel o')) -> address o i j <> address o' k l) ->
  overlap o o' = false.
Proof.
  intros H. unfold overlap. apply not_true_is_false. intros E.
  apply existsb_exists in E as (a & Ha & E). apply existsb_exists in E as (b & Hb & E).
  apply Z.eqb_eq in E. subst b. unfold addresses in Ha, Hb.
  apply in_map_iff in Ha as ([i j] & Ea & Ha). apply in_map_iff in Hb as ([k l] & Eb & Hb).
  simpl in *. apply (H i j k l Ha Hb). congruence.
Qed.
Lemma describes_overlap o v P o' v' P' : describes o v P -> describes o' v' P' ->
  inner_stride v = 1 -> inner_stride v' = 1 -> apart v P v' P' -> overlap o o' = false.
Proof.
  intros D D' E E' H. apply no_overlap. intros i j k l Hij Hkl.
  apply (describes_cells o v P) in Hij as [? ?]; [|exact D].
  apply (describes_cells o' v' P') in Hkl as [? ?]; [|exact D'].
  rewrite (describes_address o v P), (describes_address o' v' P') by assumption. now apply H.
Qed.

Lemma routine_ok inputs o f (m : mem) :
  legal o = true -> present m o = true ->
  (forall i, In i inputs -> legal i = true /\ present m i = true /\ overlap o i = false) ->
  routine (V := V) inputs o f m = Ok (write o (f m) m).
Proof.
  intros L P I. unfold routine. cbn [forallb]. rewrite L, P.
  rewrite (proj2 (forallb_forall legal inputs)) by (intros x Hx; apply (I x Hx)).
  rewrite (proj2 (forallb_forall (present m) inputs)) by (intros x Hx; apply (I x Hx)).
  destruct (existsb (overlap o) inputs) eqn:E; [|reflexivity].
  exfalso. apply existsb_exists in E as (x & Hx & E). destruct (I x Hx) as (_ & _ & I'). congruence.
Qed.
Lemma updated_write o v P f (m : mem) : describes o v P -> usable P v m -> updated m (write o f m) v P f.
Proof.
  intros D U. split.
  - intros i j R HP. rewrite <- (describes_address o v P) by (try apply U; exact D).
    apply write_at; [eapply describes_legal; eassumption|]. apply (describes_cells o v P); auto.
  - intros a H. apply write_other. intros i j C.
    apply (describes_cells o v P) in C as [R HP]; [|exact D].
    rewrite (describes_address o v P) by (try apply U; exact D). now apply H.
Qed.
Lemma updated_ext m m' v (P : Z -> Z -> Prop) f g : (forall i j, in_range v i j -> P i j -> f i j = g i j) ->
  updated (V := V) m m' v P f -> updated m m' v P g.
Proof.
  intros H [U1 U2]. split; [|exact U2]. intros i j R HP. rewrite <- H by assumption. auto.
Qed.

(** Vectors. *)
Definition vdescribes (o : operand) (v : view) : Prop := o = vector (data v) 1 (rows v).
Lemma v_cells v i j : In (i, j) (cells (nrows (vector (data v) 1 (rows v))) (ncols (vector (data v) 1 (rows v)))
    (sel (vector (data v) 1 (rows v)))) <-> i = 0 /\ 0 <= j < rows v.
Proof. rewrite In_cells. unfold vector, everywhere. cbn. lia. Qed.
Lemma v_address v j : inner_stride v = 1 -> address (vector (data v) 1 (rows v)) 0 j = elem v j 0.
Proof. intros E. unfold address, vector, elem. cbn. rewrite E. lia. Qed.
Lemma v_value v (m : mem) j : inner_stride v = 1 -> value zero m (vector (data v) 1 (rows v)) 0 j = shown zero m v j 0.
Proof. intros E. unfold value, shown. now rewrite v_address. Qed.
Lemma v_legal v m : usable_vector (V := V) v m -> legal (vector (data v) 1 (rows v)) = true.
Proof.
  intros (E & H & C & _). unfold legal, vector. cbn.
  rewrite (proj2 (Z.leb_le 0 (rows v))) by lia. reflexivity.
Qed.
Lemma v_present v (m : mem) : usable_vector v m -> present (V := V) m (vector (data v) 1 (rows v)) = true.
Proof.
  intros (E & H & C & U). unfold present. apply forallb_forall. intros a Ha.
  unfold addresses in Ha. apply in_map_iff in Ha as ([i j] & <- & Ha). cbn [fst snd].
  apply v_cells in Ha as [-> Hj]. rewrite v_address by exact E. specialize (U j Hj).
  destruct (m (elem v j 0)); [reflexivity|congruence].
Qed.
Lemma v_updated v f (m : mem) : usable_vector v m ->
  updated m (write (vector (data v) 1 (rows v)) f m) v all_positions (fun i _ => f 0 i).
Proof.
  intros U. pose proof U as (E & H & C & _). split.
  - intros i j [R R'] _. rewrite C in R'. assert (j = 0) as -> by lia.
    rewrite <- v_address by exact E. apply write_at; [eapply v_legal; eassumption|].
    apply v_cells. lia.
  - intros a N. apply write_other. intros i j Hij. apply v_cells in Hij as [-> Hj].
    rewrite v_address by exact E. apply N; [|exact I]. split; lia.
Qed.
Lemma v_overlap v o' v' P' : describes o' v' P' -> inner_stride v = 1 -> inner_stride v' = 1 ->
  cols v = 1 -> apart v all_positions v' P' -> overlap (vector (data v) 1 (rows v)) o' = false.
Proof.
  intros D' E E' C H. apply no_overlap. intros i j k l Hij Hkl.
  apply v_cells in Hij as [-> Hj].
  apply (describes_cells o' v' P') in Hkl as [? ?]; [|exact D'].
  rewrite v_address, (describes_address o' v' P') by assumption.
  apply H; try assumption; [split; lia|exact I].
Qed.
Lemma v_v_overlap v v' : inner_stride v = 1 -> inner_stride v' = 1 ->
  cols v = 1 -> cols v' = 1 -> apart v all_positions v' all_positions ->
  overlap (vector (data v) 1 (rows v)) (vector (data v') 1 (rows v')) = false.
Proof.
  intros E E' C C' H. apply no_overlap. intros i j k l Hij Hkl.
  apply v_cells in Hij as [-> Hj]. apply v_cells in Hkl as [-> Hl].
  rewrite !v_address by assumption.
  apply H; try exact I; split; lia.
Qed.
End Mem.

(** ** Sums *)
Section Alg.
Context {V : Type} (zero one : V) (add mul : V -> V -> V).
Local Notation Sum := (Sum zero add).
Local Notation total := (total zero add).

Lemma sum_from_ext n : forall k f g, (forall i, k <= i < k + Z.of_nat n -> f i = g i) ->
  sum_from zero add n k f = sum_from zero add n k g.
Proof.
  induction n as [|n IH]; intros k f g H; [reflexivity|]. cbn [sum_from].
  rewrite (H k) by lia. f_equal. apply IH. intros i Hi. apply H. lia.
Qed.
Lemma Sum_ext n f g : (forall i, 0 <= i < n -> f i = g i) -> Sum n f = Sum n g.
Proof. intros H. apply sum_from_ext. intros i Hi. apply H. lia. Qed.
Lemma total_Sum n f : total n f = Sum n f.
Proof.
  unfold HlBlas_Model.total, HlBlas_Spec.Sum, range. rewrite map_map.
  generalize (Z.to_nat n). intros k.
  assert (G : forall k a z, z = Z.of_nat a -> fold_right add zero (map (fun x => f (Z.of_nat x)) (seq a k)) =
                       sum_from zero add k z f).
  { clear. induction k as [|k IH]; intros a z ->; [reflexivity|].
    cbn [seq map fold_right sum_from]. f_equal. apply IH. lia. }
  now apply G.
Qed.

Context (sub : V -> V -> V) (opp : V -> V) (div : V -> V -> V) (inv : V -> V).
Hypothesis Fth : field_theory zero one add mul sub opp div inv (@eq V).
Add Field VF : Fth.

Lemma sum_from_last n : forall k f, sum_from zero add (S n) k f = add (sum_from zero add n k f) (f (k + Z.of_nat n)).
Proof.
  induction n as [|n IH]; intros k f.
  - cbn. rewrite Z.add_0_r. ring.
  - change (sum_from zero add (S (S n)) k f) with (add (f k) (sum_from zero add (S n) (k + 1) f)).
    rewrite IH. cbn [sum_from]. replace (k + 1 + Z.of_nat n) with (k + Z.of_nat (S n)) by lia. ring.
Qed.
Lemma Sum_last n f : 0 <= n -> Sum (n + 1) f = add (Sum n f) (f n).
Proof.
  intros H. unfold HlBlas_Spec.Sum. replace (Z.to_nat (n + 1)) with (S (Z.to_nat n)) by lia.
  rewrite sum_from_last. do 2 f_equal. lia.
Qed.
Lemma Sum_0 n f : n <= 0 -> Sum n f = zero.
Proof. intros H. unfold HlBlas_Spec.Sum. now replace (Z.to_nat n) with 0%nat by lia. Qed.
(** Induction on the number of terms. *)
Lemma nonneg_ind (P : Z -> Prop) : P 0 -> (forall n, 0 <= n -> P n -> P (n + 1)) -> forall n, 0 <= n -> P n.
Proof. intros H0 H1. apply natlike_ind; [exact H0|]. intros x Hx. unfold Z.succ. now apply H1. Qed.
Lemma Sum_first n f : 0 <= n -> Sum (n + 1) f = add (f 0) (Sum n (fun k => f (k + 1))).
Proof.
  intros H. unfold HlBlas_Spec.Sum. replace (Z.to_nat (n + 1)) with (S (Z.to_nat n)) by lia.
  cbn [sum_from]. f_equal.
  assert (G : forall c k z, sum_from zero add c (z + k) f = sum_from zero add c z (fun i => f (i + k))).
  { clear. induction c as [|c IH]; intros k z; [reflexivity|]. cbn [sum_from]. f_equal.
    rewrite <- IH. f_equal. lia. }
  apply G.
Qed.
Lemma Sum_zero n f : (forall i, 0 <= i < n -> f i = zero) -> Sum n f = zero.
Proof using Fth.
  intros H. destruct (Z_lt_le_dec n 0) as [L|L]; [now apply Sum_0; lia|].
  revert n L H. apply (nonneg_ind (fun n => (forall i, 0 <= i < n -> f i = zero) -> Sum n f = zero)).
  - intros _. now apply Sum_0.
  - intros n Hn IH H. rewrite Sum_last, IH, H by (try lia; intros; apply H; lia). ring.
Qed.
Lemma Sum_cut n i f : 0 <= i <= n -> (forall k, i <= k < n -> f k = zero) -> Sum n f = Sum i f.
Proof using Fth.
  intros [H0 H] Z0. replace n with (i + (n - i)) in * by lia.
  assert (G : 0 <= n - i) by lia. revert G Z0. clear H. generalize (n - i).
  apply (nonneg_ind (fun d => (forall k, i <= k < i + d -> f k = zero) -> Sum (i + d) f = Sum i f)).
  - intros _. now rewrite Z.add_0_r.
  - intros d Hd IH HZ. rewrite Z.add_assoc, Sum_last, IH, HZ by (try lia; intros; apply HZ; lia). ring.
Qed.
Lemma Sum_rev n f : Sum n (fun k => f (n - 1 - k)) = Sum n f.
Proof using Fth.
  destruct (Z_lt_le_dec n 0) as [L|L]; [rewrite !Sum_0 by lia; reflexivity|].
  revert n L. apply (nonneg_ind (fun n => Sum n (fun k => f (n - 1 - k)) = Sum n f)).
  - now rewrite !Sum_0 by lia.
  - intros n Hn IH. rewrite Sum_first, Sum_last by exact Hn. rewrite <- IH.
    replace (n + 1 - 1 - 0) with n by lia.
    rewrite (Sum_ext n _ (fun k => f (n - 1 - k))) by (intros; f_equal; lia). ring.
Qed.
Lemma Sum_scal n a f : Sum n (fun k => mul a (f k)) = mul a (Sum n f).
Proof using Fth.
  destruct (Z_lt_le_dec n 0) as [L|L]; [rewrite !Sum_0 by lia; ring|].
  revert n L. apply (nonneg_ind (fun n => Sum n (fun k => mul a (f k)) = mul a (Sum n f))).
  - rewrite !Sum_0 by lia. ring.
  - intros n Hn IH. rewrite !Sum_last, IH by exact Hn. ring.
Qed.
Lemma Sum_add n f g : Sum n (fun k => add (f k) (g k)) = add (Sum n f) (Sum n g).
Proof using Fth.
  destruct (Z_lt_le_dec n 0) as [L|L]; [rewrite !Sum_0 by lia; ring|].
  revert n L. apply (nonneg_ind (fun n => Sum n (fun k => add (f k) (g k)) = add (Sum n f) (Sum n g))).
  - rewrite !Sum_0 by lia. ring.
  - intros n Hn IH. rewrite !Sum_last, IH by exact Hn. ring.
Qed.
Lemma Sum_swap n k (f : Z -> Z -> V) : Sum n (fun i => Sum k (fun j => f i j)) = Sum k (fun j => Sum n (fun i => f i j)).
Proof using Fth.
  destruct (Z_lt_le_dec n 0) as [L|L].
  { rewrite Sum_0 by lia. symmetry. apply Sum_zero. intros. apply Sum_0. lia. }
  revert n L. apply (nonneg_ind (fun n => Sum n (fun i => Sum k (fun j => f i j)) = Sum k (fun j => Sum n (fun i => f i j)))).
  - rewrite Sum_0 by lia. symmetry. apply Sum_zero. intros. apply Sum_0. lia.
  - intros n Hn IH. rewrite Sum_last, IH by exact Hn. rewrite <- Sum_add. apply Sum_ext.
    intros i Hi. now rewrite Sum_last.
Qed.

(** ** Substitution *)
Local Notation substitute := (substitute zero add mul sub div).
Local Notation solve := (solve zero add mul sub div).
Lemma substitute_length T b n : length (substitute T b n) = n.
Proof. induction n as [|n IH]; [reflexivity|]. cbn [HlBlas_Model.substitute]. rewrite app_length, IH. cbn. lia. Qed.
Lemma substitute_prefix T b n : forall k i, (i < k)%nat -> (k <= n)%nat ->
  nth i (substitute T b n) zero = nth i (substitute T b k) zero.
Proof.
  induction n as [|n IH]; intros k i Hi Hk; [lia|].
  destruct (Nat.eq_dec k (S n)) as [->|N]; [reflexivity|].
  cbn [HlBlas_Model.substitute]. rewrite app_nth1 by (rewrite substitute_length; lia). apply IH; lia.
Qed.
Lemma substitute_step T b n i : 0 <= i < n ->
  nth (Z.to_nat i) (substitute T b (Z.to_nat n)) zero =
  div (sub (b i) (Sum i (fun j => mul (T i j) (nth (Z.to_nat j) (substitute T b (Z.to_nat n)) zero)))) (T i i).
Proof.
  intros H. rewrite (substitute_prefix T b (Z.to_nat n) (S (Z.to_nat i))) by lia.
  cbn [HlBlas_Model.substitute]. rewrite app_nth2 by (rewrite substitute_length; lia).
  rewrite substitute_length, Nat.sub_diag. cbn [nth]. rewrite Z2Nat.id by lia.
  rewrite total_Sum. do 2 f_equal. apply Sum_ext. intros j Hj. f_equal.
  symmetry. apply substitute_prefix; lia.
Qed.
Lemma solve_lower T b n i : (forall r c, 0 <= r < n -> 0 <= c < n -> r < c -> T r c = zero) ->
  (forall r, 0 <= r < n -> T r r <> zero) -> 0 <= i < n ->
  Sum n (fun k => mul (T i k) (solve false T b n k)) = b i.
Proof using Fth.
  intros HT HD Hi. unfold HlBlas_Model.solve.
  rewrite (Sum_cut n (i + 1)) by (try lia; intros k Hk; rewrite HT by lia; ring).
  rewrite Sum_last by lia. rewrite (substitute_step T b n i) by exact Hi.
  field. now apply HD.
Qed.
Lemma solve_upper T b n i : (forall r c, 0 <= r < n -> 0 <= c < n -> c < r -> T r c = zero) ->
  (forall r, 0 <= r < n -> T r r <> zero) -> 0 <= i < n ->
  Sum n (fun k => mul (T i k) (solve true T b n k)) = b i.
Proof using Fth.
  intros HT HD Hi.
  pose proof (solve_lower (fun r c => T (n - 1 - r) (n - 1 - c)) (fun r => b (n - 1 - r)) n (n - 1 - i)) as L.
  cbv beta in L. replace (n - 1 - (n - 1 - i)) with i in L by lia.
  rewrite <- L; [|intros; apply HT; lia|intros; apply HD; lia|lia].
  rewrite <- Sum_rev. apply Sum_ext. intros k Hk. f_equal.
  unfold HlBlas_Model.solve. do 2 f_equal. lia.
Qed.
End Alg.
