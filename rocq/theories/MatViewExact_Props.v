(** C29, C30: exactly which shapes the triangular and diagonal operations of a
    view work for. *)
From Verif Require Import Base MatView_Model MatView_Spec MatView_Proofs MatView_Props.
Local Open Scope outcome_scope.
Local Open Scope Z_scope.

(** The array holds the elements of the view and nothing else. *)
Definition tight {V} (v : view) (m : mem V) : Prop := forall a, m a <> None <-> is_elem v a.
(** The columns lie one behind the other, as in every matrix in the storage order
    of the view. *)
Definition columns_in_order (v : view) : Prop :=
  0 < inner_stride v /\ rows v * inner_stride v <= outer_stride v.

(** ** Loops that succeed have made all their accesses in allocated memory *)
Lemma loop_all {S} (P : S -> Prop) (Q : Z -> Prop) body : forall n lo s s',
  (forall i s s', lo <= i < lo + Z.of_nat n -> P s -> body i s = Ok s' -> P s' /\ Q i) ->
  P s -> loop n lo body s = Ok s' -> P s' /\ forall i, lo <= i < lo + Z.of_nat n -> Q i.
Proof.
  induction n as [|n IH]; intros lo s s' H Ps L.
  - cbn [loop] in L. injection L as <-. split; [exact Ps|intros i Hi; lia].
  - cbn [loop] in L. destruct (body lo s) as [s1| | |] eqn:B; try discriminate L. cbn [bind] in L.
    destruct (H lo s s1 ltac:(lia) Ps B) as [P1 Q1].
    destruct (IH (lo + 1) s1 s') as [P2 Q2]; [|exact P1|exact L|].
    + intros i t t' Hi. apply H. lia.
    + split; [exact P2|]. intros i Hi. destruct (Z.eq_dec i lo) as [->|]; [exact Q1|]. apply Q2. lia.
Qed.

Lemma for_all {S} (P : S -> Prop) (Q : Z -> Prop) body lo hi s s' :
  (forall i s s', lo <= i < hi -> P s -> body i s = Ok s' -> P s' /\ Q i) ->
  P s -> for_ lo hi body s = Ok s' -> P s' /\ forall i, lo <= i < hi -> Q i.
Proof.
  intros H Ps L. unfold for_ in L.
  destruct (loop_all P Q body (Z.to_nat (hi - lo)) lo s s') as [A B]; [|exact Ps|exact L|].
  - intros i t t' Hi. apply H. lia.
  - split; [exact A|]. intros i Hi. apply B. lia.
Qed.

Definition same_domain {V} (m0 m : mem V) : Prop := forall a, m a <> None <-> m0 a <> None.

Lemma store_domain {V} (m0 m m' : mem V) a t : same_domain m0 m -> store m a t = Ok m' ->
  same_domain m0 m' /\ m0 a <> None.
Proof.
  intros D St. unfold store in St. destruct (m a) as [x|] eqn:E; [|discriminate St]. injection St as <-.
  assert (A : m0 a <> None) by (apply D; congruence). split; [|exact A].
  intros b. cbv beta. destruct (Z.eqb_spec b a) as [->|N]; [|apply D]. split; [intros _; exact A|discriminate].
Qed.

Lemma fill_domain {V} (m0 m m' : mem V) p n t : same_domain m0 m -> fill_n p n t m = Ok m' ->
  same_domain m0 m' /\ forall i, 0 <= i < n -> m0 (p + i) <> None.
Proof.
  intros D F. unfold fill_n in F.
  apply (for_all (same_domain m0) (fun i => m0 (p + i) <> None) (fun i m => store m (p + i) t) 0 n m m'); [|exact D|exact F].
  intros i s s' _ Ds B. eapply store_domain; eassumption.
Qed.

(** [columns p k]: the columns [lo..hi) are filled from [p c] with [k c] elements. *)
Lemma fills_domain {V} (p k : Z -> Z) lo hi (t : V) (m m' : mem V) :
  for_ lo hi (fun c m => fill_n (p c) (k c) t m) m = Ok m' ->
  forall c i, lo <= c < hi -> 0 <= i < k c -> m (p c + i) <> None.
Proof.
  intros F. destruct (for_all (same_domain m) (fun c => forall i, 0 <= i < k c -> m (p c + i) <> None)
    (fun c m => fill_n (p c) (k c) t m) lo hi m m') as [_ A]; [|intros a; reflexivity|exact F|].
  - intros c s s' _ Ds B. eapply fill_domain; eassumption.
  - intros c i Hc. exact (A c Hc i).
Qed.

(** No element lies at or behind this address. *)
Lemma elem_below v a : columns_in_order v -> is_elem v a ->
  a <= data v + (rows v - 1) * inner_stride v + (cols v - 1) * outer_stride v.
Proof.
  intros [Pi Po] (r & c & [Hr Hc] & ->). unfold elem.
  assert (0 <= (rows v - 1 - r) * inner_stride v) by (apply Z.mul_nonneg_nonneg; lia).
  assert (0 <= outer_stride v) by (assert (0 <= rows v * inner_stride v) by (apply Z.mul_nonneg_nonneg; lia); lia).
  assert (0 <= (cols v - 1 - c) * outer_stride v) by (apply Z.mul_nonneg_nonneg; lia). lia.
Qed.

(** C29. In an array that holds just the view, set_constant of a triangle is
    defined exactly for these shapes; and whenever it is defined it does what it
    should. *)
Theorem C29_exact :
  forall (V : Type) v (t : V) tr m,
    inner_stride v = 1 -> 1 <= rows v -> 1 <= cols v -> columns_in_order v -> tight v m ->
    let right m' :=
      (forall r c, in_range v r c -> in_triangle tr r c -> m' (elem v r c) = Some t) /\
      (forall a, (forall r c, in_range v r c -> in_triangle tr r c -> a <> elem v r c) -> m' a = m a) in
    let shape := match tr with
      | Lower => rows v <= cols v
      | StrictlyLower => rows v <= cols v + 1
      | Upper => rows v = cols v
      | StrictlyUpper => rows v <= cols v <= rows v + 1
      end in
    (shape -> exists m', set_constant_tri v t tr m = Ok m' /\ right m') /\
    (~ shape -> forall m', set_constant_tri v t tr m <> Ok m').
Proof.
  intros V v t tr m I R C O T right shape. split.
  { intros Sh. apply set_tri_ok; [exact I|exact Sh|]. intros a Ha. now apply T. }
  intros N m' E. subst shape. unfold columns_in_order in O.
  assert (Far : forall a, data v + (rows v - 1) + (cols v - 1) * outer_stride v < a -> m a <> None -> False).
  { intros a Ha A. apply T in A. apply (elem_below v a O) in A. rewrite I in A. lia. }
  rewrite I in O. destruct O as [_ O].
  destruct tr; unfold set_constant_tri in E.
  - pose proof (fills_domain (fun c => data v + c + c * outer_stride v) (fun c => rows v - c) _ _ _ _ _ E (cols v) 0 ltac:(lia) ltac:(lia)) as D.
    refine (Far _ _ D). cbv beta. lia.
  - pose proof (fills_domain (fun c => data v + c + 1 + c * outer_stride v) (fun c => rows v - c - 1) _ _ _ _ _ E (cols v) 0 ltac:(lia) ltac:(lia)) as D.
    refine (Far _ _ D). cbv beta. lia.
  - destruct (Z_lt_dec (cols v) (rows v)) as [L|L].
    + pose proof (fills_domain (fun c => data v + c * outer_stride v) (fun c => 1 + c) _ _ _ _ _ E (cols v) 0 ltac:(lia) ltac:(lia)) as D.
      refine (Far _ _ D). cbv beta. lia.
    + pose proof (fills_domain (fun c => data v + c * outer_stride v) (fun c => 1 + c) _ _ _ _ _ E (cols v - 1) (cols v - 1) ltac:(lia) ltac:(lia)) as D.
      refine (Far _ _ D). cbv beta. lia.
  - destruct (Z_lt_dec (cols v) (rows v)) as [L|L].
    + pose proof (fills_domain (fun c => data v + c * outer_stride v) (fun c => c) _ _ _ _ _ E (cols v) 0 ltac:(lia) ltac:(lia)) as D.
      refine (Far _ _ D). cbv beta. lia.
    + pose proof (fills_domain (fun c => data v + c * outer_stride v) (fun c => c) _ _ _ _ _ E (cols v - 1) (cols v - 2) ltac:(lia) ltac:(lia)) as D.
      refine (Far _ _ D). cbv beta. lia.
Qed.
Print Assumptions C29_exact.

Lemma tight_mem_of r c : 0 <= r -> 0 <= c -> tight (View 0 r c 1 r) (mem_of (r * c)).
Proof.
  intros R C a. unfold mem_of. destruct ((0 <=? a) && (a <? r * c)) eqn:E; split.
  - intros _. exists (a mod r), (a / r).
    assert (Hr : 0 < r) by nia. unfold in_range, elem; cbn [data rows cols inner_stride outer_stride].
    pose proof (Z.mod_pos_bound a r Hr). pose proof (Z.div_mod a r ltac:(lia)).
    assert (0 <= a / r) by (apply Z.div_pos; lia).
    assert (a / r < c) by (apply Z.div_lt_upper_bound; lia). lia.
  - intros _. discriminate.
  - intros H. now destruct H.
  - intros (i & j & [Hi Hj] & ->) _. unfold elem in E; cbn [data rows cols inner_stride outer_stride] in *.
    assert (0 <= j * r) by (apply Z.mul_nonneg_nonneg; lia).
    assert ((j + 1) * r <= c * r) by (apply Z.mul_le_mono_nonneg_r; lia). lia.
Qed.

(** A 3 x 4 array: fine for Lower, not for Upper. *)
Example C29_exact_nonvacuous :
  let v := View 0 3 4 1 3 in
  columns_in_order v /\ tight v (mem_of 12) /\
  (exists m', set_constant_tri v (-1) Lower (mem_of 12) = Ok m') /\
  set_constant_tri v (-1) Upper (mem_of 12) = UB.
Proof.
  cbn zeta. split; [split; cbn; lia|]. split; [apply (tight_mem_of 3 4); lia|].
  split; [eexists; reflexivity|reflexivity].
Qed.

(** ** The diagonal *)
Lemma diagonal_domain {V} (body : mem V -> Z -> outcome (mem V)) d (n p : Z) (m : mem V) m' q :
  (forall m0 m m' p, same_domain m0 m -> body m p = Ok m' -> same_domain m0 m' /\ m0 p <> None) ->
  for_ 0 n (fun _ '(m, p) => m' <- body m p ;; Ok (m', p + d)) (m, p) = Ok (m', q) ->
  forall i, 0 <= i < n -> m (p + i * d) <> None.
Proof.
  intros B F. unfold for_ in F. rewrite Z.sub_0_r in F.
  assert (G : forall k lo (m1 : mem V) p1, same_domain m m1 ->
    loop k lo (fun _ '(m, p) => m' <- body m p ;; Ok (m', p + d)) (m1, p1) = Ok (m', q) ->
    forall i, 0 <= i < Z.of_nat k -> m (p1 + i * d) <> None).
  { induction k as [|k IH]; intros lo m1 p1 D L i Hi; [lia|]. cbn [loop] in L.
    destruct (body m1 p1) as [m2| | |] eqn:E; try discriminate L. cbn [bind] in L.
    destruct (B m m1 m2 p1 D E) as [D2 A].
    destruct (Z.eq_dec i 0) as [->|Ni]; [now rewrite Z.mul_0_l, Z.add_0_r|].
    specialize (IH _ m2 (p1 + d) D2 L (i - 1) ltac:(lia)). now replace (p1 + i * d) with (p1 + d + (i - 1) * d) by lia. }
  intros i Hi. eapply (G (Z.to_nat n)); [intros a; reflexivity|exact F|lia].
Qed.

Lemma past_end {V} v (m : mem V) : columns_in_order v -> tight v m -> 0 <= rows v -> 0 <= cols v -> rows v <> cols v ->
  (forall i, 0 <= i < Z.max (rows v) (cols v) -> m (data v + i * (outer_stride v + inner_stride v)) <> None) -> False.
Proof.
  intros O T R C N A.
  assert (Far : forall a, data v + (rows v - 1) * inner_stride v + (cols v - 1) * outer_stride v < a -> m a <> None -> False).
  { intros a Ha H. apply T in H. apply (elem_below v a O) in H. lia. }
  destruct O as [Pi Po].
  destruct (Z.eq_dec (rows v) 0) as [R0|R0].
  { specialize (A 0 ltac:(lia)). apply T in A. destruct A as (r & c & [Hr Hc] & _). lia. }
  assert (P1 : 1 * inner_stride v <= rows v * inner_stride v) by (apply Z.mul_le_mono_nonneg_r; lia).
  destruct (Z_lt_dec (cols v) (rows v)) as [L|L].
  - refine (Far _ _ (A (cols v) ltac:(lia))).
    assert (0 <= cols v * inner_stride v) by (apply Z.mul_nonneg_nonneg; lia). lia.
  - refine (Far _ _ (A (cols v - 1) ltac:(lia))).
    assert ((rows v - 1) * inner_stride v < (cols v - 1) * inner_stride v) by (apply Z.mul_lt_mono_pos_r; lia). lia.
Qed.

(** C30. In an array that holds just the view, the diagonal operations are defined
    exactly for square views. *)
Theorem C30_exact :
  forall (V : Type) (add : V -> V -> V) v (t : V) m,
    0 <= rows v -> 0 <= cols v -> columns_in_order v -> tight v m ->
    ((exists m', set_diagonal v t m = Ok m') <-> rows v = cols v) /\
    ((exists m', add_to_diagonal add v t m = Ok m') <-> rows v = cols v) /\
    ((forall i, 0 <= i < rows (diagonal v) -> exists a, at_ (diagonal v) i 0 = Ok a /\ is_elem v a) <-> rows v = cols v).
Proof.
  intros V add v t m R C O T.
  assert (Al : allocated v m) by (intros a Ha; now apply T).
  assert (Ov : no_self_overlap v).
  { intros r c r' c' [Hr Hc] [Hr' Hc'] E. unfold elem in E. destruct O as [Pi Po].
    assert (Hc2 : c = c').
    { destruct (Z.lt_trichotomy c c') as [L|[L|L]]; [|exact L|].
      - assert ((c + 1) * outer_stride v <= c' * outer_stride v) by (apply Z.mul_le_mono_nonneg_r; nia).
        assert ((r - r') * inner_stride v < rows v * inner_stride v) by (apply Z.mul_lt_mono_pos_r; lia). lia.
      - assert ((c' + 1) * outer_stride v <= c * outer_stride v) by (apply Z.mul_le_mono_nonneg_r; nia).
        assert ((r' - r) * inner_stride v < rows v * inner_stride v) by (apply Z.mul_lt_mono_pos_r; lia). lia. }
    subst c'. split; [|reflexivity]. assert (r * inner_stride v = r' * inner_stride v) by lia.
    apply Z.mul_reg_r in H; lia. }
  split; [|split]; split.
  - intros [m' E]. destruct (Z.eq_dec (rows v) (cols v)) as [|N]; [assumption|exfalso].
    apply (past_end v m O T R C N). unfold set_diagonal in E. cbv zeta in E.
    destruct (for_ 0 (Z.max (rows v) (cols v)) _ (m, data v)) as [[m1 q]| | |] eqn:F; try discriminate E.
    apply (diagonal_domain (fun m p => store m p t) _ _ _ _ m1 q); [|exact F].
    intros. eapply store_domain; eassumption.
  - intros Q. destruct (set_diagonal_ok v t m Q Al Ov) as (m' & E & _). eauto.
  - intros [m' E]. destruct (Z.eq_dec (rows v) (cols v)) as [|N]; [assumption|exfalso].
    apply (past_end v m O T R C N). unfold add_to_diagonal in E. cbv zeta in E.
    destruct (for_ 0 (Z.max (rows v) (cols v)) _ (m, data v)) as [[m1 q]| | |] eqn:F; try discriminate E.
    apply (diagonal_domain (fun m p => x <- load m p ;; store m p (add x t)) (outer_stride v + inner_stride v) (Z.max (rows v) (cols v)) _ m m1 q).
    + intros m0 m2 m3 p D H. unfold load in H. destruct (m2 p) as [x|] eqn:Ep; [|discriminate H]. cbn [bind] in H.
      eapply store_domain; eassumption.
    + rewrite <- F. apply for_ext. intros i [m2 p]. destruct (load m2 p); reflexivity.
  - intros Q. destruct (add_to_diagonal_ok add v t m Q Al Ov) as (m' & E & _). eauto.
  - intros H. destruct (Z.eq_dec (rows v) (cols v)) as [|N]; [assumption|exfalso].
    apply (past_end v m O T R C N). intros i Hi. destruct (H i Hi) as (a & E & A).
    apply T in A. unfold at_, diagonal, plain in E; cbn [rows cols data inner_stride outer_stride] in E.
    replace ((0 <=? i) && (i <? Z.max (rows v) (cols v))) with true in E by lia. cbn [Z.leb Z.ltb Z.compare andb] in E.
    injection E as <-. replace (data v + i * (outer_stride v + inner_stride v)) with (data v + (i * (outer_stride v + inner_stride v) + 0)) by lia.
    exact A.
  - intros Q i Hi. destruct (diagonal_view_ok v Q R) as (Er & _ & H).
    exists (elem v i i). split; [apply H; lia|]. exists i, i. split; [split; lia|reflexivity].
Qed.
Print Assumptions C30_exact.

Example C30_exact_nonvacuous :
  let v := View 0 2 3 1 2 in
  columns_in_order v /\ tight v (mem_of 6) /\ set_diagonal v 7 (mem_of 6) = UB.
Proof. cbn zeta. split; [split; cbn; lia|]. split; [apply (tight_mem_of 2 3); lia|reflexivity]. Qed.
