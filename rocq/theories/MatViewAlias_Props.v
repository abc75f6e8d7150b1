(** C86: scalar arguments that refer to an element of the view. *)
From Verif Require Import Base MatView_Model MatView_Spec MatView_Proofs MatView_Props MatViewAlias_Model.
Local Open Scope outcome_scope.
Local Open Scope Z_scope.

(** Two loops whose bodies agree as long as [P] holds are the same. *)
Lemma loop_agree {S} (P : S -> Prop) (f g : Z -> S -> outcome S) : forall n lo s,
  (forall i s, P s -> f i s = g i s) ->
  (forall i s s', P s -> g i s = Ok s' -> P s') ->
  P s -> loop n lo f s = loop n lo g s /\ (forall s', loop n lo g s = Ok s' -> P s').
Proof.
  induction n as [|n IH]; intros lo s E K Ps; cbn [loop].
  - split; [reflexivity|]. intros s' H. injection H as <-. exact Ps.
  - rewrite E by exact Ps. destruct (g lo s) as [s1| | |] eqn:G; cbn [bind]; [|split; [reflexivity|discriminate]..].
    apply IH; [exact E|exact K|]. eapply K; eassumption.
Qed.
Lemma for_agree {S} (P : S -> Prop) (f g : Z -> S -> outcome S) lo hi s :
  (forall i s, P s -> f i s = g i s) ->
  (forall i s s', P s -> g i s = Ok s' -> P s') ->
  P s -> for_ lo hi f s = for_ lo hi g s /\ (forall s', for_ lo hi g s = Ok s' -> P s').
Proof. intros E K Ps. now apply loop_agree. Qed.

Section Agree.
Context {V : Type}.
Implicit Types (m : mem V) (v : view).

Lemma store_keeps m a x m' p t : m p = Some t -> store m a x = Ok m' -> a <> p \/ x = t -> m' p = Some t.
Proof.
  intros Hp St D. unfold store in St. destruct (m a); [|discriminate St]. injection St as <-. cbv beta.
  destruct (Z.eqb_spec p a) as [->|N]; [|exact Hp]. destruct D as [D| ->]; [congruence|reflexivity].
Qed.

Lemma fill_ref q n p t m : m p = Some t ->
  fill_n_ref q n p m = fill_n q n t m /\ (forall m', fill_n q n t m = Ok m' -> m' p = Some t).
Proof.
  intros Hp. unfold fill_n_ref, fill_n.
  apply (for_agree (fun m : mem V => m p = Some t)); [| |exact Hp].
  - intros i s Hs. now rewrite (load_some _ _ _ Hs).
  - intros i s s' Hs St. eapply store_keeps; [exact Hs|exact St|now right].
Qed.

Lemma fills_ref (q n : Z -> Z) lo hi p t m : m p = Some t ->
  for_ lo hi (fun c m => fill_n_ref (q c) (n c) p m) m = for_ lo hi (fun c m => fill_n (q c) (n c) t m) m.
Proof.
  intros Hp. apply (for_agree (fun m : mem V => m p = Some t)); [| |exact Hp].
  - intros i s Hs. now apply fill_ref.
  - intros i s s' Hs F. eapply (proj2 (fill_ref (q i) (n i) p t s Hs)). exact F.
Qed.

Lemma set_constant_ref_eq v p t m : m p = Some t -> set_constant_ref v p m = set_constant v t m.
Proof.
  intros Hp. unfold set_constant_ref, set_constant. destruct (inner_stride v =? 1).
  - exact (fills_ref (fun c => data v + c * outer_stride v) (fun _ => rows v) 0 (cols v) p t m Hp).
  - apply (for_agree (fun m : mem V => m p = Some t)); [| |exact Hp].
    + intros c s Hs. apply (for_agree (fun m : mem V => m p = Some t)); [| |exact Hs].
      * intros r s1 Hs1. destruct (at_ v r c); cbn [bind]; try reflexivity. now rewrite (load_some _ _ _ Hs1).
      * intros r s1 s2 Hs1 St. destruct (at_ v r c); cbn [bind] in St; try discriminate St.
        eapply store_keeps; [exact Hs1|exact St|now right].
    + intros c s s' Hs F.
      refine (proj2 (for_agree (fun m : mem V => m p = Some t) _ _ 0 (rows v) s (fun _ _ _ => eq_refl) _ Hs) s' F).
      intros r s1 s2 Hs1 St. cbv beta in St. destruct (at_ v r c); cbn [bind] in St; try discriminate St.
      eapply store_keeps; [exact Hs1|exact St|now right].
Qed.

Lemma set_constant_tri_ref_eq v p t tr m : m p = Some t -> set_constant_tri_ref v p tr m = set_constant_tri v t tr m.
Proof.
  intros Hp. unfold set_constant_tri_ref, set_constant_tri. destruct tr.
  - exact (fills_ref (fun c => data v + c + c * outer_stride v) (fun c => rows v - c) _ _ p t m Hp).
  - exact (fills_ref (fun c => data v + c + 1 + c * outer_stride v) (fun c => rows v - c - 1) _ _ p t m Hp).
  - exact (fills_ref (fun c => data v + c * outer_stride v) (fun c => 1 + c) _ _ p t m Hp).
  - exact (fills_ref (fun c => data v + c * outer_stride v) (fun c => c) _ _ p t m Hp).
Qed.

Lemma set_diagonal_ref_eq v p t m : m p = Some t -> set_diagonal_ref v p m = set_diagonal v t m.
Proof.
  intros Hp. unfold set_diagonal_ref, set_diagonal. f_equal.
  apply (for_agree (fun s : mem V * Z => fst s p = Some t)); [| |exact Hp].
  - intros i [s q] Hs. cbn [fst] in Hs. now rewrite (load_some _ _ _ Hs).
  - intros i [s q] [s' q'] Hs B. cbn [fst] in *. destruct (store s q t) eqn:St; cbn [bind] in B; try discriminate B.
    injection B as <- <-. eapply store_keeps; [exact Hs|exact St|now right].
Qed.
End Agree.

(** C86 for the operations that set elements: the scalar may be any object,
    also an element of the view. *)
Theorem C86_set_with_own_element :
  forall (V : Type) v p (t : V) tr m, m p = Some t ->
    set_constant_ref v p m = set_constant v t m /\
    set_constant_tri_ref v p tr m = set_constant_tri v t tr m /\
    set_diagonal_ref v p m = set_diagonal v t m.
Proof.
  intros V v p t tr m Hp. split; [now apply set_constant_ref_eq|].
  split; [now apply set_constant_tri_ref_eq|now apply set_diagonal_ref_eq].
Qed.
Print Assumptions C86_set_with_own_element.

(** Position (r, c) is visited after position (r0, c0), column by column. *)
Definition later (r0 c0 r c : Z) : Prop := c0 < c \/ (c = c0 /\ r0 < r).
Lemma later_dec r0 c0 r c : {later r0 c0 r c} + {~ later r0 c0 r c}.
Proof.
  unfold later. destruct (Z_lt_dec c0 c); [left; lia|]. destruct (Z.eq_dec c c0); [|right; lia].
  destruct (Z_lt_dec r0 r); [left; lia|right; lia].
Qed.

Section Add.
Context {V : Type}.
Variables (add : V -> V -> V) (v : view) (p : Z) (m : mem V) (u : V).
Hypothesis Hav : allocated v m.
Hypothesis Hno : no_self_overlap v.
Hypothesis Hp : m p = Some u.

(** What the scalar is when position (r, c) is visited: the original value, or,
    after its own element has been visited, twice that. *)
Variable own : option (Z * Z).
Hypothesis Hown : match own with
  | Some (r0, c0) => in_range v r0 c0 /\ p = elem v r0 c0
  | None => ~ is_elem v p
  end.
Definition scalar_at (r c : Z) : V :=
  match own with
  | Some (r0, c0) => if later_dec r0 c0 r c then add u u else u
  | None => u
  end.

Lemma add_scalar_ref_own :
  exists m', add_scalar_ref add v p m = Ok m' /\
    (forall r c x, in_range v r c -> m (elem v r c) = Some x -> m' (elem v r c) = Some (add x (scalar_at r c))) /\
    (forall a, ~ is_elem v a -> m' a = m a).
Proof.
  unfold add_scalar_ref.
  set (nv := fun r c => option_map (fun x => add x (scalar_at r c)) (m (elem v r c))).
  assert (Hu : forall r c m1, in_range v r c -> swept v nv m c r m1 -> m1 p = Some (scalar_at r c)).
  { intros r c m1 Hin Hsw. unfold scalar_at. destruct own as [[r0 c0]|] eqn:Eo.
    - destruct Hown as [Hin0 ->]. destruct (later_dec r0 c0 r c) as [L|L].
      + destruct Hsw as [H1 _]. rewrite H1; [|exact Hin0|unfold before, later in *; lia].
        unfold nv, scalar_at. rewrite Hp, Eo. cbn [option_map].
        destruct (later_dec r0 c0 r0 c0) as [L2|L2]; [unfold later in L2; lia|reflexivity].
      + destruct Hsw as [_ H2]. rewrite H2; [exact Hp|]. intros r1 c1 Hin1 Hb He.
        destruct (Hno _ _ _ _ Hin0 Hin1 He). subst. unfold before, later in *. lia.
    - rewrite (swept_outside _ _ _ _ _ _ _ Hown Hsw). exact Hp. }
  match goal with |- context [for_ 0 (cols v) ?B _] => set (body := B) end.
  destruct (for_rule (fun c '(m1, d) => swept v nv m c 0 m1 /\ d = data v + c * outer_stride v)
    body 0 (cols v) (m, data v)) as ([m' d] & Hm & Hs & _).
  - split; [apply swept_0|lia].
  - intros c [m1 d] Hcr (Hsw & ->). unfold body; clear body.
    match goal with |- context [for_ 0 (rows v) ?B _] => set (body := B) end.
    destruct (for_rule (fun r '(m2, d) => swept v nv m c r m2 /\ d = elem v r c)
      body 0 (rows v) (m1, data v + c * outer_stride v)) as ([m2 d2] & Hm2 & Hs2 & _).
    + split; [exact Hsw|unfold elem; lia].
    + intros r [m2 d2] Hr (H2 & ->). assert (Hin : in_range v r c) by (split; lia).
      destruct (m (elem v r c)) as [x|] eqn:Ex.
      2: { exfalso. apply (Hav (elem v r c)); [exists r, c; auto|assumption]. }
      unfold body.
      rewrite (load_some m2 _ x) by (rewrite <- Ex; eapply swept_pending; eauto). cbn [bind].
      rewrite (load_some m2 p (scalar_at r c)) by (now apply Hu). cbn [bind].
      destruct (swept_step v nv m c r m2 (add x (scalar_at r c)) Hno Hav Hin) as (m3 & -> & H3); [unfold nv; now rewrite Ex|assumption|].
      cbn [bind]. eexists; split; [reflexivity|]. split; [exact H3|unfold elem; lia].
    + rewrite Hm2. cbn [bind]. eexists; split; [reflexivity|]. split; [now apply swept_col|lia].
  - rewrite Hm. cbn [bind]. exists m'. split; [reflexivity|]. apply swept_done in Hs as [H1 H2].
    split; [|exact H2]. intros r c x Hin Hx. rewrite H1 by assumption. unfold nv. now rewrite Hx.
Qed.
End Add.

(** C86, positive part for adding: the scalar is not an element of the view. *)
Theorem C86_add_other_scalar_partial :
  forall (V : Type) (add : V -> V -> V) v p u (m : mem V),
    allocated v m -> no_self_overlap v -> m p = Some u -> ~ is_elem v p ->
    exists m', add_scalar_ref add v p m = Ok m' /\
      (forall r c x, in_range v r c -> m (elem v r c) = Some x -> m' (elem v r c) = Some (add x u)) /\
      (forall a, ~ is_elem v a -> m' a = m a).
Proof.
  intros V add v p u m Hav Hno Hp N. exact (add_scalar_ref_own add v p m u Hav Hno Hp None N).
Qed.
Print Assumptions C86_add_other_scalar_partial.

(** What v += v(r0, c0) does: the elements after (r0, c0) get twice the value. *)
Theorem C86_add_own_element :
  forall (V : Type) (add : V -> V -> V) v r0 c0 u (m : mem V),
    allocated v m -> no_self_overlap v -> in_range v r0 c0 -> m (elem v r0 c0) = Some u ->
    exists m', add_scalar_ref add v (elem v r0 c0) m = Ok m' /\
      (forall r c x, in_range v r c -> m (elem v r c) = Some x -> ~ later r0 c0 r c ->
         m' (elem v r c) = Some (add x u)) /\
      (forall r c x, in_range v r c -> m (elem v r c) = Some x -> later r0 c0 r c ->
         m' (elem v r c) = Some (add x (add u u))) /\
      (forall a, ~ is_elem v a -> m' a = m a).
Proof.
  intros V add v r0 c0 u m Hav Hno Hin Hp.
  destruct (add_scalar_ref_own add v _ m u Hav Hno Hp (Some (r0, c0)) (conj Hin eq_refl)) as (m' & E & H1 & H2).
  exists m'. split; [exact E|]. split; [|split; [|exact H2]].
  - intros r c x Hr Hx L. rewrite (H1 r c x Hr Hx). unfold scalar_at. destruct (later_dec r0 c0 r c); [contradiction|reflexivity].
  - intros r c x Hr Hx L. rewrite (H1 r c x Hr Hx). unfold scalar_at. destruct (later_dec r0 c0 r c); [reflexivity|contradiction].
Qed.
Print Assumptions C86_add_own_element.

(** Exactly when v += v(r0, c0) adds the same number to all elements: if the element
    is zero or the last of the view. *)
Theorem C86_add_exact :
  forall v r0 c0 u (m : mem Z),
    allocated v m -> no_self_overlap v -> in_range v r0 c0 -> m (elem v r0 c0) = Some u ->
    exists m', add_scalar_ref Z.add v (elem v r0 c0) m = Ok m' /\
      ((forall r c x, in_range v r c -> m (elem v r c) = Some x -> m' (elem v r c) = Some (x + u)) <->
       u = 0 \/ (r0 = rows v - 1 /\ c0 = cols v - 1)).
Proof.
  intros v r0 c0 u m Hav Hno Hin Hp.
  destruct (C86_add_own_element Z Z.add v r0 c0 u m Hav Hno Hin Hp) as (m' & E & H1 & H2 & _).
  exists m'. split; [exact E|]. split.
  - intros H. destruct (Z.eq_dec u 0) as [|N]; [now left|right].
    destruct (later_dec r0 c0 (rows v - 1) (cols v - 1)) as [L|L].
    + exfalso. destruct Hin as [Hr Hc].
      assert (Hl : in_range v (rows v - 1) (cols v - 1)) by (unfold in_range; lia).
      destruct (m (elem v (rows v - 1) (cols v - 1))) as [x|] eqn:Ex.
      2: { apply (Hav (elem v (rows v - 1) (cols v - 1))); [exists (rows v - 1), (cols v - 1); auto|exact Ex]. }
      pose proof (H _ _ _ Hl Ex) as A. rewrite (H2 _ _ _ Hl Ex L) in A. injection A as A. lia.
    + destruct Hin. unfold later in L. lia.
  - intros D r c x Hr Hx. destruct (later_dec r0 c0 r c) as [L|L].
    + rewrite (H2 _ _ _ Hr Hx L). destruct D as [-> | [-> ->]]; [f_equal; lia|]. destruct Hr. unfold later in L. lia.
    + now apply H1.
Qed.
Print Assumptions C86_add_exact.

(** C86 for adding to the diagonal of a square view: with an element off the
    diagonal it is right; with diagonal element k, the ones after it get twice
    the value. *)
Theorem C86_add_to_diagonal :
  forall (V : Type) (add : V -> V -> V) v p u (m : mem V),
    rows v = cols v -> allocated v m -> no_self_overlap v -> m p = Some u ->
    exists m', add_to_diagonal_ref add v p m = Ok m' /\
      (forall i x, 0 <= i < rows v -> m (elem v i i) = Some x ->
         (forall k, 0 <= k < i -> p <> elem v k k) -> m' (elem v i i) = Some (add x u)) /\
      (forall i k x, 0 <= k < i -> i < rows v -> m (elem v i i) = Some x ->
         p = elem v k k -> m' (elem v i i) = Some (add x (add u u))) /\
      (forall a, (forall i, 0 <= i < rows v -> a <> elem v i i) -> m' a = m a).
Proof.
  intros V add v p u m Hsq Hal Hno Hp. unfold add_to_diagonal_ref. rewrite <- Hsq, Z.max_id.
  assert (Inj : forall i j, 0 <= i < rows v -> 0 <= j < rows v -> elem v i i = elem v j j -> i = j).
  { intros i j Hi Hj He. destruct (Hno i i j j); [unfold in_range; lia|unfold in_range; lia|exact He|assumption]. }
  assert (Dec : forall n : nat, (exists k, 0 <= k < Z.of_nat n /\ p = elem v k k) \/ (forall k, 0 <= k < Z.of_nat n -> p <> elem v k k)).
  { induction n as [|n [(k & Hk & Ek)|IH]]; [right; lia|left; exists k; lia|].
    destruct (Z.eq_dec p (elem v (Z.of_nat n) (Z.of_nat n))) as [E|E]; [left; exists (Z.of_nat n); lia|right].
    intros k Hk. destruct (Z.eq_dec k (Z.of_nat n)) as [->|]; [exact E|apply IH; lia]. }
  match goal with |- context [for_ 0 (rows v) ?B _] => set (body := B) end.
  destruct (for_rule (fun n '(m1, q) => q = elem v n n /\
      (forall i x, 0 <= i < n -> m (elem v i i) = Some x ->
         (forall k, 0 <= k < i -> p <> elem v k k) -> m1 (elem v i i) = Some (add x u)) /\
      (forall i k x, 0 <= k < i -> i < n -> m (elem v i i) = Some x ->
         p = elem v k k -> m1 (elem v i i) = Some (add x (add u u))) /\
      (forall a, (forall i, 0 <= i < n -> a <> elem v i i) -> m1 a = m a))
    body 0 (rows v) (m, data v)) as ([m' q] & Hm & _ & H1 & H2 & H3).
  - split; [unfold elem; lia|]. split; [intros; lia|]. split; [intros; lia|auto].
  - intros n [m1 q] Hn (-> & H1 & H2 & H3). unfold body.
    assert (Hn' : m1 (elem v n n) = m (elem v n n)).
    { apply H3. intros i Hi He. apply Inj in He; lia. }
    destruct (m (elem v n n)) as [x|] eqn:Ex.
    2: { exfalso. apply (Hal (elem v n n)); [exists n, n; unfold in_range; split; [lia|reflexivity]|exact Ex]. }
    rewrite (load_some m1 _ x) by exact Hn'. cbn [bind].
    assert (Fin : forall t, m1 p = Some t ->
      ((forall k, 0 <= k < n -> p <> elem v k k) -> t = u) ->
      (forall k, 0 <= k < n -> p = elem v k k -> t = add u u) ->
      exists s', bind (load m1 p) (fun t => bind (store m1 (elem v n n) (add x t))
        (fun m' => Ok (m', elem v n n + (outer_stride v + inner_stride v)))) = Ok s' /\
      (let '(m1, q) := s' in q = elem v (n + 1) (n + 1) /\
        (forall i x, 0 <= i < n + 1 -> m (elem v i i) = Some x ->
         (forall k, 0 <= k < i -> p <> elem v k k) -> m1 (elem v i i) = Some (add x u)) /\
        (forall i k x, 0 <= k < i -> i < n + 1 -> m (elem v i i) = Some x ->
         p = elem v k k -> m1 (elem v i i) = Some (add x (add u u))) /\
        (forall a, (forall i, 0 <= i < n + 1 -> a <> elem v i i) -> m1 a = m a))).
    { intros t Ht T1 T2. rewrite (load_some _ _ _ Ht). cbn [bind].
      destruct (store_ok m1 (elem v n n) (add x t)) as (m2 & -> & E2 & O2); [rewrite Hn'; congruence|].
      cbn [bind]. eexists; split; [reflexivity|]. split; [unfold elem; lia|]. split; [|split].
      - intros i y Hi Hy K. destruct (Z.eq_dec i n) as [->|].
        + rewrite E2. rewrite Ex in Hy. injection Hy as <-. now rewrite T1.
        + rewrite O2; [apply H1; [lia|exact Hy|exact K]|]. intros He. apply Inj in He; lia.
      - intros i k y Hk Hi Hy K. destruct (Z.eq_dec i n) as [->|].
        + rewrite E2. rewrite Ex in Hy. injection Hy as <-. now rewrite (T2 k).
        + rewrite O2; [apply (H2 i k); [lia|lia|exact Hy|exact K]|]. intros He. apply Inj in He; lia.
      - intros a Ha. rewrite O2 by (apply Ha; lia). apply H3. intros i Hi. apply Ha. lia. }
    destruct (Dec (Z.to_nat n)) as [(k & Hk & Ek)|Nk].
    + apply (Fin (add u u)).
      * rewrite Ek. apply H1; [lia|now rewrite <- Ek|]. intros k' Hk' He. rewrite Ek in He. apply Inj in He; lia.
      * intros A. exfalso. apply (A k); [lia|exact Ek].
      * reflexivity.
    + apply (Fin u).
      * rewrite H3; [exact Hp|]. intros i Hi. apply Nk. lia.
      * reflexivity.
      * intros k Hk Ek. exfalso. apply (Nk k); [lia|exact Ek].
  - exists m'. split; [exact (f_equal (fun o => bind o (fun x => let '(m1, _) := x in Ok m1)) Hm)|].
    destruct (Z_le_dec 0 (rows v)) as [R|R].
    + replace (Z.max 0 (rows v)) with (rows v) in * by lia. split; [exact H1|]. split; [exact H2|exact H3].
    + split; [intros; lia|]. split; [intros; lia|]. intros a Ha. apply H3. intros i Hi. lia.
Qed.
Print Assumptions C86_add_to_diagonal.

(** The documented meaning of both operators fails on a 2x2 matrix of ones when the
    scalar is its first element. *)
Theorem C86_add_own_element_refuted :
  let v := View 0 2 2 1 2 in
  let m : mem Z := fun a => if (0 <=? a) && (a <? 4) then Some 1 else None in
  allocated v m /\ no_self_overlap v /\
  (exists m', add_scalar_ref Z.add v 0 m = Ok m' /\ map m' [0; 1; 2; 3] = map Some [2; 3; 3; 3]) /\
  (exists m', add_to_diagonal_ref Z.add v 0 m = Ok m' /\ map m' [0; 1; 2; 3] = map Some [2; 1; 1; 3]).
Proof.
  cbn zeta. split; [|split; [|split]].
  - intros a (r & c & [Hr Hc] & ->). unfold elem; cbn [data rows cols inner_stride outer_stride] in *.
    replace ((0 <=? 0 + r * 1 + c * 2) && (0 + r * 1 + c * 2 <? 4)) with true by lia. discriminate.
  - intros r c r' c' [Hr Hc] [Hr' Hc'] He. unfold elem in He; cbn [data rows cols inner_stride outer_stride] in *. lia.
  - eexists; split; reflexivity.
  - eexists; split; reflexivity.
Qed.
Print Assumptions C86_add_own_element_refuted.

(** A strided 3x2 view, the scalar is element (1, 0): the four later elements get twice
    its value. *)
Example C86_nonvacuous :
  let v := View 1 3 2 2 7 in
  allocated v (mem_of 14) /\ no_self_overlap v /\ in_range v 1 0 /\ mem_of 14 (elem v 1 0) = Some 3 /\
  exists m', add_scalar_ref Z.add v (elem v 1 0) (mem_of 14) = Ok m' /\
    map m' [1; 3; 5; 8; 10; 12; 2] = map Some [4; 6; 11; 14; 16; 18; 2].
Proof.
  cbn zeta. split; [|split; [|split; [|split]]].
  - intros a (r & c & [Hr Hc] & ->). unfold elem; cbn [data rows cols inner_stride outer_stride] in *. rewrite mem_of_some by lia. discriminate.
  - intros r c r' c' [Hr Hc] [Hr' Hc'] He. unfold elem in He; cbn [data rows cols inner_stride outer_stride] in *. lia.
  - unfold in_range; cbn; lia.
  - reflexivity.
  - eexists; split; reflexivity.
Qed.
