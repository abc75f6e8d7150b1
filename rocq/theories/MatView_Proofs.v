From Verif Require Import Base MatView_Model MatView_Spec.
Local Open Scope Z_scope.

Lemma loop_rule {S} (Inv : Z -> S -> Prop) body : forall n lo s,
  Inv lo s ->
  (forall i s, lo <= i < lo + Z.of_nat n -> Inv i s -> exists s', body i s = Ok s' /\ Inv (i + 1) s') ->
  exists s', loop n lo body s = Ok s' /\ Inv (lo + Z.of_nat n) s'.
Proof.
  induction n as [|n IH]; intros lo s H0 Hb; cbn [loop].
  - exists s. rewrite Z.add_0_r. auto.
  - destruct (Hb lo s) as (s1 & -> & H1); [lia|assumption|]. cbn [bind].
    destruct (IH (lo + 1) s1 H1) as (s2 & -> & H2).
    + intros i s3 Hi Hs3. apply Hb; [lia|assumption].
    + exists s2. split; [reflexivity|]. now replace (lo + Z.of_nat (Datatypes.S n)) with (lo + 1 + Z.of_nat n) by lia.
Qed.

Lemma for_rule {S} (Inv : Z -> S -> Prop) body lo hi s :
  Inv lo s ->
  (forall i s, lo <= i < hi -> Inv i s -> exists s', body i s = Ok s' /\ Inv (i + 1) s') ->
  exists s', for_ lo hi body s = Ok s' /\ Inv (Z.max lo hi) s'.
Proof.
  intros H0 Hb. unfold for_.
  destruct (loop_rule Inv body (Z.to_nat (hi - lo)) lo s H0) as (s' & Hs & Hi).
  - intros i s1 Hi. apply Hb. lia.
  - exists s'. split; [exact Hs|]. replace (Z.max lo hi) with (lo + Z.of_nat (Z.to_nat (hi - lo))) by lia.
    exact Hi.
Qed.

Section Proofs.
Context {V : Type}.
Implicit Types (m : mem V) (v w : view).

Lemma store_ok m a x : m a <> None ->
  exists m', store m a x = Ok m' /\ m' a = Some x /\ (forall b, b <> a -> m' b = m b).
Proof.
  intros H. unfold store. destruct (m a) as [y|]; [|congruence].
  eexists; split; [reflexivity|]. simpl. split.
  - now rewrite Z.eqb_refl.
  - intros b Hb. destruct (Z.eqb_spec b a); [congruence|reflexivity].
Qed.

(** Constant writes to a set of addresses. *)
Definition filled (W : Z -> Prop) (t : V) m0 m : Prop :=
  (forall a, W a -> m a = Some t) /\ (forall a, ~ W a -> m a = m0 a) /\
  (forall a, m0 a <> None -> m a <> None).

Lemma filled_ext W W' t m0 m : (forall a, W a <-> W' a) -> filled W t m0 m -> filled W' t m0 m.
Proof. intros H (H1 & H2 & H3). split; [|split]; auto.
  - intros a Ha. apply H1, H, Ha.
  - intros a Ha. apply H2. intros Hw. apply Ha, H, Hw. Qed.

Lemma filled_nil t m : filled (fun _ => False) t m m.
Proof. split; [tauto|]. auto. Qed.

Lemma filled_store W t m0 m a : filled W t m0 m -> m0 a <> None ->
  exists m', store m a t = Ok m' /\ filled (fun b => W b \/ b = a) t m0 m'.
Proof.
  intros (H1 & H2 & H3) Ha. destruct (store_ok m a t (H3 _ Ha)) as (m' & Hs & Hm & Ho).
  exists m'. split; [exact Hs|]. split; [|split].
  - intros b [Hb| ->]; [|assumption]. destruct (Z.eq_dec b a) as [->|N]; [assumption|].
    rewrite Ho by assumption. auto.
  - intros b Hb. rewrite Ho by tauto. apply H2. tauto.
  - intros b Hb. destruct (Z.eq_dec b a) as [->|N]; [congruence|]. rewrite Ho by assumption. auto.
Qed.

Lemma filled_fill_n W t m0 m p n : filled W t m0 m ->
  (forall i, 0 <= i < n -> m0 (p + i) <> None) ->
  exists m', fill_n p n t m = Ok m' /\ filled (fun b => W b \/ exists i, 0 <= i < n /\ b = p + i) t m0 m'.
Proof.
  intros HW Hal. unfold fill_n.
  destruct (for_rule (fun k m => filled (fun b => W b \/ exists i, 0 <= i < k /\ b = p + i) t m0 m)
              (fun i m => store m (p + i) t) 0 n m) as (m' & Hm & Hf).
  - eapply filled_ext; [|exact HW]. intros a. split; [auto|]. intros [H|(i & Hi & _)]; [exact H|lia].
  - intros k m1 Hk H1. destruct (filled_store _ _ _ _ (p + k) H1) as (m2 & Hs & H2); [auto|].
    exists m2. split; [exact Hs|]. eapply filled_ext; [|exact H2]. intros a. split.
    + intros [[H|(i & Hi & ->)]| ->]; [auto| |]; right; [exists i|exists k]; lia.
    + intros [H|(i & Hi & ->)]; [auto|]. destruct (Z.eq_dec i k) as [->|N]; [auto|].
      left. right. exists i. lia.
  - exists m'. split; [exact Hm|]. eapply filled_ext; [|exact Hf]. intros a.
    split; (intros [H|(i & Hi & ->)]; [auto|right; exists i; lia]).
Qed.

(** Filling, in each column c of [c0, c1), the rows [lo c, hi c). *)
Lemma filled_columns v t m (c0 c1 : Z) (lo hi : Z -> Z) (body : Z -> mem V -> outcome (mem V)) :
  (forall c, c0 <= c < c1 -> forall m, body c m = fill_n (data v + c * outer_stride v + lo c) (hi c - lo c) t m) ->
  (forall r c, c0 <= c < c1 -> lo c <= r < hi c -> m (data v + c * outer_stride v + r) <> None) ->
  exists m', for_ c0 c1 body m = Ok m' /\
    filled (fun a => exists r c, c0 <= c < c1 /\ lo c <= r < hi c /\ a = data v + c * outer_stride v + r) t m m'.
Proof.
  intros Hbody Hal.
  destruct (for_rule (fun k m' => filled (fun a => exists r c, c0 <= c < k /\ lo c <= r < hi c /\
      a = data v + c * outer_stride v + r) t m m') body c0 c1 m) as (m' & Hm & Hf).
  - eapply filled_ext; [|apply filled_nil]. intros a. split; [tauto|]. intros (r & c & Hc & _). lia.
  - intros c m1 Hc H1. rewrite Hbody by assumption.
    destruct (filled_fill_n _ _ _ _ (data v + c * outer_stride v + lo c) (hi c - lo c) H1) as (m2 & Hs & H2).
    + intros i Hi. replace (data v + c * outer_stride v + lo c + i)
        with (data v + c * outer_stride v + (lo c + i)) by lia. apply Hal; lia.
    + exists m2. split; [exact Hs|]. eapply filled_ext; [|exact H2]. intros a. split.
      * intros [(r & c' & Hc' & Hr & ->)|(i & Hi & ->)].
        -- exists r, c'. repeat split; try lia.
        -- exists (lo c + i), c. repeat split; try lia.
      * intros (r & c' & Hc' & Hr & ->). destruct (Z.eq_dec c' c) as [->|N].
        -- right. exists (r - lo c). lia.
        -- left. exists r, c'. repeat split; lia.
  - exists m'. split; [exact Hm|]. eapply filled_ext; [|exact Hf]. intros a.
    split; intros (r & c & Hc & Hr & ->); exists r, c; (split; [lia|]); auto.
Qed.

Lemma filled_result W t m0 m : filled W t m0 m ->
  (forall a, W a -> m a = Some t) /\ (forall a, ~ W a -> m a = m0 a).
Proof. intros (H1 & H2 & _). auto. Qed.

Lemma at_ok v r c : in_range v r c -> at_ v r c = Ok (elem v r c).
Proof.
  intros [Hr Hc]. unfold at_, elem.
  replace ((0 <=? r) && (r <? rows v)) with true by (symmetry; apply andb_true_intro; split; lia).
  replace ((0 <=? c) && (c <? cols v)) with true by (symmetry; apply andb_true_intro; split; lia).
  f_equal; lia.
Qed.
Lemma at_abort v r c : ~ in_range v r c -> at_ v r c = Abort.
Proof.
  intros H. unfold at_, in_range in *.
  destruct ((0 <=? r) && (r <? rows v)) eqn:E1; [|reflexivity].
  destruct ((0 <=? c) && (c <? cols v)) eqn:E2; [|reflexivity].
  exfalso. apply H. apply andb_true_iff in E1, E2. lia.
Qed.

Lemma set_constant_ok v t m : allocated v m ->
  exists m', set_constant v t m = Ok m' /\
    (forall a, is_elem v a -> m' a = Some t) /\ (forall a, ~ is_elem v a -> m' a = m a).
Proof.
  intros Hal. unfold set_constant. destruct (Z.eqb_spec (inner_stride v) 1) as [H1|H1].
  - destruct (filled_columns v t m 0 (cols v) (fun _ => 0) (fun _ => rows v)
      (fun c m => fill_n (data v + c * outer_stride v) (rows v) t m)) as (m' & Hm & Hf).
    + intros c Hc m1. f_equal; lia.
    + intros r c Hc Hr. apply Hal. exists r, c. unfold in_range, elem. rewrite H1. lia.
    + exists m'. split; [exact Hm|]. apply filled_result. eapply filled_ext; [|exact Hf].
      intros a. unfold is_elem, in_range, elem. rewrite H1.
      split; [intros (r & c & Hc & Hr & ->); exists r, c; lia|].
      intros (r & c & Hrc & ->). exists r, c. lia.
  - destruct (for_rule (fun k m' => filled (fun a => exists r c, 0 <= c < k /\ 0 <= r < rows v /\
      a = elem v r c) t m m')
      (fun c m => for_ 0 (rows v) (fun r m => bind (at_ v r c) (fun a => store m a t)) m) 0 (cols v) m)
      as (m' & Hm & Hf).
    + eapply filled_ext; [|apply filled_nil]. intros a. split; [tauto|]. intros (r & c & Hc & _). lia.
    + intros c m1 Hc Hf1.
      destruct (for_rule (fun k m' => filled (fun a => (exists r c', 0 <= c' < c /\ 0 <= r < rows v /\
        a = elem v r c') \/ (exists r, 0 <= r < k /\ a = elem v r c)) t m m')
        (fun r m => bind (at_ v r c) (fun a => store m a t)) 0 (rows v) m1) as (m2 & Hm2 & Hf2).
      * eapply filled_ext; [|exact Hf1]. intros a. split; [auto|]. intros [H|(r & Hr & _)]; [exact H|lia].
      * intros r m3 Hr Hf3. assert (Hin : in_range v r c) by (split; lia).
        rewrite at_ok by assumption. cbn [bind].
        destruct (filled_store _ _ _ _ (elem v r c) Hf3) as (m4 & Hs & Hf4).
        { apply Hal. exists r, c. auto. }
        exists m4. split; [exact Hs|]. eapply filled_ext; [|exact Hf4]. intros a. split.
        -- intros [[H|(r' & Hr' & ->)]| ->]; [auto| |]; right; [exists r'|exists r]; split; auto; lia.
        -- intros [H|(r' & Hr' & ->)]; [auto|]. destruct (Z.eq_dec r' r) as [->|N]; [auto|].
           left. right. exists r'. split; [lia|reflexivity].
      * exists m2. split; [exact Hm2|]. eapply filled_ext; [|exact Hf2]. intros a. split.
        -- intros [(r & c' & Hc' & Hr & ->)|(r & Hr & ->)].
           ++ exists r, c'. repeat split; lia.
           ++ exists r, c. repeat split; lia.
        -- intros (r & c' & Hc' & Hr & ->). destruct (Z.eq_dec c' c) as [->|N].
           ++ right. exists r. split; [lia|reflexivity].
           ++ left. exists r, c'. repeat split; lia.
    + exists m'. split; [exact Hm|]. apply filled_result. eapply filled_ext; [|exact Hf].
      intros a. unfold is_elem, in_range. split.
      * intros (r & c & Hc & Hr & ->). exists r, c. repeat split; lia.
      * intros (r & c & Hrc & ->). exists r, c. repeat split; lia.
Qed.

(** When the triangular variant does what it says. *)
Definition tri_shape (tr : triangular) (v : view) : Prop :=
  match tr with
  | Lower => rows v <= cols v
  | StrictlyLower => rows v <= cols v + 1
  | Upper => rows v = cols v
  | StrictlyUpper => rows v <= cols v <= rows v + 1
  end.

Lemma set_tri_ok v t tr m :
  inner_stride v = 1 -> tri_shape tr v -> allocated v m ->
  exists m', set_constant_tri v t tr m = Ok m' /\
    (forall r c, in_range v r c -> in_triangle tr r c -> m' (elem v r c) = Some t) /\
    (forall a, (forall r c, in_range v r c -> in_triangle tr r c -> a <> elem v r c) -> m' a = m a).
Proof.
  intros H1 Hsh Hal.
  assert (Hfin : forall (W : Z -> Prop) m',
    (forall a, W a <-> exists r c, in_range v r c /\ in_triangle tr r c /\ a = elem v r c) ->
    filled W t m m' ->
    (forall r c, in_range v r c -> in_triangle tr r c -> m' (elem v r c) = Some t) /\
    (forall a, (forall r c, in_range v r c -> in_triangle tr r c -> a <> elem v r c) -> m' a = m a)).
  { intros W m' HW (Hf1 & Hf2 & _). split.
    - intros r c Hr Ht. apply Hf1, HW. eauto.
    - intros a Ha. apply Hf2. intros Hw. apply HW in Hw as (r & c & Hr & Ht & ->).
      exact (Ha r c Hr Ht eq_refl). }
  assert (Hal' : forall r c, in_range v r c -> m (data v + c * outer_stride v + r) <> None).
  { intros r c Hr. apply Hal. exists r, c. split; [auto|]. unfold elem. rewrite H1. lia. }
  assert (Hel : forall r c, elem v r c = data v + c * outer_stride v + r).
  { intros. unfold elem. rewrite H1. lia. }
  unfold set_constant_tri. destruct tr; simpl in Hsh.
  - destruct (filled_columns v t m 0 (Z.max (rows v) (cols v)) (fun c => c) (fun _ => rows v)
      (fun c m => fill_n (data v + c + c * outer_stride v) (rows v - c) t m)) as (m' & Hm & Hf).
    + intros c Hc m1. f_equal; lia.
    + intros r c Hc Hr. apply Hal'. split; lia.
    + exists m'. split; [exact Hm|]. eapply Hfin; [|exact Hf]. intros a. cbn [in_triangle]. split.
      * intros (r & c & Hc & Hr & ->). exists r, c. rewrite Hel. repeat split; lia.
      * intros (r & c & [Hr Hc] & Ht & ->). exists r, c. rewrite Hel. repeat split; lia.
  - destruct (filled_columns v t m 0 (Z.max (rows v) (cols v) - 1) (fun c => c + 1) (fun _ => rows v)
      (fun c m => fill_n (data v + c + 1 + c * outer_stride v) (rows v - c - 1) t m)) as (m' & Hm & Hf).
    + intros c Hc m1. f_equal; lia.
    + intros r c Hc Hr. apply Hal'. split; lia.
    + exists m'. split; [exact Hm|]. eapply Hfin; [|exact Hf]. intros a. cbn [in_triangle]. split.
      * intros (r & c & Hc & Hr & ->). exists r, c. rewrite Hel. repeat split; lia.
      * intros (r & c & [Hr Hc] & Ht & ->). exists r, c. rewrite Hel. repeat split; lia.
  - destruct (filled_columns v t m 0 (Z.max (rows v) (cols v)) (fun c => 0) (fun c => 1 + c)
      (fun c m => fill_n (data v + c * outer_stride v) (1 + c) t m)) as (m' & Hm & Hf).
    + intros c Hc m1. f_equal; lia.
    + intros r c Hc Hr. apply Hal'. split; lia.
    + exists m'. split; [exact Hm|]. eapply Hfin; [|exact Hf]. intros a. cbn [in_triangle]. split.
      * intros (r & c & Hc & Hr & ->). exists r, c. rewrite Hel. repeat split; lia.
      * intros (r & c & [Hr Hc] & Ht & ->). exists r, c. rewrite Hel. repeat split; lia.
  - destruct (filled_columns v t m 1 (Z.max (rows v) (cols v)) (fun c => 0) (fun c => c)
      (fun c m => fill_n (data v + c * outer_stride v) c t m)) as (m' & Hm & Hf).
    + intros c Hc m1. f_equal; lia.
    + intros r c Hc Hr. apply Hal'. split; lia.
    + exists m'. split; [exact Hm|]. eapply Hfin; [|exact Hf]. intros a. cbn [in_triangle]. split.
      * intros (r & c & Hc & Hr & ->). exists r, c. rewrite Hel. repeat split; lia.
      * intros (r & c & [Hr Hc] & Ht & ->). exists r, c. rewrite Hel. repeat split; lia.
Qed.

(** Sweeps that write a position-dependent value. *)
Definition before (c0 r0 r c : Z) : Prop := c < c0 \/ (c = c0 /\ r < r0).
Definition swept v (nv : Z -> Z -> option V) m0 (c0 r0 : Z) m : Prop :=
  (forall r c, in_range v r c -> before c0 r0 r c -> m (elem v r c) = nv r c) /\
  (forall a, (forall r c, in_range v r c -> before c0 r0 r c -> a <> elem v r c) -> m a = m0 a).

Lemma swept_0 v nv m : swept v nv m 0 0 m.
Proof. split; [|auto]. intros r c [Hr Hc] [H|H]; lia. Qed.

Lemma swept_col v nv m0 c0 m : swept v nv m0 c0 (Z.max 0 (rows v)) m -> swept v nv m0 (c0 + 1) 0 m.
Proof.
  intros [H1 H2]. split.
  - intros r c Hin Hb. apply H1; [auto|]. destruct Hin. unfold before in *. lia.
  - intros a Ha. apply H2. intros r c Hin Hb. apply Ha; [auto|]. destruct Hin. unfold before in *. lia.
Qed.

Lemma swept_pending v nv m0 c0 r0 m : no_self_overlap v -> in_range v r0 c0 ->
  swept v nv m0 c0 r0 m -> m (elem v r0 c0) = m0 (elem v r0 c0).
Proof.
  intros Hno Hin [_ H2]. apply H2. intros r c Hin' Hb He.
  destruct (Hno _ _ _ _ Hin Hin' He). unfold before in Hb. lia.
Qed.

Lemma swept_outside v nv m0 c0 r0 m a : ~ is_elem v a -> swept v nv m0 c0 r0 m -> m a = m0 a.
Proof.
  intros Ha [_ H2]. apply H2. intros r c Hin _ ->. apply Ha. exists r, c. auto.
Qed.

Lemma swept_step v nv m0 c0 r0 m x :
  no_self_overlap v -> allocated v m0 -> in_range v r0 c0 -> nv r0 c0 = Some x ->
  swept v nv m0 c0 r0 m ->
  exists m', store m (elem v r0 c0) x = Ok m' /\ swept v nv m0 c0 (r0 + 1) m'.
Proof.
  intros Hno Hal Hin Hnv Hsw.
  destruct (store_ok m (elem v r0 c0) x) as (m' & Hs & Hx & Ho).
  { rewrite (swept_pending _ _ _ _ _ _ Hno Hin Hsw). apply Hal. exists r0, c0. auto. }
  exists m'. split; [exact Hs|]. destruct Hsw as [H1 H2]. split.
  - intros r c Hin' Hb. destruct (Z.eq_dec c c0) as [->|N].
    + destruct (Z.eq_dec r r0) as [->|N2].
      * congruence.
      * rewrite Ho. { apply H1; [auto|]. unfold before in *; lia. }
        intros He. destruct (Hno _ _ _ _ Hin' Hin He). congruence.
    + rewrite Ho. { apply H1; [auto|]. unfold before in *; lia. }
      intros He. destruct (Hno _ _ _ _ Hin' Hin He). congruence.
  - intros a Ha. rewrite Ho.
    + apply H2. intros r c Hin' Hb. apply Ha; [auto|]. unfold before in *; lia.
    + apply Ha; [auto|]. unfold before; lia.
Qed.

Lemma swept_done v nv m0 m : swept v nv m0 (Z.max 0 (cols v)) 0 m ->
  (forall r c, in_range v r c -> m (elem v r c) = nv r c) /\
  (forall a, ~ is_elem v a -> m a = m0 a).
Proof.
  intros Hsw. split.
  - intros r c Hin. destruct Hsw as [H1 _]. apply H1; [auto|]. destruct Hin. unfold before. lia.
  - intros a Ha. eapply swept_outside; eauto.
Qed.

Lemma load_some m a x : m a = Some x -> load m a = Ok x.
Proof. intros H. unfold load. now rewrite H. Qed.

(** The common shape of copy_values and operator+=: a column loop with moving
    pointers around a row loop with moving pointers. *)
Lemma pointer_sweep v other nv m0 (body : mem V -> Z -> Z -> outcome (mem V)) :
  no_self_overlap v -> allocated v m0 ->
  (forall r c m, in_range v r c -> swept v nv m0 c r m ->
     exists x, nv r c = Some x /\ body m (elem other r c) (elem v r c) = store m (elem v r c) x) ->
  forall c m, 0 <= c < cols v -> swept v nv m0 c 0 m ->
  exists m' s d,
    for_ 0 (rows v) (fun _ '(m, src_, dst_) =>
       bind (body m src_ dst_) (fun m' => Ok (m', src_ + inner_stride other, dst_ + inner_stride v)))
      (m, data other + c * outer_stride other, data v + c * outer_stride v) = Ok (m', s, d) /\
    swept v nv m0 (c + 1) 0 m'.
Proof.
  intros Hno Hal Hbody c m Hc Hsw.
  destruct (for_rule (fun r '(m, s, d) => swept v nv m0 c r m /\
      s = data other + c * outer_stride other + r * inner_stride other /\
      d = data v + c * outer_stride v + r * inner_stride v)
    (fun _ '(m, src_, dst_) =>
       bind (body m src_ dst_) (fun m' => Ok (m', src_ + inner_stride other, dst_ + inner_stride v)))
    0 (rows v) (m, data other + c * outer_stride other, data v + c * outer_stride v))
    as ([[m' s] d] & Hm & Hs & _).
  - repeat split; try lia; apply Hsw.
  - intros r [[m1 s] d] Hr (H1 & -> & ->). assert (Hin : in_range v r c) by (split; lia).
    destruct (Hbody r c m1 Hin H1) as (x & Hx & Hb).
    replace (data other + c * outer_stride other + r * inner_stride other) with (elem other r c)
      by (unfold elem; lia).
    replace (data v + c * outer_stride v + r * inner_stride v) with (elem v r c) by (unfold elem; lia).
    rewrite Hb. destruct (swept_step _ _ _ _ _ _ _ Hno Hal Hin Hx H1) as (m2 & -> & H2). cbn [bind].
    eexists; split; [reflexivity|]. split; [exact H2|]. unfold elem. lia.
  - exists m', s, d. split; [exact Hm|]. now apply swept_col.
Qed.

Lemma copy_values_ok v other m :
  rows other = rows v -> cols other = cols v ->
  allocated v m -> allocated other m -> no_self_overlap v -> disjoint v other ->
  exists m', copy_values v other m = Ok m' /\
    (forall r c, in_range v r c -> m' (elem v r c) = m (elem other r c)) /\
    (forall a, ~ is_elem v a -> m' a = m a).
Proof.
  intros Hr Hc Hav Hao Hno Hdis. unfold copy_values.
  rewrite Hr, Hc, !Z.eqb_refl. cbn [andb].
  set (nv := fun r c => m (elem other r c)).
  assert (Hsrc : forall r c m1, in_range v r c -> swept v nv m c r m1 ->
     exists x, nv r c = Some x /\ load m1 (elem other r c) = Ok x).
  { intros r c m1 Hin Hsw. unfold nv.
    assert (Hel : is_elem other (elem other r c)).
    { exists r, c. unfold in_range in *. rewrite Hr, Hc. auto. }
    destruct (m (elem other r c)) as [x|] eqn:E; [|exfalso; now apply (Hao (elem other r c))].
    exists x. split; [reflexivity|]. apply load_some. rewrite <- E.
    eapply swept_outside; [|exact Hsw]. intros Hv. exact (Hdis _ Hv Hel). }
  match goal with |- context [for_ 0 (cols v) ?B _] => set (body := B) end.
  destruct (for_rule (fun c '(m1, s, d) => swept v nv m c 0 m1 /\
      s = data other + c * outer_stride other /\ d = data v + c * outer_stride v)
    body 0 (cols v) (m, data other, data v)) as ([[m' s] d] & Hm & Hs & _).
  - split; [apply swept_0|lia].
  - intros c [[m1 s] d] Hcr (Hsw & -> & ->). unfold body; clear body.
    destruct ((inner_stride other =? 1) && (inner_stride v =? 1)) eqn:Ein.
    + apply andb_true_iff in Ein as [E1 E2]. apply Z.eqb_eq in E1, E2.
      unfold copy_n.
      destruct (for_rule (fun r m2 => swept v nv m c r m2)
        (fun i m2 => bind (load m2 (data other + c * outer_stride other + i))
            (fun x => store m2 (data v + c * outer_stride v + i) x)) 0 (rows v) m1 Hsw) as (m2 & Hm2 & Hs2).
      * intros r m2 Hrr H2. assert (Hin : in_range v r c) by (split; lia).
        replace (data other + c * outer_stride other + r) with (elem other r c) by (unfold elem; rewrite E1; lia).
        replace (data v + c * outer_stride v + r) with (elem v r c) by (unfold elem; rewrite E2; lia).
        destruct (Hsrc r c m2 Hin H2) as (x & Hx & ->). cbn [bind].
        eapply swept_step; eauto.
      * rewrite Hm2. cbn [bind]. eexists; split; [reflexivity|]. split; [now apply swept_col|lia].
    + destruct (pointer_sweep v other nv m
        (fun m src_ dst_ => bind (load m src_) (fun x => store m dst_ x)) Hno Hav) with (c := c) (m := m1)
        as (m2 & s2 & d2 & Hm2 & Hs2); auto.
      * intros r c' m2 Hin H2. destruct (Hsrc r c' m2 Hin H2) as (x & Hx & ->). cbn [bind]. eauto.
      * assert (E : forall s0, for_ 0 (rows v) (fun _ '(m, src_, dst_) =>
             bind (load m src_) (fun x => bind (store m dst_ x) (fun m' =>
               Ok (m', src_ + inner_stride other, dst_ + inner_stride v)))) s0 =
           for_ 0 (rows v) (fun _ '(m, src_, dst_) =>
             bind (bind (load m src_) (fun x => store m dst_ x)) (fun m' =>
               Ok (m', src_ + inner_stride other, dst_ + inner_stride v))) s0).
        { intros s0. unfold for_. revert s0. generalize 0 at 2 4. generalize (Z.to_nat (rows v - 0)).
          induction n as [|n IH]; intros z s0; [reflexivity|]. cbn [loop]. destruct s0 as [[m3 s3] d3].
          destruct (load m3 s3); try reflexivity. cbn [bind]. destruct (store m3 d3 a); try reflexivity.
          cbn [bind]. apply IH. }
        rewrite E, Hm2. cbn [bind]. eexists; split; [reflexivity|]. split; [exact Hs2|lia].
  - rewrite Hm. cbn [bind]. exists m'. split; [reflexivity|]. now apply swept_done in Hs.
Qed.

Lemma for_ext {S} lo hi (f g : Z -> S -> outcome S) s :
  (forall i s, f i s = g i s) -> for_ lo hi f s = for_ lo hi g s.
Proof.
  intros H. unfold for_. generalize (Z.to_nat (hi - lo)). intros n. revert lo s.
  induction n as [|n IH]; intros lo s; cbn [loop]; [reflexivity|].
  rewrite H. destruct (g lo s); cbn [bind]; auto.
Qed.

Lemma add_assign_ok add v other m :
  rows other = rows v -> cols other = cols v ->
  allocated v m -> allocated other m -> no_self_overlap v -> disjoint v other ->
  exists m', add_assign add v other m = Ok m' /\
    (forall r c x y, in_range v r c -> m (elem v r c) = Some x -> m (elem other r c) = Some y ->
       m' (elem v r c) = Some (add x y)) /\
    (forall a, ~ is_elem v a -> m' a = m a).
Proof.
  intros Hr Hc Hav Hao Hno Hdis. unfold add_assign.
  rewrite Hr, Hc, !Z.eqb_refl. cbn [andb].
  set (nv := fun r c => match m (elem v r c), m (elem other r c) with
                        | Some x, Some y => Some (add x y) | _, _ => None end).
  match goal with |- context [for_ 0 (cols v) ?B _] => set (body := B) end.
  destruct (for_rule (fun c '(m1, s, d) => swept v nv m c 0 m1 /\
      s = data other + c * outer_stride other /\ d = data v + c * outer_stride v)
    body 0 (cols v) (m, data other, data v)) as ([[m' s] d] & Hm & Hs & _).
  - split; [apply swept_0|lia].
  - intros c [[m1 s] d] Hcr (Hsw & -> & ->). unfold body; clear body.
    destruct (pointer_sweep v other nv m
        (fun m src_ dst_ => bind (load m src_) (fun x => bind (load m dst_) (fun y => store m dst_ (add y x))))
        Hno Hav) with (c := c) (m := m1)
        as (m2 & s2 & d2 & Hm2 & Hs2); auto.
    + intros r c' m2 Hin H2. unfold nv.
      assert (Hel : is_elem other (elem other r c')).
      { exists r, c'. unfold in_range in *. rewrite Hr, Hc. auto. }
      destruct (m (elem v r c')) as [x|] eqn:Ex.
      2: { exfalso. apply (Hav (elem v r c')); [exists r, c'; auto|assumption]. }
      destruct (m (elem other r c')) as [y|] eqn:Ey; [|exfalso; now apply (Hao (elem other r c'))].
      exists (add x y). split; [reflexivity|].
      rewrite (load_some m2 (elem other r c') y).
      2: { rewrite <- Ey. eapply swept_outside; [|exact H2]. intros Hv. exact (Hdis _ Hv Hel). }
      cbn [bind]. rewrite (load_some m2 (elem v r c') x); [reflexivity|].
      rewrite <- Ex. eapply swept_pending; eauto.
    + erewrite for_ext; [rewrite Hm2|].
      * cbn [bind]. eexists; split; [reflexivity|]. split; [exact Hs2|lia].
      * intros _ [[m3 s3] d3]. destruct (load m3 s3); try reflexivity. cbn [bind].
        destruct (load m3 d3); try reflexivity. 
  - rewrite Hm. cbn [bind]. exists m'. split; [reflexivity|]. apply swept_done in Hs as [H1 H2].
    split; [|exact H2]. intros r c x y Hin Hx Hy. rewrite H1 by assumption. unfold nv.
    now rewrite Hx, Hy.
Qed.

Lemma add_scalar_ok add v u m : allocated v m -> no_self_overlap v ->
  exists m', add_scalar add v u m = Ok m' /\
    (forall r c x, in_range v r c -> m (elem v r c) = Some x -> m' (elem v r c) = Some (add x u)) /\
    (forall a, ~ is_elem v a -> m' a = m a).
Proof.
  intros Hav Hno. unfold add_scalar.
  set (nv := fun r c => option_map (fun x => add x u) (m (elem v r c))).
  match goal with |- context [for_ 0 (cols v) ?B _] => set (body := B) end.
  destruct (for_rule (fun c '(m1, d) => swept v nv m c 0 m1 /\ d = data v + c * outer_stride v)
    body 0 (cols v) (m, data v)) as ([m' d] & Hm & Hs & _).
  - split; [apply swept_0|lia].
  - intros c [m1 d] Hcr (Hsw & ->). unfold body; clear body.
    destruct (for_rule (fun r '(m2, d) => swept v nv m c r m2 /\ d = elem v r c)
      (fun _ '(m, dst_) => bind (load m dst_) (fun y => bind (store m dst_ (add y u))
          (fun m' => Ok (m', dst_ + inner_stride v)))) 0 (rows v) (m1, data v + c * outer_stride v))
      as ([m2 d2] & Hm2 & Hs2 & _).
    + split; [exact Hsw|unfold elem; lia].
    + intros r [m2 d2] Hr (H2 & ->). assert (Hin : in_range v r c) by (split; lia).
      destruct (m (elem v r c)) as [x|] eqn:Ex.
      2: { exfalso. apply (Hav (elem v r c)); [exists r, c; auto|assumption]. }
      rewrite (load_some m2 _ x) by (rewrite <- Ex; eapply swept_pending; eauto). cbn [bind].
      destruct (swept_step v nv m c r m2 (add x u) Hno Hav Hin) as (m3 & -> & H3); [unfold nv; now rewrite Ex|assumption|].
      cbn [bind]. eexists; split; [reflexivity|]. split; [exact H3|unfold elem; lia].
    + rewrite Hm2. cbn [bind]. eexists; split; [reflexivity|]. split; [now apply swept_col|lia].
  - rewrite Hm. cbn [bind]. exists m'. split; [reflexivity|]. apply swept_done in Hs as [H1 H2].
    split; [|exact H2]. intros r c x Hin Hx. rewrite H1 by assumption. unfold nv. now rewrite Hx.
Qed.

Lemma generate_ok gen v m : allocated v m -> no_self_overlap v -> 0 <= rows v -> 0 <= cols v ->
  exists m', generate gen v m = Ok (m', Z.to_nat (rows v * cols v)) /\
    (forall r c, in_range v r c -> m' (elem v r c) = Some (gen (Z.to_nat (c * rows v + r)))) /\
    (forall a, ~ is_elem v a -> m' a = m a).
Proof.
  intros Hav Hno Hr0 Hc0. unfold generate.
  set (nv := fun r c => Some (gen (Z.to_nat (c * rows v + r)))).
  match goal with |- context [for_ 0 (cols v) ?B _] => set (body := B) end.
  destruct (for_rule (fun c '(m1, k) => swept v nv m c 0 m1 /\ k = Z.to_nat (c * rows v))
    body 0 (cols v) (m, O)) as ([m' k] & Hm & Hs & Hk).
  - split; [apply swept_0|reflexivity].
  - intros c [m1 k] Hcr (Hsw & ->). unfold body; clear body.
    destruct (for_rule (fun r '(m2, k) => swept v nv m c r m2 /\ k = Z.to_nat (c * rows v + r))
      (fun r '(m, k) => bind (at_ v r c) (fun a => bind (store m a (gen k)) (fun m' => Ok (m', Datatypes.S k))))
      0 (rows v) (m1, Z.to_nat (c * rows v)))
      as ([m2 k2] & Hm2 & Hs2 & Hk2).
    + split; [exact Hsw|f_equal; lia].
    + intros r [m2 k2] Hr (H2 & ->). assert (Hin : in_range v r c) by (split; lia).
      rewrite at_ok by assumption. cbn [bind].
      destruct (swept_step v nv m c r m2 (gen (Z.to_nat (c * rows v + r))) Hno Hav Hin) as (m3 & -> & H3);
        [reflexivity|assumption|]. cbn [bind]. eexists; split; [reflexivity|]. split; [exact H3|].
      nia.
    + rewrite Hm2. eexists; split; [reflexivity|]. cbn beta iota. split; [now apply swept_col|].
      rewrite Hk2. f_equal. lia.
  - rewrite Hm. exists m'. split; [do 2 f_equal; rewrite Hk; f_equal; lia|].
    apply swept_done in Hs as [H1 H2]. auto.
Qed.

(** Diagonals of square views. *)
Lemma diag_loop v m n (step : mem V -> Z -> outcome (mem V)) (f : option V -> option V) :
  (forall i, 0 <= i < n -> m (data v + i * (outer_stride v + inner_stride v)) <> None) ->
  (forall i j, 0 <= i < n -> 0 <= j < n ->
     data v + i * (outer_stride v + inner_stride v) = data v + j * (outer_stride v + inner_stride v) -> i = j) ->
  (forall m1 a, m1 a <> None -> exists x, f (m1 a) = Some x /\ step m1 a = store m1 a x) ->
  exists m' p, for_ 0 n (fun _ '(m, p) => bind (step m p) (fun m' => Ok (m', p + (outer_stride v + inner_stride v))))
     (m, data v) = Ok (m', p) /\
   (forall i, 0 <= i < n -> m' (data v + i * (outer_stride v + inner_stride v)) =
                           f (m (data v + i * (outer_stride v + inner_stride v)))) /\
   (forall a, (forall i, 0 <= i < n -> a <> data v + i * (outer_stride v + inner_stride v)) -> m' a = m a).
Proof.
  intros Hal Hinj Hstep. set (st := outer_stride v + inner_stride v) in *.
  destruct (for_rule (fun k '(m1, p) => p = data v + k * st /\
      (forall i, 0 <= i < k -> m1 (data v + i * st) = f (m (data v + i * st))) /\
      (forall a, (forall i, 0 <= i < k -> a <> data v + i * st) -> m1 a = m a))
    (fun _ '(m, p) => bind (step m p) (fun m' => Ok (m', p + st))) 0 n (m, data v))
    as ([m' p] & Hm & _ & H1 & H2).
  - split; [lia|]. split; [intros; lia|auto].
  - intros k [m1 p] Hk (-> & H1 & H2).
    assert (Hp : m1 (data v + k * st) = m (data v + k * st)).
    { apply H2. intros i Hi He. apply Hinj in He; lia. }
    destruct (Hstep m1 (data v + k * st)) as (x & Hx & ->); [rewrite Hp; now apply Hal|].
    destruct (store_ok m1 (data v + k * st) x) as (m2 & -> & Hm2 & Ho); [rewrite Hp; now apply Hal|].
    cbn [bind]. eexists; split; [reflexivity|]. cbn beta iota. split; [lia|]. split.
    + intros i Hi. destruct (Z.eq_dec i k) as [->|N].
      * rewrite Hm2. rewrite <- Hx. now rewrite Hp.
      * rewrite Ho; [apply H1; lia|]. intros He. apply N. apply Hinj in He; lia.
    + intros a Ha. rewrite Ho by (apply Ha; lia). apply H2. intros i Hi. apply Ha. lia.
  - exists m', p. split; [exact Hm|]. split.
    + intros i Hi. apply H1. lia.
    + intros a Ha. apply H2. intros i Hi. apply Ha. lia.
Qed.

Lemma elem_diag v i : elem v i i = data v + i * (outer_stride v + inner_stride v).
Proof. unfold elem. lia. Qed.

Lemma diag_inj v : rows v = cols v -> no_self_overlap v ->
  forall i j, 0 <= i < rows v -> 0 <= j < rows v ->
     data v + i * (outer_stride v + inner_stride v) = data v + j * (outer_stride v + inner_stride v) -> i = j.
Proof.
  intros Hsq Hno i j Hi Hj He. rewrite <- !elem_diag in He.
  assert (in_range v i i) by (unfold in_range; lia). assert (in_range v j j) by (unfold in_range; lia).
  now destruct (Hno i i j j).
Qed.

Lemma set_diagonal_ok v t m : rows v = cols v -> allocated v m -> no_self_overlap v ->
  exists m', set_diagonal v t m = Ok m' /\
    (forall i, 0 <= i < rows v -> m' (elem v i i) = Some t) /\
    (forall a, (forall i, 0 <= i < rows v -> a <> elem v i i) -> m' a = m a).
Proof.
  intros Hsq Hal Hno. unfold set_diagonal. rewrite <- Hsq, Z.max_id.
  destruct (diag_loop v m (rows v) (fun m p => store m p t) (fun _ => Some t)) as (m' & p & Hm & H1 & H2).
  - intros i Hi. rewrite <- elem_diag. apply Hal. exists i, i. unfold in_range. split; [lia|reflexivity].
  - now apply diag_inj.
  - intros; eauto.
  - rewrite Hm. cbn [bind]. exists m'. split; [reflexivity|]. split.
    + intros i Hi. rewrite elem_diag. auto.
    + intros a Ha. apply H2. intros i Hi. rewrite <- elem_diag. auto.
Qed.

Lemma add_to_diagonal_ok add v t m : rows v = cols v -> allocated v m -> no_self_overlap v ->
  exists m', add_to_diagonal add v t m = Ok m' /\
    (forall i x, 0 <= i < rows v -> m (elem v i i) = Some x -> m' (elem v i i) = Some (add x t)) /\
    (forall a, (forall i, 0 <= i < rows v -> a <> elem v i i) -> m' a = m a).
Proof.
  intros Hsq Hal Hno. unfold add_to_diagonal. rewrite <- Hsq, Z.max_id.
  destruct (diag_loop v m (rows v) (fun m p => bind (load m p) (fun x => store m p (add x t)))
              (option_map (fun x => add x t))) as (m' & p & Hm & H1 & H2).
  - intros i Hi. rewrite <- elem_diag. apply Hal. exists i, i. unfold in_range. split; [lia|reflexivity].
  - now apply diag_inj.
  - intros m1 a Ha. destruct (m1 a) as [x|] eqn:E; [|congruence].
    exists (add x t). split; [reflexivity|]. now rewrite (load_some _ _ _ E).
  - erewrite for_ext; [rewrite Hm|].
    + cbn [bind]. exists m'. split; [reflexivity|]. split.
      * intros i x Hi Hx. rewrite elem_diag in *. rewrite H1 by assumption. now rewrite Hx.
      * intros a Ha. apply H2. intros i Hi. rewrite <- elem_diag. auto.
    + intros _ [m3 p3]. destruct (load m3 p3); reflexivity.
Qed.

Lemma diagonal_view_ok v : rows v = cols v -> 0 <= rows v ->
  rows (diagonal v) = Z.min (rows v) (cols v) /\ cols (diagonal v) = 1 /\
  forall i, 0 <= i < rows v -> at_ (diagonal v) i 0 = Ok (elem v i i).
Proof.
  intros Hsq H0. unfold diagonal, plain; cbn [rows cols]. split; [lia|]. split; [reflexivity|].
  intros i Hi. rewrite at_ok by (unfold in_range; cbn [rows cols]; lia). f_equal. unfold elem; cbn. lia.
Qed.

(** Sub-views. *)
Lemma block_ok v r c nr nc :
  0 <= r -> 0 <= nr -> r + nr <= rows v -> 0 <= c -> 0 <= nc -> c + nc <= cols v ->
  exists w, block v r c nr nc = Ok w /\ rows w = nr /\ cols w = nc /\
    forall i j, elem w i j = elem v (r + i) (c + j).
Proof.
  intros. unfold block, middle_rows, middle_cols, bottom_rows, top_rows, right_cols, left_cols.
  repeat (match goal with |- context [if ?b then _ else _] =>
      replace b with true by (symmetry; simpl; apply andb_true_intro; split; lia) end; cbn [bind rows cols]).
  eexists; split; [reflexivity|]. cbn. repeat split; try lia. intros i j. unfold elem; cbn. lia.
Qed.

Lemma block_abort v r c nr nc :
  ~ (0 <= r /\ 0 <= nr /\ r + nr <= rows v /\ 0 <= c /\ 0 <= nc /\ c + nc <= cols v) ->
  0 <= rows v -> 0 <= cols v ->
  block v r c nr nc = Abort.
Proof.
  intros H H1 H2. unfold block, middle_rows, middle_cols, bottom_rows, top_rows, right_cols, left_cols.
  repeat (match goal with |- context [if ?b then _ else _] =>
      destruct b eqn:?; cbn [bind rows cols]; try reflexivity end).
  exfalso. apply H. rewrite !andb_true_iff in *. cbn in *. lia.
Qed.
End Proofs.

Lemma subview_intro v w r0 c0 nr nc :
  inside v r0 c0 nr nc -> rows w = nr -> cols w = nc ->
  (forall i j, elem w i j = elem v (r0 + i) (c0 + j)) -> subview v w r0 c0 nr nc.
Proof.
  intros Hin Hr Hc He. unfold inside in Hin. split; [auto|]. split; [auto|].
  intros i j Hi Hj. exists (elem v (r0 + i) (c0 + j)). split.
  - apply at_ok. unfold in_range. lia.
  - rewrite <- He. apply at_ok. unfold in_range. lia.
Qed.

Ltac solve_answers :=
  unfold answers, block, middle_rows, middle_cols, top_left, top_right, bottom_left, bottom_right,
    bottom_rows, top_rows, right_cols, left_cols; split;
  [ intros Hin; pose proof Hin as Hin'; unfold inside in Hin';
    repeat (match goal with |- context [if ?b then _ else _] =>
      replace b with true by (symmetry; cbn [rows cols]; apply andb_true_intro; split; lia) end;
      cbn [bind rows cols]);
    eexists; split; [reflexivity|]; apply subview_intro; cbn [rows cols]; auto; try lia;
    intros i j; unfold elem; cbn [data rows cols inner_stride outer_stride]; lia
  | intros Hno; unfold inside in Hno;
    repeat (match goal with |- context [if ?b then _ else _] =>
      destruct b eqn:?; cbn [bind rows cols]; try reflexivity end);
    exfalso; apply Hno; rewrite !andb_true_iff in *; cbn [rows cols] in *; lia ].

Section Sub.
Variable v : view.
Hypotheses (Hr : 0 <= rows v) (Hc : 0 <= cols v).
Lemma top_rows_answers n : answers v (top_rows v n) 0 0 n (cols v).
Proof. solve_answers. Qed.
Lemma bottom_rows_answers n : answers v (bottom_rows v n) (rows v - n) 0 n (cols v).
Proof. solve_answers. Qed.
Lemma left_cols_answers n : answers v (left_cols v n) 0 0 (rows v) n.
Proof. solve_answers. Qed.
Lemma right_cols_answers n : answers v (right_cols v n) 0 (cols v - n) (rows v) n.
Proof. solve_answers. Qed.
Lemma middle_rows_answers r n : answers v (middle_rows v r n) r 0 n (cols v).
Proof. solve_answers. Qed.
Lemma middle_cols_answers c n : answers v (middle_cols v c n) 0 c (rows v) n.
Proof. solve_answers. Qed.
Lemma top_left_answers nr nc : answers v (top_left v nr nc) 0 0 nr nc.
Proof. solve_answers. Qed.
Lemma top_right_answers nr nc : answers v (top_right v nr nc) 0 (cols v - nc) nr nc.
Proof. solve_answers. Qed.
Lemma bottom_left_answers nr nc : answers v (bottom_left v nr nc) (rows v - nr) 0 nr nc.
Proof. solve_answers. Qed.
Lemma bottom_right_answers nr nc : answers v (bottom_right v nr nc) (rows v - nr) (cols v - nc) nr nc.
Proof. solve_answers. Qed.
Lemma block_answers r c nr nc : answers v (block v r c nr nc) r c nr nc.
Proof. solve_answers. Qed.
End Sub.

Lemma subviews_all :
  forall v, 0 <= rows v -> 0 <= cols v ->
    (forall n, answers v (top_rows v n) 0 0 n (cols v)) /\
    (forall n, answers v (bottom_rows v n) (rows v - n) 0 n (cols v)) /\
    (forall n, answers v (left_cols v n) 0 0 (rows v) n) /\
    (forall n, answers v (right_cols v n) 0 (cols v - n) (rows v) n) /\
    (forall r n, answers v (middle_rows v r n) r 0 n (cols v)) /\
    (forall c n, answers v (middle_cols v c n) 0 c (rows v) n) /\
    (forall nr nc, answers v (top_left v nr nc) 0 0 nr nc) /\
    (forall nr nc, answers v (top_right v nr nc) 0 (cols v - nc) nr nc) /\
    (forall nr nc, answers v (bottom_left v nr nc) (rows v - nr) 0 nr nc) /\
    (forall nr nc, answers v (bottom_right v nr nc) (rows v - nr) (cols v - nc) nr nc) /\
    (forall r c nr nc, answers v (block v r c nr nc) r c nr nc).
Proof.
  intros v hr hc.
  split; [|split; [|split; [|split; [|split; [|split; [|split; [|split; [|split; [|split]]]]]]]]]; intros.
  all: auto using top_rows_answers, bottom_rows_answers, left_cols_answers, right_cols_answers,
    middle_rows_answers, middle_cols_answers, top_left_answers, top_right_answers, bottom_left_answers,
    bottom_right_answers, block_answers.
Qed.

Lemma as_column_ok d n i : 0 <= i < n -> at_ (as_column d n) i 0 = Ok (d + i).
Proof. intros H. rewrite at_ok by (unfold in_range; cbn; lia). f_equal. unfold elem; cbn. lia. Qed.

Lemma copy_values_mismatch {V} v other (m : mem V) :
  ~ (rows other = rows v /\ cols other = cols v) -> copy_values v other m = Abort.
Proof.
  intros H. unfold copy_values.
  destruct (Z.eqb_spec (rows other) (rows v)); destruct (Z.eqb_spec (cols other) (cols v)); simpl; try reflexivity.
  exfalso. auto.
Qed.
Lemma add_assign_mismatch {V} add v other (m : mem V) :
  ~ (rows other = rows v /\ cols other = cols v) -> add_assign add v other m = Abort.
Proof.
  intros H. unfold add_assign.
  destruct (Z.eqb_spec (rows other) (rows v)); destruct (Z.eqb_spec (cols other) (cols v)); simpl; try reflexivity.
  exfalso. auto.
Qed.
