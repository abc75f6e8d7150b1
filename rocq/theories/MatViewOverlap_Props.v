(** C87: assignment and += between overlapping views. *)
From Verif Require Import Base MatView_Model MatView_Spec MatView_Proofs MatView_Props MatViewExact_Props MatViewAlias_Model.
Local Open Scope outcome_scope.
Local Open Scope Z_scope.

(** Both standard library versions of copy_n. *)
Definition copy_fn {V} (is_memmove : bool) : Z -> Z -> Z -> mem V -> outcome (mem V) :=
  if is_memmove then memmove else copy_n.

(** No element of the source is overwritten before its turn to be read. *)
Definition read_before_written (v other : view) : Prop :=
  forall r c r' c', in_range v r c -> in_range v r' c' ->
    c' < c \/ (c' = c /\ r' < r) -> elem v r' c' <> elem other r c.

Section Sweep.
Context {V : Type}.
Implicit Types (m : mem V) (v w : view).

Lemma copy_n_sweep v other nv m : no_self_overlap v -> allocated v m ->
  inner_stride other = 1 -> inner_stride v = 1 ->
  (forall r c m1, in_range v r c -> swept v nv m c r m1 -> exists x, nv r c = Some x /\ load m1 (elem other r c) = Ok x) ->
  forall c m1, 0 <= c < cols v -> swept v nv m c 0 m1 ->
  exists m2, copy_n (data other + c * outer_stride other) (rows v) (data v + c * outer_stride v) m1 = Ok m2 /\
    swept v nv m (c + 1) 0 m2.
Proof.
  intros Hno Hav E1 E2 Hsrc c m1 Hc Hsw. unfold copy_n.
  destruct (for_rule (fun r m2 => swept v nv m c r m2)
    (fun i m2 => bind (load m2 (data other + c * outer_stride other + i))
        (fun x => store m2 (data v + c * outer_stride v + i) x)) 0 (rows v) m1 Hsw) as (m2 & Hm2 & Hs2).
  - intros r m2 Hrr H2. assert (Hin : in_range v r c) by (split; lia).
    replace (data other + c * outer_stride other + r) with (elem other r c) by (unfold elem; rewrite E1; lia).
    replace (data v + c * outer_stride v + r) with (elem v r c) by (unfold elem; rewrite E2; lia).
    destruct (Hsrc r c m2 Hin H2) as (x & Hx & ->). cbn [bind].
    eapply swept_step; eauto.
  - exists m2. split; [exact Hm2|now apply swept_col].
Qed.

Lemma memmove_sweep v other nv m : no_self_overlap v -> allocated v m ->
  inner_stride other = 1 -> inner_stride v = 1 ->
  (forall r c m1, in_range v r c -> swept v nv m c 0 m1 -> exists x, nv r c = Some x /\ load m1 (elem other r c) = Ok x) ->
  forall c m1, 0 <= c < cols v -> swept v nv m c 0 m1 ->
  exists m2, memmove (data other + c * outer_stride other) (rows v) (data v + c * outer_stride v) m1 = Ok m2 /\
    swept v nv m (c + 1) 0 m2.
Proof.
  intros Hno Hav E1 E2 Hsrc c m1 Hc Hsw. unfold memmove.
  destruct (for_rule (fun r m2 => swept v nv m c r m2)
    (fun i m2 => bind (load m1 (data other + c * outer_stride other + i))
        (fun x => store m2 (data v + c * outer_stride v + i) x)) 0 (rows v) m1 Hsw) as (m2 & Hm2 & Hs2).
  - intros r m2 Hrr H2. assert (Hin : in_range v r c) by (split; lia).
    replace (data other + c * outer_stride other + r) with (elem other r c) by (unfold elem; rewrite E1; lia).
    replace (data v + c * outer_stride v + r) with (elem v r c) by (unfold elem; rewrite E2; lia).
    destruct (Hsrc r c m1 Hin Hsw) as (x & Hx & ->). cbn [bind].
    eapply swept_step; eauto.
  - exists m2. split; [exact Hm2|now apply swept_col].
Qed.

(** [nv r c] is what copying puts at (r, c), if that is what is found at the source when
    (r, c) is reached. *)
Lemma copy_gen mm v other nv m :
  rows other = rows v -> cols other = cols v ->
  allocated v m -> no_self_overlap v ->
  (mm = false \/ ~ (inner_stride other = 1 /\ inner_stride v = 1) ->
     forall r c m1, in_range v r c -> swept v nv m c r m1 -> exists x, nv r c = Some x /\ load m1 (elem other r c) = Ok x) ->
  (mm = true -> inner_stride other = 1 -> inner_stride v = 1 ->
     forall r c m1, in_range v r c -> swept v nv m c 0 m1 -> exists x, nv r c = Some x /\ load m1 (elem other r c) = Ok x) ->
  exists m', copy_values_with (copy_fn mm) v other m = Ok m' /\
    (forall r c, in_range v r c -> m' (elem v r c) = nv r c) /\
    (forall a, ~ is_elem v a -> m' a = m a).
Proof.
  intros Hr Hc Hav Hno Hsrc Hmm. unfold copy_values_with.
  rewrite Hr, Hc, !Z.eqb_refl. cbn [andb].
  match goal with |- context [for_ 0 (cols v) ?B _] => set (body := B) end.
  destruct (for_rule (fun c '(m1, s, d) => swept v nv m c 0 m1 /\
      s = data other + c * outer_stride other /\ d = data v + c * outer_stride v)
    body 0 (cols v) (m, data other, data v)) as ([[m' s] d] & Hm & Hs & _).
  - split; [apply swept_0|lia].
  - intros c [[m1 s] d] Hcr (Hsw & -> & ->). unfold body; clear body.
    destruct ((inner_stride other =? 1) && (inner_stride v =? 1)) eqn:Ein.
    + apply andb_true_iff in Ein as [E1 E2]. apply Z.eqb_eq in E1, E2.
      assert (B : exists m2, copy_fn mm (data other + c * outer_stride other) (rows v) (data v + c * outer_stride v) m1 = Ok m2 /\
        swept v nv m (c + 1) 0 m2).
      { unfold copy_fn. destruct mm.
        - apply memmove_sweep; auto.
        - apply copy_n_sweep; auto. }
      destruct B as (m2 & -> & H2). cbn [bind]. eexists; split; [reflexivity|]. split; [exact H2|lia].
    + destruct (pointer_sweep v other nv m
        (fun m src_ dst_ => bind (load m src_) (fun x => store m dst_ x)) Hno Hav) with (c := c) (m := m1)
        as (m2 & s2 & d2 & Hm2 & Hs2); auto.
      * intros r c' m2 Hin H2.
        assert (NI : ~ (inner_stride other = 1 /\ inner_stride v = 1)).
        { intros [A1 A2]. rewrite A1, A2 in Ein. discriminate Ein. }
        destruct (Hsrc (or_intror NI) r c' m2 Hin H2) as (x & Hx & ->). cbn [bind]. eauto.
      * erewrite for_ext; [rewrite Hm2|].
        -- cbn [bind]. eexists; split; [reflexivity|]. split; [exact Hs2|lia].
        -- intros _ [[m3 s3] d3]. destruct (load m3 s3); reflexivity.
  - rewrite Hm. cbn [bind]. exists m'. split; [reflexivity|]. now apply swept_done in Hs.
Qed.

Lemma add_gen add v other nv m :
  rows other = rows v -> cols other = cols v ->
  allocated v m -> no_self_overlap v ->
  (forall r c m1 y, in_range v r c -> swept v nv m c r m1 -> m (elem v r c) = Some y ->
     exists x, nv r c = Some (add y x) /\ load m1 (elem other r c) = Ok x) ->
  exists m', add_assign add v other m = Ok m' /\
    (forall r c, in_range v r c -> m' (elem v r c) = nv r c) /\
    (forall a, ~ is_elem v a -> m' a = m a).
Proof.
  intros Hr Hc Hav Hno Hsrc. unfold add_assign.
  rewrite Hr, Hc, !Z.eqb_refl. cbn [andb].
  match goal with |- context [for_ 0 (cols v) ?B _] => set (body := B) end.
  destruct (for_rule (fun c '(m1, s, d) => swept v nv m c 0 m1 /\
      s = data other + c * outer_stride other /\ d = data v + c * outer_stride v)
    body 0 (cols v) (m, data other, data v)) as ([[m' s] d] & Hm & Hs & _).
  - split; [apply swept_0|lia].
  - intros c [[m1 s] d] Hcr (Hsw & -> & ->). unfold body; clear body.
    destruct (pointer_sweep v other nv m
        (fun m src_ dst_ => bind (load m src_) (fun x => bind (load m dst_) (fun y => store m dst_ (add y x))))
        Hno Hav) with (c := c) (m := m1)
        as (m2 & s2 & d2 & Hm2 & Hs2); auto.
    + intros r c' m2 Hin H2.
      destruct (m (elem v r c')) as [y|] eqn:Ey.
      2: { exfalso. apply (Hav (elem v r c')); [exists r, c'; auto|assumption]. }
      destruct (Hsrc r c' m2 y Hin H2 Ey) as (x & Hx & ->). exists (add y x). split; [exact Hx|].
      cbn [bind]. rewrite (load_some m2 (elem v r c') y); [reflexivity|].
      rewrite <- Ey. eapply swept_pending; eauto.
    + erewrite for_ext; [rewrite Hm2|].
      * cbn [bind]. eexists; split; [reflexivity|]. split; [exact Hs2|lia].
      * intros _ [[m3 s3] d3]. destruct (load m3 s3); try reflexivity. cbn [bind].
        destruct (load m3 d3); try reflexivity.
  - rewrite Hm. cbn [bind]. exists m'. split; [reflexivity|]. now apply swept_done in Hs.
Qed.

(** An address that no visited position has is unchanged. *)
Lemma swept_unwritten v nv m0 c0 r0 m a :
  (forall r c, in_range v r c -> before c0 r0 r c -> elem v r c <> a) -> swept v nv m0 c0 r0 m -> m a = m0 a.
Proof. intros N [_ H2]. apply H2. intros r c Hin Hb He. exact (N r c Hin Hb (eq_sym He)). Qed.
End Sweep.

(** C87, positive part: as long as no element of the source is overwritten before it is
    read, overlap does no harm; memmove needs this between different columns only. *)
Theorem C87_safe_overlap_partial :
  forall (V : Type) (add : V -> V -> V) mm v other (m : mem V),
    rows other = rows v -> cols other = cols v ->
    allocated v m -> allocated other m -> no_self_overlap v ->
    (read_before_written v other ->
       (exists m', copy_values_with (copy_fn mm) v other m = Ok m' /\
         (forall r c, in_range v r c -> m' (elem v r c) = m (elem other r c)) /\
         (forall a, ~ is_elem v a -> m' a = m a)) /\
       (exists m', add_assign add v other m = Ok m' /\
         (forall r c x y, in_range v r c -> m (elem v r c) = Some x -> m (elem other r c) = Some y ->
            m' (elem v r c) = Some (add x y)) /\
         (forall a, ~ is_elem v a -> m' a = m a))) /\
    (inner_stride v = 1 -> inner_stride other = 1 ->
     (forall r c r' c', in_range v r c -> in_range v r' c' -> c' < c -> elem v r' c' <> elem other r c) ->
       exists m', copy_values_with memmove v other m = Ok m' /\
         (forall r c, in_range v r c -> m' (elem v r c) = m (elem other r c)) /\
         (forall a, ~ is_elem v a -> m' a = m a)).
Proof.
  intros V add mm v other m Hr Hc Hav Hao Hno.
  assert (Src : forall r c, in_range v r c -> exists x, m (elem other r c) = Some x).
  { intros r c Hin. destruct (m (elem other r c)) as [x|] eqn:E; [eauto|].
    exfalso. apply (Hao (elem other r c)); [|exact E]. exists r, c. unfold in_range in *. rewrite Hr, Hc. auto. }
  split; [intros B; split|intros I1 I2 B].
  - apply copy_gen; [exact Hr|exact Hc|exact Hav|exact Hno| |].
    + intros _ r c m1 Hin Hsw. destruct (Src r c Hin) as (x & Hx). exists x. split; [exact Hx|].
      apply load_some. rewrite <- Hx. eapply swept_unwritten; [|exact Hsw].
      intros r' c' Hin' Hb. apply (B r c r' c' Hin Hin'). destruct Hin'. unfold before in Hb. lia.
    + intros _ _ _ r c m1 Hin Hsw. destruct (Src r c Hin) as (x & Hx). exists x. split; [exact Hx|].
      apply load_some. rewrite <- Hx. eapply swept_unwritten; [|exact Hsw].
      intros r' c' Hin' Hb. apply (B r c r' c' Hin Hin'). destruct Hin'. unfold before in Hb. lia.
  - destruct (add_gen add v other (fun r c => match m (elem v r c), m (elem other r c) with
      | Some x, Some y => Some (add x y) | _, _ => None end) m Hr Hc Hav Hno) as (m' & E & H1 & H2).
    + intros r c m1 y Hin Hsw Hy. destruct (Src r c Hin) as (x & Hx). exists x. rewrite Hy, Hx. split; [reflexivity|].
      apply load_some. rewrite <- Hx. eapply swept_unwritten; [|exact Hsw].
      intros r' c' Hin' Hb. apply (B r c r' c' Hin Hin'). destruct Hin'. unfold before in Hb. lia.
    + exists m'. split; [exact E|]. split; [|exact H2]. intros r c x y Hin Hx Hy. rewrite (H1 r c Hin), Hx, Hy. reflexivity.
  - apply (copy_gen true v other (fun r c => m (elem other r c)) m Hr Hc Hav Hno).
    + intros [A|A]; [discriminate A|]. exfalso. now apply A.
    + intros _ _ _ r c m1 Hin Hsw. destruct (Src r c Hin) as (x & Hx). exists x. split; [exact Hx|].
      apply load_some. rewrite <- Hx. eapply swept_unwritten; [|exact Hsw].
      intros r' c' Hin' Hb. apply (B r c r' c' Hin Hin'). destruct Hin'. unfold before in Hb. lia.
Qed.
Print Assumptions C87_safe_overlap_partial.

(** In particular: two parts of the same matrix of which the destination starts first
    (moving values to the left or up), and a view with itself (v += v). *)
Theorem C87_towards_the_start_partial :
  forall (V : Type) (add : V -> V -> V) mm v other (m : mem V),
    rows other = rows v -> cols other = cols v ->
    inner_stride other = inner_stride v -> outer_stride other = outer_stride v -> columns_in_order v ->
    data v <= data other -> allocated v m -> allocated other m ->
    (exists m', copy_values_with (copy_fn mm) v other m = Ok m' /\
       (forall r c, in_range v r c -> m' (elem v r c) = m (elem other r c)) /\
       (forall a, ~ is_elem v a -> m' a = m a)) /\
    (exists m', add_assign add v other m = Ok m' /\
       (forall r c x y, in_range v r c -> m (elem v r c) = Some x -> m (elem other r c) = Some y ->
          m' (elem v r c) = Some (add x y)) /\
       (forall a, ~ is_elem v a -> m' a = m a)).
Proof.
  intros V add mm v other m Hr Hc Hi Ho [Pi Po] Hd Hav Hao.
  assert (Lt : forall r c r' c', in_range v r c -> in_range v r' c' -> c' < c \/ (c' = c /\ r' < r) -> elem v r' c' < elem v r c).
  { intros r c r' c' [R C] [R' C'] [L|[-> L]]; unfold elem; [|nia].
    assert (r' * inner_stride v < rows v * inner_stride v) by (apply Z.mul_lt_mono_pos_r; lia).
    assert (0 <= r * inner_stride v) by (apply Z.mul_nonneg_nonneg; lia).
    assert (0 <= outer_stride v) by (assert (0 <= rows v * inner_stride v) by (apply Z.mul_nonneg_nonneg; lia); lia).
    assert ((c' + 1) * outer_stride v <= c * outer_stride v) by (apply Z.mul_le_mono_nonneg_r; lia). lia. }
  apply C87_safe_overlap_partial; [exact Hr|exact Hc|exact Hav|exact Hao| |].
  - intros r c r' c' Hin Hin' He.
    destruct (Z.lt_trichotomy c' c) as [L|[->|L]].
    + pose proof (Lt r c r' c' Hin Hin' (or_introl L)). lia.
    + split; [|reflexivity]. destruct (Z.lt_trichotomy r' r) as [L|[->|L]]; [|reflexivity|].
      * pose proof (Lt r c r' c Hin Hin' ltac:(right; lia)). lia.
      * pose proof (Lt r' c r c Hin' Hin ltac:(right; lia)). lia.
    + pose proof (Lt r' c' r c Hin' Hin (or_introl L)). lia.
  - intros r c r' c' Hin Hin' B He. pose proof (Lt r c r' c' Hin Hin' B) as L.
    assert (elem other r c = data other - data v + elem v r c) by (unfold elem; rewrite Hi, Ho; lia). lia.
Qed.
Print Assumptions C87_towards_the_start_partial.

(** ** Moving values one column to the right *)

Lemma shift_views v n : 1 <= n -> cols v = n + 1 ->
  right_cols v n = Ok (View (data v + outer_stride v) (rows v) n (inner_stride v) (outer_stride v)) /\
  left_cols v n = Ok (View (data v) (rows v) n (inner_stride v) (outer_stride v)).
Proof.
  intros H1 Hc. unfold right_cols, left_cols. rewrite Hc.
  replace ((0 <=? n) && (n <=? n + 1)) with true by lia. split; [|reflexivity].
  do 2 f_equal. replace (n + 1 - n) with 1 by lia. lia.
Qed.

Section Shift.
Context {V : Type}.
Variables (v : view) (n : Z) (m : mem V).
Hypothesis Hn : 1 <= n.
Hypothesis Hc : cols v = n + 1.
Hypothesis Hav : allocated v m.
Hypothesis Hno : no_self_overlap v.
Let dst := View (data v + outer_stride v) (rows v) n (inner_stride v) (outer_stride v).
Let src := View (data v) (rows v) n (inner_stride v) (outer_stride v).

Lemma elem_dst r c : elem dst r c = elem v r (c + 1).
Proof. unfold elem, dst; cbn [data rows cols inner_stride outer_stride]. lia. Qed.
Lemma elem_src r c : elem src r c = elem v r c.
Proof. reflexivity. Qed.
Lemma in_dst r c : in_range dst r c -> in_range v r (c + 1) /\ in_range v r c.
Proof. unfold in_range, dst; cbn [rows cols]. lia. Qed.
Lemma alloc_dst : allocated dst m.
Proof. intros a (r & c & Hin & ->). apply Hav. exists r, (c + 1). split; [exact (proj1 (in_dst r c Hin))|apply elem_dst]. Qed.
Lemma inj_dst : no_self_overlap dst.
Proof.
  intros r c r' c' H H' He. rewrite !elem_dst in He. apply in_dst in H as [H _]. apply in_dst in H' as [H' _].
  destruct (Hno _ _ _ _ H H' He). split; [assumption|lia].
Qed.
Lemma m_some r c : in_range v r c -> exists x, m (elem v r c) = Some x.
Proof.
  intros Hin. destruct (m (elem v r c)) as [x|] eqn:E; [eauto|]. exfalso. apply (Hav (elem v r c)); [exists r, c; auto|exact E].
Qed.

(** What the source element is when (r, c) is reached, if the new values are [nv]. *)
Lemma src_now nv r c r0 m1 : in_range dst r c -> swept dst nv m c r0 m1 ->
  m1 (elem src r c) = if c =? 0 then m (elem v r 0) else nv r (c - 1).
Proof.
  intros Hin Hsw. rewrite elem_src. destruct (Z.eqb_spec c 0) as [->|N].
  - eapply swept_unwritten; [|exact Hsw]. intros r' c' Hin' _ He. rewrite elem_dst in He.
    apply in_dst in Hin' as [H' H'']. apply in_dst in Hin as [_ H]. destruct (Hno _ _ _ _ H' H He) as [_ Q].
    destruct H''. lia.
  - destruct Hsw as [H1 _]. rewrite <- H1; [|unfold in_range, dst in *; cbn [rows cols] in *; lia|left; lia].
    rewrite elem_dst. do 2 f_equal. lia.
Qed.

Lemma shift_copy mm : exists m', copy_values_with (copy_fn mm) dst src m = Ok m' /\
  (forall r c, in_range v r c -> m' (elem v r c) = m (elem v r 0)) /\
  (forall a, ~ is_elem v a -> m' a = m a).
Proof.
  destruct (copy_gen mm dst src (fun r _ => m (elem v r 0)) m eq_refl eq_refl alloc_dst inj_dst) as (m' & E & H1 & H2).
  - intros _ r c m1 Hin Hsw. destruct (m_some r 0) as (x & Hx).
    { destruct (in_dst r c Hin) as [_ [A B]]. split; [exact A|lia]. }
    exists x. split; [exact Hx|]. apply load_some. rewrite (src_now _ r c r m1 Hin Hsw). destruct (c =? 0); exact Hx.
  - intros _ _ _ r c m1 Hin Hsw. destruct (m_some r 0) as (x & Hx).
    { destruct (in_dst r c Hin) as [_ [A B]]. split; [exact A|lia]. }
    exists x. split; [exact Hx|]. apply load_some. rewrite (src_now _ r c 0 m1 Hin Hsw). destruct (c =? 0); exact Hx.
  - exists m'. split; [exact E|]. split.
    + intros r c Hin. destruct (Z.eq_dec c 0) as [->|N].
      * apply H2. intros (r' & c' & Hin' & He). rewrite elem_dst in He. apply in_dst in Hin' as [H' H''].
        destruct (Hno _ _ _ _ Hin H' He) as [_ Q]. destruct H''. lia.
      * replace (elem v r c) with (elem dst r (c - 1)) by (rewrite elem_dst; f_equal; lia).
        apply H1. destruct Hin. unfold in_range, dst; cbn [rows cols]. lia.
    + intros a Ha. apply H2. intros (r & c & Hin & ->). apply Ha. exists r, (c + 1). split; [exact (proj1 (in_dst r c Hin))|apply elem_dst].
Qed.

Variable add : V -> V -> V.
(** Sum of the elements of row [r] in the columns up to [k], left to right. *)
Fixpoint running (r : Z) (k : nat) : option V :=
  match k with
  | O => m (elem v r 0)
  | Datatypes.S k' => match m (elem v r (Z.of_nat k)), running r k' with
                      | Some y, Some x => Some (add y x) | _, _ => None end
  end.

Lemma running_some r k : 0 <= r < rows v -> Z.of_nat k <= n -> exists x, running r k = Some x.
Proof.
  intros Hr. induction k as [|k IH]; intros Hk.
  - apply m_some. unfold in_range. lia.
  - destruct IH as (x & Hx); [lia|]. destruct (m_some r (Z.of_nat (Datatypes.S k))) as (y & Hy); [unfold in_range; lia|].
    exists (add y x). cbn [running]. now rewrite Hy, Hx.
Qed.

Lemma shift_add : exists m', add_assign add dst src m = Ok m' /\
  (forall r c, in_range v r c -> m' (elem v r c) = running r (Z.to_nat c)) /\
  (forall a, ~ is_elem v a -> m' a = m a).
Proof.
  destruct (add_gen add dst src (fun r c => running r (Z.to_nat (c + 1))) m eq_refl eq_refl alloc_dst inj_dst) as (m' & E & H1 & H2).
  - intros r c m1 y Hin Hsw Hy. rewrite elem_dst in Hy. pose proof Hin as [Rr Cc]. cbn [rows cols dst] in Rr, Cc.
    destruct (running_some r (Z.to_nat c)) as (x & Hx); [exact Rr|lia|].
    exists x. split.
    + replace (Z.to_nat (c + 1)) with (Datatypes.S (Z.to_nat c)) by lia. cbn [running].
      replace (Z.of_nat (Datatypes.S (Z.to_nat c))) with (c + 1) by lia. now rewrite Hy, Hx.
    + apply load_some. rewrite (src_now _ r c r m1 Hin Hsw). destruct (Z.eqb_spec c 0) as [->|N]; [exact Hx|].
      replace (c - 1 + 1) with c by lia. exact Hx.
  - exists m'. split; [exact E|]. split.
    + intros r c Hin. destruct (Z.eq_dec c 0) as [->|N].
      * cbn [running Z.to_nat]. apply H2. intros (r' & c' & Hin' & He). rewrite elem_dst in He. apply in_dst in Hin' as [H' H''].
        destruct (Hno _ _ _ _ Hin H' He) as [_ Q]. destruct H''. lia.
      * replace (elem v r c) with (elem dst r (c - 1)) by (rewrite elem_dst; f_equal; lia).
        rewrite H1; [f_equal; lia|]. destruct Hin. unfold in_range, dst; cbn [rows cols]. lia.
    + intros a Ha. apply H2. intros (r & c & Hin & ->). apply Ha. exists r, (c + 1). split; [exact (proj1 (in_dst r c Hin))|apply elem_dst].
Qed.
End Shift.

(** Moving values to the right goes wrong for every matrix: after
    v.right_cols(n) = v.left_cols(n), with n = cols - 1, every column is a copy
    of the first one, whichever copy_n is used; and v.right_cols(n) += v.left_cols(n)
    gives running sums. *)
Theorem C87_shift_right :
  forall (V : Type) (add : V -> V -> V) mm v n (m : mem V),
    1 <= n -> cols v = n + 1 -> allocated v m -> no_self_overlap v ->
    exists dst src, right_cols v n = Ok dst /\ left_cols v n = Ok src /\
      (exists m', copy_values_with (copy_fn mm) dst src m = Ok m' /\
         (forall r c, in_range v r c -> m' (elem v r c) = m (elem v r 0)) /\
         (forall a, ~ is_elem v a -> m' a = m a)) /\
      (exists m', add_assign add dst src m = Ok m' /\
         (forall r, 0 <= r < rows v -> m' (elem v r 0) = m (elem v r 0)) /\
         (forall r c x y, 0 <= r < rows v -> 0 <= c < n -> m (elem v r (c + 1)) = Some y -> m' (elem v r c) = Some x ->
            m' (elem v r (c + 1)) = Some (add y x)) /\
         (forall a, ~ is_elem v a -> m' a = m a)).
Proof.
  intros V add mm v n m Hn Hc Hav Hno. destruct (shift_views v n Hn Hc) as [-> ->].
  eexists _, _. split; [reflexivity|]. split; [reflexivity|].
  split; [exact (shift_copy v n m Hn Hc Hav Hno mm)|].
  destruct (shift_add v n m Hn Hc Hav Hno add) as (m' & E & H1 & H2). exists m'. split; [exact E|].
  split; [|split; [|exact H2]].
  - intros r Hr. rewrite H1 by (unfold in_range; lia). reflexivity.
  - intros r c x y Hr Hcc Hy Hx. rewrite H1 in Hx by (unfold in_range; lia). rewrite H1 by (unfold in_range; lia).
    replace (Z.to_nat (c + 1)) with (Datatypes.S (Z.to_nat c)) by lia. cbn [running].
    replace (Z.of_nat (Datatypes.S (Z.to_nat c))) with (c + 1) by lia. now rewrite Hy, Hx.
Qed.
Print Assumptions C87_shift_right.

(** C87 refuted: the 1x3 matrix (0 1 2) becomes (0 0 0) instead of (0 0 1). *)
Theorem C87_overlap_refuted :
  let v := View 0 1 3 1 1 in
  allocated v (mem_of 3) /\ no_self_overlap v /\
  forall mm, exists dst src m', right_cols v 2 = Ok dst /\ left_cols v 2 = Ok src /\
    copy_values_with (copy_fn mm) dst src (mem_of 3) = Ok m' /\
    map m' [0; 1; 2] = map Some [0; 0; 0] /\ elem dst 0 1 = 2 /\ mem_of 3 (elem src 0 1) = Some 1.
Proof.
  cbn zeta. split; [|split].
  - intros a (r & c & [Hr Hc] & ->). unfold elem; cbn [data rows cols inner_stride outer_stride] in *. rewrite mem_of_some by lia. discriminate.
  - intros r c r' c' [Hr Hc] [Hr' Hc'] He. unfold elem in He; cbn [data rows cols inner_stride outer_stride] in *. lia.
  - intros [|]; eexists _, _, _; (split; [reflexivity|]; split; [reflexivity|]; split; [reflexivity|]; repeat split).
Qed.
Print Assumptions C87_overlap_refuted.

(** Moving values one row down inside the columns: with memmove right, element by
    element wrong. *)
Theorem C87_down_depends_on_copy_n :
  let v := View 0 3 1 1 3 in
  exists dst src, bottom_rows v 2 = Ok dst /\ top_rows v 2 = Ok src /\
    (exists m', copy_values_with memmove dst src (mem_of 3) = Ok m' /\ map m' [0; 1; 2] = map Some [0; 0; 1]) /\
    (exists m', copy_values_with copy_n dst src (mem_of 3) = Ok m' /\ map m' [0; 1; 2] = map Some [0; 0; 0]).
Proof.
  cbn zeta. eexists _, _. split; [reflexivity|]. split; [reflexivity|].
  split; (eexists; split; reflexivity).
Qed.
Print Assumptions C87_down_depends_on_copy_n.

(** The views of a 2x3 matrix in an array of leading dimension 4, moved to the left. *)
Example C87_nonvacuous :
  let v := View 0 2 3 1 4 in
  exists dst src, left_cols v 2 = Ok dst /\ right_cols v 2 = Ok src /\
    columns_in_order dst /\ data dst <= data src /\ allocated dst (mem_of 12) /\ allocated src (mem_of 12) /\
    exists m', copy_values_with copy_n dst src (mem_of 12) = Ok m' /\
      map m' [0; 1; 2; 4; 5; 8; 9] = map Some [4; 5; 2; 8; 9; 8; 9].
Proof.
  cbn zeta. eexists _, _. split; [reflexivity|]. split; [reflexivity|].
  split; [unfold columns_in_order; cbn; lia|]. split; [cbn; lia|].
  split; [|split].
  - intros a (r & c & [Hr Hc] & ->). unfold elem; cbn [data rows cols inner_stride outer_stride] in *. rewrite mem_of_some by lia. discriminate.
  - intros a (r & c & [Hr Hc] & ->). unfold elem; cbn [data rows cols inner_stride outer_stride] in *. rewrite mem_of_some by lia. discriminate.
  - eexists; split; reflexivity.
Qed.
