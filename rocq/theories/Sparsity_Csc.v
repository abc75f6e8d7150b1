(** CSC patterns: iteration, entries, uniqueness check, construction from sorted
    triplets. *)
From Verif Require Import Base Sparsity_Spec Sparsity_Model Sparsity_Base.
Local Open Scope outcome_scope.
Local Arguments Nat.eqb : simpl never.
Local Arguments Nat.leb : simpl never.
Local Arguments Nat.ltb : simpl never.

Section Csc.
Context (p : csc) (Hv : valid_csc p).
Notation off := (at_ (c_outer p)).

Lemma outer_len : length (c_outer p) = S (c_cols p). Proof. apply Hv. Qed.
Lemma outer_nonneg c : c <= c_cols p -> (0 <= nth c (c_outer p) 0)%Z.
Proof.
  destruct Hv as (_ & H0 & Hm & _). induction c as [|c IH]; intros Hc; [lia|].
  specialize (Hm c ltac:(lia)). specialize (IH ltac:(lia)). lia.
Qed.
Lemma off_Z c : c <= c_cols p -> nth c (c_outer p) 0%Z = Z.of_nat (off c).
Proof. intros H. unfold at_. rewrite Z2Nat.id; auto. now apply outer_nonneg. Qed.
Lemma off_0 : off 0 = 0. Proof. unfold at_. destruct Hv as (_ & -> & _). reflexivity. Qed.
Lemma off_mono c : c < c_cols p -> off c <= off (S c).
Proof. intros H. destruct Hv as (_ & _ & Hm & _). specialize (Hm c H). rewrite !off_Z in Hm by lia. lia. Qed.
Lemma off_last : off (c_cols p) = length (c_inner p).
Proof. unfold at_. destruct Hv as (_ & _ & _ & -> & _). lia. Qed.
Lemma off_le c d : c <= d -> d <= c_cols p -> off c <= off d.
Proof. intros H. induction H as [|d H IH]; intros Hd; [lia|]. pose proof (off_mono d ltac:(lia)). specialize (IH ltac:(lia)). lia. Qed.
Lemma off_bound c : c <= c_cols p -> off c <= length (c_inner p).
Proof. intros H. rewrite <- off_last. now apply off_le. Qed.
Lemma get_outer c : c <= c_cols p -> get (c_outer p) c = Ok (Z.of_nat (off c)).
Proof.
  intros H. unfold get. rewrite (nth_error_nth' _ 0%Z) by (rewrite outer_len; lia). now rewrite off_Z.
Qed.

Lemma csc_iter {W} dbg (body : Z -> Z -> W -> outcome W) (s : W) :
  for_ (c_cols p) (fun c st =>
      a <- get (c_outer p) c ;;
      b <- get (c_outer p) (c + 1) ;;
      foldm (fun i st => r <- getz dbg (c_inner p) i ;; body r (Z.of_nat c) st) (zrange a b) st) s
  = foldm (fun e => body (fst e) (snd e)) (csc_entries p) s.
Proof.
  unfold csc_entries, for_. rewrite foldm_flat_map. apply foldm_ext. intros c st Hc. apply in_seq in Hc.
  rewrite get_outer by lia. rewrite Nat.add_1_r, get_outer by lia. cbn [bind].
  rewrite foldm_map. unfold zrange. rewrite foldm_map. cbn [fst snd].
  replace (Z.to_nat (Z.of_nat (off (Datatypes.S c)) - Z.of_nat (off c))) with (length (csc_column p c)).
  2:{ unfold csc_column. rewrite slice_length by (apply off_bound; lia). cbn. lia. }
  apply foldm_seq_nth. intros l x s' Hl. cbn [Nat.add].
  unfold getz. rewrite cast_sz_ok by lia. cbn [bind].
  unfold csc_column in Hl. rewrite slice_nth in Hl. destruct (Nat.ltb l (off (Datatypes.S c) - off c)); [|discriminate].
  unfold get. replace (Z.to_nat (Z.of_nat (off c) + Z.of_nat l)) with (off c + l) by lia.
  rewrite Hl. reflexivity.
Qed.

Lemma entries_length : length (csc_entries p) = length (c_inner p).
Proof.
  rewrite <- off_last. unfold csc_entries.
  assert (K : forall n, n <= c_cols p -> length (flat_map (fun c => map (fun r => (r, Z.of_nat c)) (csc_column p c)) (seq 0 n)) = off n).
  { induction n as [|n IH]; intros Hn.
    - cbn. now rewrite off_0.
    - rewrite seq_S, flat_map_app, app_length, IH by lia. cbn. rewrite app_nil_r, map_length.
      unfold csc_column. rewrite slice_length by (apply off_bound; lia).
      pose proof (off_mono n ltac:(lia)). lia. }
  apply K. lia.
Qed.
Lemma entries_fst : map fst (csc_entries p) = c_inner p.
Proof.
  unfold csc_entries. rewrite flat_map_concat_map, concat_map, map_map.
  rewrite (map_ext _ (csc_column p)) by (intros c; rewrite map_map; cbn; apply map_id).
  rewrite <- flat_map_concat_map. unfold csc_column. rewrite (slice_flat_map (c_inner p) off).
  - rewrite off_last. apply slice_all.
  - apply off_mono.
  - apply off_0.
Qed.
Lemma entries_bounds e : In e (csc_entries p) -> in_bounds (c_rows p) (fst e) /\ in_bounds (c_cols p) (snd e).
Proof.
  unfold csc_entries. intros H. apply in_flat_map in H. destruct H as (c & Hc & H). apply in_seq in Hc.
  apply in_map_iff in H. destruct H as (r & <- & H). cbn. unfold in_bounds at 2. split; [|lia].
  destruct Hv as (_ & _ & _ & _ & Hf). rewrite Forall_forall in Hf. apply Hf. eapply in_slice; eauto.
Qed.
Lemma nnz_ok dbg : csc_nnz dbg p = Ok (length (c_inner p)).
Proof.
  unfold csc_nnz. rewrite outer_len, Nat.add_1_r, Nat.eqb_refl. cbn [assert bind].
  destruct (rev (c_outer p)) as [|z l] eqn:E.
  - apply (f_equal (@length Z)) in E. rewrite rev_length, outer_len in E. discriminate.
  - assert (z = Z.of_nat (length (c_inner p))) as ->.
    { destruct Hv as (Hl & _ & _ & <- & _).
      assert (c_outer p = rev l ++ [z]) as Eo. { rewrite <- (rev_involutive (c_outer p)), E. reflexivity. }
      rewrite Eo. rewrite Eo, app_length in Hl. cbn in Hl. replace (c_cols p) with (length (rev l)) by lia.
      rewrite app_nth2 by lia. now rewrite Nat.sub_diag. }
    rewrite Z.eqb_refl. reflexivity.
Qed.

Lemma subrange_column {A} (l : list A) c : length l = length (c_inner p) -> c < c_cols p ->
  subrange l (Z.of_nat (off c)) (Z.of_nat (off (S c))) = Ok (slice l (off c) (off (S c))).
Proof.
  intros Hl Hc. unfold subrange. pose proof (off_mono c Hc). pose proof (off_bound (S c) Hc).
  rewrite (proj2 (Z.leb_le _ _)) by lia. rewrite (proj2 (Z.leb_le _ _)) by lia. rewrite (proj2 (Z.leb_le _ _)) by lia.
  cbn. now rewrite !Nat2Z.id.
Qed.
Lemma check_uniqueness_csc_eq : check_uniqueness_csc (c_outer p) (c_inner p)
  = Ok (forallb (fun c => no_adjacent Z.eqb (csc_column p c)) (seq 0 (c_cols p))).
Proof.
  unfold check_uniqueness_csc. rewrite outer_len. cbn [Nat.eqb]. rewrite (proj2 (Nat.eqb_neq _ _)) by lia.
  replace (S (c_cols p) - 1) with (c_cols p) by lia. unfold for_.
  rewrite (foldm_ext _ (fun c acc => Ok (acc && no_adjacent Z.eqb (csc_column p c)))).
  2:{ intros c acc Hc. apply in_seq in Hc. rewrite get_outer by lia. rewrite Nat.add_1_r, get_outer by lia. cbn [bind].
      rewrite subrange_column by lia. reflexivity. }
  assert (K : forall l acc, foldm (fun c acc => Ok (acc && no_adjacent Z.eqb (csc_column p c))) l acc
     = Ok (acc && forallb (fun c => no_adjacent Z.eqb (csc_column p c)) l)).
  { induction l as [|c l IH]; intros acc; cbn; [now rewrite andb_true_r|]. rewrite IH. now rewrite andb_assoc. }
  now rewrite K.
Qed.
End Csc.

Lemma no_adjacent_nodup {A} (eqb : A -> A -> bool) (Heq : forall x y, eqb x y = true <-> x = y) l : NoDup l -> no_adjacent eqb l = true.
Proof.
  induction l as [|x l IH]; intros H; cbn; auto. destruct l as [|y l]; auto. inversion H as [|? ? Hn H2]; subst.
  rewrite IH by auto. rewrite andb_true_r. destruct (eqb x y) eqn:E; auto. apply Heq in E. subst. destruct Hn. now left.
Qed.
Lemma pair_eqb_iff x y : pair_eqb x y = true <-> x = y.
Proof. unfold pair_eqb. destruct x, y; cbn. rewrite andb_true_iff, !Z.eqb_eq. split; [intros [-> ->]; auto|intros [= -> ->]; auto]. Qed.
Lemma NoDup_app_l {A} (l k : list A) : NoDup (l ++ k) -> NoDup l.
Proof. induction l as [|x l IH]; intros H; constructor; inversion H; subst; auto. intros K. apply H2. apply in_app_iff. auto. Qed.
Lemma NoDup_app_r {A} (l k : list A) : NoDup (l ++ k) -> NoDup k.
Proof. induction l as [|x l IH]; intros H; auto. inversion H; auto. Qed.
Lemma NoDup_flat_map {A B} (f : A -> list B) l x : NoDup (flat_map f l) -> In x l -> NoDup (f x).
Proof.
  induction l as [|y l IH]; intros H Hx; [destruct Hx|]. cbn in H. destruct Hx as [->|Hx].
  - now apply NoDup_app_l in H.
  - apply NoDup_app_r in H. auto.
Qed.
Lemma unique_check_ok p : valid_csc p -> NoDup (csc_entries p) -> check_uniqueness_csc (c_outer p) (c_inner p) = Ok true.
Proof.
  intros Hv Hn. rewrite check_uniqueness_csc_eq by auto. f_equal. apply forallb_forall. intros c Hc.
  apply no_adjacent_nodup; [intros; apply Z.eqb_eq|].
  apply (NoDup_flat_map _ _ c) in Hn; auto. now apply NoDup_map_inv in Hn.
Qed.

(** ** Construction from triplets sorted by column *)
Section Build.
Context (b : Z) (rows cols : list Z).
Hypothesis Hlen : length rows = length cols.
Definition cnt (c : nat) : nat := count_lt cols (Z.of_nat c + b)%Z.

Lemma count_lt_le l v : count_lt l v <= length l.
Proof. induction l as [|x l IH]; cbn; [lia|]. destruct (x <? v)%Z; lia. Qed.
Lemma count_lt_mono l v w : (v <= w)%Z -> count_lt l v <= count_lt l w.
Proof. intros H. induction l as [|x l IH]; cbn; [lia|]. destruct (Z.ltb_spec x v), (Z.ltb_spec x w); lia. Qed.
Lemma count_lt_lt l v i x : i < count_lt l v -> nth_error l i = Some x -> (x < v)%Z.
Proof.
  revert i. induction l as [|y l IH]; intros [|i] H; cbn in *; try discriminate; destruct (Z.ltb_spec y v); try lia.
  - intros [= ->]. lia.
  - apply IH. lia.
Qed.
Lemma count_lt_ge l v i x : StronglySorted Z.le l -> count_lt l v <= i -> nth_error l i = Some x -> (v <= x)%Z.
Proof.
  intros Hs. revert i. induction Hs as [|y l Hs IH Hf]; intros [|i] H; cbn in *; try discriminate; destruct (Z.ltb_spec y v); try lia.
  - intros [= ->]. lia.
  - apply IH. lia.
  - intros Hx. apply nth_error_In in Hx. rewrite Forall_forall in Hf. specialize (Hf _ Hx). lia.
Qed.
Lemma count_lt_skipn l v w : StronglySorted Z.le l -> (v <= w)%Z ->
  count_lt l v + count_lt (skipn (count_lt l v) l) w = count_lt l w.
Proof.
  intros Hs H. induction Hs as [|y l Hs IH Hf]; cbn; [reflexivity|].
  destruct (Z.ltb_spec y v); cbn.
  - rewrite (proj2 (Z.ltb_lt y w)) by lia. lia.
  - reflexivity.
Qed.
Hypothesis Hsorted : StronglySorted Z.le cols.

Lemma lower_bound_ok v w : (v <= w)%Z -> lower_bound cols (count_lt cols v) w = Ok (count_lt cols w).
Proof.
  intros H. unfold lower_bound. rewrite count_lt_skipn by auto.
  rewrite (proj2 (forallb_forall _ _)); [reflexivity|]. intros x Hx. apply Z.leb_le.
  apply In_nth_error in Hx. destruct Hx as [i Hi].
  assert (K : nth_error cols (count_lt cols w + i) = Some x).
  { rewrite <- Hi. generalize (count_lt cols w) as k. clear. induction cols as [|y l IH]; intros [|k]; cbn; auto. now destruct i. }
  eapply count_lt_ge; [exact Hsorted| |exact K]. lia.
Qed.

Context (ncols : nat).
Hypothesis Hcols : Forall (fun c => (b <= c < b + Z.of_nat ncols)%Z) cols.
Lemma cnt_0 : cnt 0 = 0.
Proof.
  unfold cnt. clear Hsorted Hlen. induction Hcols as [|y l Hy Hf IH]; cbn; [reflexivity|].
  rewrite (proj2 (Z.ltb_ge _ _)) by lia. reflexivity.
Qed.
Lemma cnt_last : cnt ncols = length cols.
Proof.
  unfold cnt. clear Hsorted Hlen. induction Hcols as [|y l Hy Hf IH]; cbn; [reflexivity|].
  rewrite (proj2 (Z.ltb_lt _ _)) by lia. now rewrite IH.
Qed.
Lemma cnt_mono c : cnt c <= cnt (S c). Proof. apply count_lt_mono. lia. Qed.
Lemma cnt_le c : cnt c <= length cols. Proof. apply count_lt_le. Qed.

(** The pattern that is built. *)
Definition built (nrows : nat) (sy : symmetry) (o : csc_order) : csc :=
  Csc nrows ncols sy (map (fun r => (r - b)%Z) rows) (map (fun c => Z.of_nat (cnt c)) (seq 0 (S ncols))) o.
Lemma built_off nrows sy o c : c <= ncols -> at_ (c_outer (built nrows sy o)) c = cnt c.
Proof.
  intros H. unfold at_, built, c_outer. rewrite (nth_indep _ 0%Z (Z.of_nat (cnt 0))) by (rewrite map_length, seq_length; lia).
  rewrite (map_nth (fun c => Z.of_nat (cnt c))), seq_nth by lia. cbn. apply Nat2Z.id.
Qed.
Lemma built_nth nrows sy o c : c <= ncols -> nth c (c_outer (built nrows sy o)) 0%Z = Z.of_nat (cnt c).
Proof.
  intros H. unfold built, c_outer. rewrite (nth_indep _ 0%Z (Z.of_nat (cnt 0))) by (rewrite map_length, seq_length; lia).
  rewrite (map_nth (fun c => Z.of_nat (cnt c))), seq_nth by lia. reflexivity.
Qed.
Lemma built_column nrows sy o c : c < ncols ->
  map (fun r => (r, Z.of_nat c)) (csc_column (built nrows sy o) c)
  = slice (combine (map (fun r => (r - b)%Z) rows) (map (fun x => (x - b)%Z) cols)) (cnt c) (cnt (S c)).
Proof.
  intros Hc. unfold csc_column. rewrite !built_off by lia. cbn [c_inner built].
  rewrite slice_combine, !slice_map.
  assert (E : forall k l, (forall x, In x l -> (x - b)%Z = Z.of_nat c) -> length k = length l ->
     map (fun r => (r, Z.of_nat c)) (map (fun r : Z => (r - b)%Z) k) = combine (map (fun r => (r - b)%Z) k) (map (fun x => (x - b)%Z) l)).
  { induction k as [|r k IH]; intros [|x l] Hx Hkl; cbn in *; try discriminate; auto.
    rewrite (Hx x) by auto. f_equal. apply IH; auto. }
  apply E.
  - intros x Hx. apply In_nth_error in Hx. destruct Hx as [i Hi]. rewrite slice_nth in Hi.
    destruct (Nat.ltb_spec i (cnt (S c) - cnt c)) as [Hl|]; [|discriminate].
    assert (x < Z.of_nat (S c) + b)%Z by (apply (count_lt_lt cols _ (cnt c + i)); auto; unfold cnt in *; lia).
    assert (Z.of_nat c + b <= x)%Z by (apply (count_lt_ge cols _ (cnt c + i)); auto; unfold cnt in *; lia).
    lia.
  - rewrite !slice_length by (rewrite ?Hlen; apply cnt_le). reflexivity.
Qed.
Lemma built_entries nrows sy o :
  csc_entries (built nrows sy o) = combine (map (fun r => (r - b)%Z) rows) (map (fun x => (x - b)%Z) cols).
Proof.
  unfold csc_entries. cbn [c_cols built].
  rewrite (flat_map_ext_in _ (fun c => slice (combine (map (fun r => (r - b)%Z) rows) (map (fun x => (x - b)%Z) cols)) (cnt c) (cnt (S c)))).
  - rewrite slice_flat_map.
    + rewrite cnt_last. replace (length cols) with (length (combine (map (fun r => (r - b)%Z) rows) (map (fun x => (x - b)%Z) cols))).
      * apply slice_all.
      * rewrite combine_length, !map_length. lia.
    + intros. apply cnt_mono.
    + apply cnt_0.
  - intros c Hc. apply in_seq in Hc. apply built_column. lia.
Qed.
Lemma built_valid nrows sy o : Forall (fun r => in_bounds nrows (r - b)) rows -> valid_csc (built nrows sy o).
Proof.
  intros Hr. unfold valid_csc. split; [|split; [|split; [|split]]].
  - cbn. now rewrite map_length, seq_length.
  - rewrite built_nth by lia. now rewrite cnt_0.
  - intros c Hc. cbn in Hc. rewrite !built_nth by lia. pose proof (cnt_mono c). lia.
  - cbn [c_cols built]. rewrite built_nth by lia. rewrite cnt_last. cbn. rewrite map_length. lia.
  - cbn. rewrite Forall_forall in *. intros x Hx. apply in_map_iff in Hx. destruct Hx as (r & <- & Hx). auto.
Qed.
(** Columns sorted if the entries are. *)
Lemma built_sorted nrows sy o c : c < ncols ->
  StronglySorted col_major (combine (map (fun r => (r - b)%Z) rows) (map (fun x => (x - b)%Z) cols)) ->
  StronglySorted Z.le (csc_column (built nrows sy o) c).
Proof.
  intros Hc Hs. apply (StronglySorted_slice _ _ (cnt c) (cnt (S c))) in Hs. rewrite <- (built_column nrows sy o c Hc) in Hs.
  revert Hs. generalize (csc_column (built nrows sy o) c) as l. induction l as [|r l IH]; intros Hs; constructor.
  - inversion Hs; auto.
  - inversion Hs as [|? ? H1 H2]; subst. rewrite Forall_forall in *. intros x Hx.
    specialize (H2 (x, Z.of_nat c) (in_map (fun r => (r, Z.of_nat c)) _ _ Hx)). unfold col_major in H2. cbn in H2. lia.
Qed.

(** What the code computes is [built]. *)
Lemma convert_triplets_ok dbg tf ti ts nrows :
  Forall (fun r => in_bounds nrows (r - b) /\ fits ti r) rows -> fits ti (Z.of_nat nrows) -> fits ti b ->
  fits tf (Z.of_nat ncols + 1) -> fits tf b -> fits tf (b + Z.of_nat ncols) -> fits ts (Z.of_nat (length cols)) ->
  forall sy o,
  convert_triplets_to_ccs dbg tf ti ts rows cols (repeat 0%Z (length rows)) (repeat 0%Z (ncols + 1)) b
  = Ok (c_inner (built nrows sy o), c_outer (built nrows sy o)).
Proof.
  intros Hr Hn Hb1 Hnc Hb2 Hbc Hnz sy o. unfold convert_triplets_to_ccs.
  rewrite repeat_length, Nat.eqb_refl. cbn [assert bind].
  rewrite (fill1 _ (fun r => (r - b)%Z)); [| |lia].
  2:{ intros r Hin. rewrite Forall_forall in Hr. destruct (Hr _ Hin) as [Hb Hf]. rewrite !cast_id by auto.
      apply chk_ok. unfold in_bounds in Hb. apply (fits_between ti 0 (Z.of_nat nrows)); auto using fits_0; lia. }
  cbn [bind]. rewrite Nat.sub_diag, app_nil_r.
  rewrite repeat_length, Nat.add_1_r. rewrite cast_id by (rewrite Nat2Z.inj_succ; exact Hnc).
  assert (E : zrange 0 (Z.of_nat (S ncols)) = map Z.of_nat (seq 0 (S ncols))).
  { unfold zrange. rewrite Z.sub_0_r, Nat2Z.id. apply map_ext. intros; lia. }
  rewrite E, foldm_map.
  destruct (foldm_inv (fun c '(o0, it) => v <- chk tf (Z.of_nat c + b) ;; it' <- lower_bound cols it v ;;
      o' <- set o0 (Z.to_nat (Z.of_nat c)) (cast ts (Z.of_nat it')) ;; Ok (o', it'))
    (fun pre st => st = (map (fun c => Z.of_nat (cnt c)) pre ++ repeat 0%Z (S ncols - length pre), cnt (length pre - 1)) /\ pre = seq 0 (length pre))
    (seq 0 (S ncols)) (repeat 0%Z (S ncols), 0)) as (st & E2 & -> & _).
  - cbn [map app length]. rewrite Nat.sub_0_r. cbn [Nat.sub]. rewrite cnt_0. auto.
  - intros pre c post s Es [-> Hp].
    assert (Hlp : length pre < S ncols).
    { apply (f_equal (@length nat)) in Es. rewrite seq_length, app_length in Es. cbn in Es. lia. }
    assert (c = length pre) as ->.
    { assert (nth_error (seq 0 (S ncols)) (length pre) = Some c) by (rewrite Es, nth_error_app2, Nat.sub_diag by lia; reflexivity).
      rewrite (nth_error_nth' _ 0) in H by (rewrite seq_length; lia). rewrite seq_nth in H by lia. injection H as <-. reflexivity. }
    assert (Hf : fits tf (Z.of_nat (length pre) + b)).
    { apply (fits_between tf b (b + Z.of_nat ncols)); auto. lia. }
    rewrite chk_ok by auto. cbn [bind].
    assert (Hlb : lower_bound cols (cnt (length pre - 1)) (Z.of_nat (length pre) + b) = Ok (cnt (length pre))).
    { apply lower_bound_ok. lia. }
    rewrite Hlb. cbn [bind]. rewrite Nat2Z.id.
    rewrite cast_id.
    2:{ apply (fits_between ts 0 (Z.of_nat (length cols))); auto using fits_0. pose proof (cnt_le (length pre)). lia. }
    pose proof (set_fill 0%Z (Z.of_nat (cnt (length pre))) (map (fun c => Z.of_nat (cnt c)) pre) (S ncols)) as K.
    rewrite map_length in K. rewrite K by auto. cbn [bind]. eexists. split; [reflexivity|]. split.
    + rewrite map_app, !app_length, map_length. cbn. f_equal. f_equal. lia.
    + rewrite app_length, Nat.add_1_r, seq_S. cbn. now rewrite <- Hp.
  - rewrite E2. cbn [bind]. rewrite seq_length, Nat.sub_diag, app_nil_r. reflexivity.
Qed.
End Build.
