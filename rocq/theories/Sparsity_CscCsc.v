(** CSC to CSC; values of both conversions to CSC that may sort. *)
From Verif Require Import Base Sparsity_Spec Sparsity_Model Sparsity_Base Sparsity_Csc Sparsity_Conv.
Local Open Scope outcome_scope.
Local Arguments Nat.eqb : simpl never.
Local Arguments Nat.leb : simpl never.
Local Arguments Nat.ltb : simpl never.

(** ** Lists cut into chunks *)
Section Chunks.
Context {A : Type} (o : nat -> nat) (F : nat -> list A).
Lemma chunks_length n : o 0 = 0 -> (forall c, c < n -> o c <= o (S c)) -> (forall c, c < n -> length (F c) = o (S c) - o c) ->
  length (flat_map F (seq 0 n)) = o n.
Proof.
  intros H0. induction n as [|n IH]; intros Hm Hl; [cbn; lia|].
  rewrite seq_S, flat_map_app, app_length, IH by auto. cbn. rewrite app_nil_r, Hl by lia. specialize (Hm n ltac:(lia)). lia.
Qed.
Lemma o_le n : (forall c, c < n -> o c <= o (S c)) -> forall c d, c <= d -> d <= n -> o c <= o d.
Proof. intros Hm c d H. induction H as [|d H IH]; intros Hd; [lia|]. specialize (Hm d ltac:(lia)). specialize (IH ltac:(lia)). lia. Qed.
Lemma slice_chunk n c : o 0 = 0 -> (forall c, c < n -> o c <= o (S c)) -> (forall c, c < n -> length (F c) = o (S c) - o c) ->
  c < n -> slice (flat_map F (seq 0 n)) (o c) (o (S c)) = F c.
Proof.
  intros H0 Hm Hl Hc.
  replace (seq 0 n) with (seq 0 c ++ c :: seq (S c) (n - S c)).
  2:{ rewrite <- seq_app with (len2 := S (n - S c)). f_equal. lia. }
  rewrite flat_map_app. cbn [flat_map]. unfold slice.
  assert (L : length (flat_map F (seq 0 c)) = o c) by (apply chunks_length; auto with arith; intros; [apply Hm|apply Hl]; lia).
  rewrite skipn_app, skipn_all2 by lia. rewrite L, Nat.sub_diag. cbn [skipn app].
  rewrite <- (Hl c Hc). rewrite firstn_app, Nat.sub_diag, firstn_all. cbn. apply app_nil_r.
Qed.
End Chunks.
Lemma combine_flat_map {A B C} (F : A -> list B) (G : A -> list C) l : (forall x, In x l -> length (F x) = length (G x)) ->
  combine (flat_map F l) (flat_map G l) = flat_map (fun x => combine (F x) (G x)) l.
Proof.
  induction l as [|x l IH]; intros H; cbn; [reflexivity|]. rewrite combine_app by (apply H; now left).
  f_equal. apply IH. intros; apply H; now right.
Qed.
Lemma Permutation_flat_map' {A B} (F G : A -> list B) l : (forall x, In x l -> Permutation (F x) (G x)) -> Permutation (flat_map F l) (flat_map G l).
Proof.
  induction l as [|x l IH]; intros H; cbn; [constructor|]. apply Permutation_app; [apply H; now left|].
  apply IH. intros; apply H; now right.
Qed.
Lemma combine_tag {A B C} (t : C) (a : list A) : forall b : list B,
  combine (map (fun r => (r, t)) a) b = map (fun z => ((fst z, t), snd z)) (combine a b).
Proof. induction a as [|x a IH]; intros [|y b]; cbn; auto. now rewrite IH. Qed.

Section SortRows.
Context (srt : sorter) (Hsrt : good_sorter srt) (p : csc) (Hv : valid_csc p).
Notation off := (at_ (c_outer p)).
Notation n := (length (c_inner p)).
(** The sorted (row, position) pairs of a column. *)
Definition zs (c : nat) : list (Z * Z) :=
  srt (Z * Z)%type c lt_row (combine (csc_column p c) (slice (iota n) (off c) (off (S c)))).
Lemma zs_perm c : Permutation (zs c) (combine (csc_column p c) (slice (iota n) (off c) (off (S c)))).
Proof. unfold zs. apply Hsrt. apply lt_row_swo. Qed.
Lemma zs_length c : c < c_cols p -> length (zs c) = off (S c) - off c.
Proof.
  intros H. rewrite (Permutation_length (zs_perm c)), combine_length. unfold csc_column.
  pose proof (off_bound p Hv (S c) H). rewrite !slice_length by (rewrite ?iota_length; lia). lia.
Qed.
Lemma zs_sorted c : StronglySorted Z.le (map fst (zs c)).
Proof.
  destruct (Hsrt _ c lt_row (combine (csc_column p c) (slice (iota n) (off c) (off (S c)))) lt_row_swo) as [_ S].
  eapply StronglySorted_map; [|exact S]. intros x y. unfold lt_row. cbn. lia.
Qed.
Definition new_inner : list Z := flat_map (fun c => map fst (zs c)) (seq 0 (c_cols p)).
Definition new_perm : list Z := flat_map (fun c => map snd (zs c)) (seq 0 (c_cols p)).

Lemma splice_chunk {A} (pre : list A) l a b new : length pre = a -> a <= b -> b <= length l -> length new = b - a ->
  splice (pre ++ skipn a l) (Z.of_nat a) new = (pre ++ new) ++ skipn b l.
Proof.
  intros Ha Hab Hb Hn. unfold splice. rewrite Nat2Z.id. rewrite firstn_app, Ha, Nat.sub_diag, firstn_O, app_nil_r.
  rewrite firstn_all2 by lia. rewrite <- app_assoc. f_equal. f_equal.
  rewrite skipn_app, skipn_all2 by lia. cbn [app]. rewrite skipn_skipn'. f_equal. lia.
Qed.
Lemma sort_rows_csc_ok : sort_rows_csc srt (c_outer p) (c_inner p) (iota n) = Ok (new_inner, new_perm).
Proof.
  unfold sort_rows_csc. rewrite outer_len by auto. rewrite (proj2 (Nat.eqb_neq _ _)) by lia.
  replace (S (c_cols p) - 1) with (c_cols p) by lia. unfold for_.
  assert (K : forall k, k <= c_cols p -> foldm (fun c '(inn, prm) =>
    a <- get (c_outer p) c ;;
    b <- get (c_outer p) (c + 1) ;;
    xs <- subrange inn a b ;;
    ps <- subrange prm a b ;;
    let sorted := srt (Z * Z)%type c lt_row (combine xs ps) in
    Ok (splice inn a (map fst sorted), splice prm a (map snd sorted))) (seq 0 k) (c_inner p, iota n)
    = Ok (flat_map (fun c => map fst (zs c)) (seq 0 k) ++ skipn (off k) (c_inner p),
          flat_map (fun c => map snd (zs c)) (seq 0 k) ++ skipn (off k) (iota n))).
  { induction k as [|k IH]; intros Hk.
    - cbn. rewrite off_0 by auto. reflexivity.
    - rewrite seq_S, foldm_app, IH by lia. cbn [foldm bind Nat.add].
      rewrite get_outer by (auto; lia). rewrite Nat.add_1_r, get_outer by (auto; lia). cbn [bind].
      assert (L1 : length (flat_map (fun c => map fst (zs c)) (seq 0 k)) = off k).
      { apply chunks_length; [now apply off_0|intros; apply off_mono; auto; lia|intros; rewrite map_length; apply zs_length; lia]. }
      assert (L2 : length (flat_map (fun c => map snd (zs c)) (seq 0 k)) = off k).
      { apply chunks_length; [now apply off_0|intros; apply off_mono; auto; lia|intros; rewrite map_length; apply zs_length; lia]. }
      pose proof (off_mono p Hv k ltac:(lia)) as M. pose proof (off_bound p Hv (S k) ltac:(lia)) as B.
      rewrite !subrange_column by (auto; rewrite ?app_length, ?L1, ?L2, ?skipn_length, ?iota_length; lia). cbn [bind].
      assert (Sl : forall (pre l : list Z), length pre = off k -> slice (pre ++ skipn (off k) l) (off k) (off (S k)) = slice l (off k) (off (S k))).
      { intros pre l Hp. unfold slice. rewrite skipn_app, skipn_all2 by lia. rewrite Hp, Nat.sub_diag. reflexivity. }
      rewrite !Sl by auto. fold (csc_column p k). fold (zs k).
      rewrite (splice_chunk _ (c_inner p) (off k) (off (S k))) by (auto; rewrite map_length, zs_length; lia).
      rewrite (splice_chunk _ (iota n) (off k) (off (S k))) by (auto; rewrite ?iota_length, ?map_length, ?zs_length; lia).
      rewrite !flat_map_app. cbn [flat_map]. now rewrite !app_nil_r. }
  rewrite K by lia. rewrite off_last by auto. rewrite !skipn_all2 by (rewrite ?iota_length; lia). now rewrite !app_nil_r.
Qed.

(** The result of sorting. *)
Definition sorted_csc (o : csc_order) : csc := Csc (c_rows p) (c_cols p) (c_sym p) new_inner (c_outer p) o.
Lemma new_inner_length : length new_inner = n.
Proof.
  unfold new_inner. rewrite <- (off_last p Hv). apply chunks_length; [now apply off_0|intros; now apply off_mono|].
  intros. rewrite map_length. now apply zs_length.
Qed.
Lemma sorted_column o c : c < c_cols p -> csc_column (sorted_csc o) c = map fst (zs c).
Proof.
  intros Hc. unfold csc_column. cbn [c_inner c_outer sorted_csc]. unfold new_inner.
  apply (slice_chunk off (fun c => map fst (zs c))); auto; [now apply off_0|intros; now apply off_mono|].
  intros. rewrite map_length. now apply zs_length.
Qed.
Lemma sorted_entries o : csc_entries (sorted_csc o)
  = flat_map (fun c => map (fun r => (r, Z.of_nat c)) (map fst (zs c))) (seq 0 (c_cols p)).
Proof.
  unfold csc_entries. cbn [c_cols sorted_csc]. apply flat_map_ext_in. intros c Hc. apply in_seq in Hc.
  now rewrite sorted_column by lia.
Qed.
Lemma sorted_pairs o : Permutation (combine (csc_entries (sorted_csc o)) new_perm) (combine (csc_entries p) (iota n)).
Proof.
  assert (E : iota n = flat_map (fun c => slice (iota n) (off c) (off (S c))) (seq 0 (c_cols p))).
  { rewrite slice_flat_map; [|intros; now apply off_mono|now apply off_0]. rewrite off_last by auto.
    symmetry. pose proof (slice_all (iota n)) as K. now rewrite iota_length in K. }
  rewrite sorted_entries. unfold new_perm. rewrite E at 1. unfold csc_entries.
  rewrite !combine_flat_map.
  2:{ intros c Hc. apply in_seq in Hc. rewrite map_length. unfold csc_column. pose proof (off_bound p Hv (S c) ltac:(lia)).
      rewrite !slice_length by (rewrite ?iota_length; lia). reflexivity. }
  2:{ intros c Hc. now rewrite !map_length. }
  apply Permutation_flat_map'. intros c Hc. rewrite !combine_tag. apply Permutation_map.
  rewrite combine_fst_snd. apply zs_perm.
Qed.
Lemma sorted_valid o : valid_csc (sorted_csc o).
Proof.
  destruct Hv as (H1 & H2 & H3 & H4 & H5). unfold valid_csc. cbn [c_outer c_cols c_inner c_rows sorted_csc].
  split; [auto|]. split; [auto|]. split; [auto|]. split; [now rewrite new_inner_length|].
  rewrite Forall_forall in *. intros r Hr. unfold new_inner in Hr. apply in_flat_map in Hr. destruct Hr as (c & Hc & Hr).
  apply in_map_iff in Hr. destruct Hr as ([r' k] & <- & Hr). eapply Permutation_in in Hr; [|apply zs_perm].
  apply in_combine_l in Hr. apply H5. eapply in_slice; eauto.
Qed.
End SortRows.

Section CscCsc.
Context (dbg : bool) (srt : sorter) (Hsrt : good_sorter srt).
Context (tif tsf ti ts : ity) (p : csc).
Hypothesis (Hv : valid_csc p) (Ht : csc_truthful p).
Hypothesis (Hfi : fits ti (Z.of_nat (c_rows p))) (Hfs : fits ts (Z.of_nat (length (c_inner p)))).
Hypothesis (Hdup : dbg = true -> NoDup (csc_entries p)).
Notation n := (length (c_inner p)).

Definition csc_good (req : option csc_order) (c : outcome conv) : Prop :=
  exists to perm, c = Ok (CscCsc to perm) /\ valid_csc to /\ csc_truthful to /\
    c_rows to = c_rows p /\ c_cols to = c_cols p /\ c_sym to = c_sym p /\ length (c_inner to) = n /\
    (req = Some SortedRows -> c_order to = SortedRows) /\ (req <> Some SortedRows -> to = p /\ perm = []) /\
    (c_order p = SortedRows -> to = p /\ perm = []) /\
    length (full_perm n perm) = n /\ (perm = [] \/ length perm = n) /\
    Permutation (combine (csc_entries to) (full_perm n perm)) (combine (csc_entries p) (iota n)).

Lemma inner_cast : map (cast ti) (c_inner p) = c_inner p.
Proof.
  rewrite <- (map_id (c_inner p)) at 2. apply map_ext_in. intros r Hr. apply cast_id.
  destruct Hv as (_ & _ & _ & _ & Hf). rewrite Forall_forall in Hf. specialize (Hf _ Hr). unfold in_bounds in Hf.
  apply (fits_between ti 0 (Z.of_nat (c_rows p))); auto using fits_0. lia.
Qed.
Lemma outer_cast : map (cast ts) (c_outer p) = c_outer p.
Proof.
  rewrite <- (map_id (c_outer p)) at 2. apply map_ext_in. intros z Hz. apply cast_id.
  apply In_nth with (d := 0%Z) in Hz. destruct Hz as (c & Hc & <-). rewrite outer_len in Hc by auto.
  rewrite off_Z by (auto; lia). pose proof (off_bound p Hv c ltac:(lia)).
  apply (fits_between ts 0 (Z.of_nat n)); auto using fits_0. lia.
Qed.

Lemma nosort_ok (o : csc_order) : o = c_order p ->
  ('(inner, outer, perm) <- Ok (if ity_eqb tif ti then [] else map (cast ti) (c_inner p), if ity_eqb tsf ts then [] else map (cast ts) (c_outer p), []) ;;
  let perm := if is_sorted perm then [] else perm in
  let inner := if ity_eqb tif ti then match inner with [] => c_inner p | _ => inner end else inner in
  let outer := if ity_eqb tsf ts then match outer with [] => c_outer p | _ => outer end else outer in
  _ <- (if dbg then u <- check_uniqueness_csc outer inner ;; assert dbg u else Ok tt) ;;
  Ok (CscCsc (Csc (c_rows p) (c_cols p) (c_sym p) inner outer o) perm)) = Ok (CscCsc p []).
Proof.
  intros ->. cbn [bind]. rewrite inner_cast, outer_cast. cbn [is_sorted].
  replace (if ity_eqb tif ti then match (if ity_eqb tif ti then [] else c_inner p) with [] => c_inner p | _ => if ity_eqb tif ti then [] else c_inner p end else if ity_eqb tif ti then [] else c_inner p) with (c_inner p) by (destruct (ity_eqb tif ti); auto; now destruct (c_inner p)).
  replace (if ity_eqb tsf ts then match (if ity_eqb tsf ts then [] else c_outer p) with [] => c_outer p | _ => if ity_eqb tsf ts then [] else c_outer p end else if ity_eqb tsf ts then [] else c_outer p) with (c_outer p) by (destruct (ity_eqb tsf ts); auto; now destruct (c_outer p)).
  replace (Csc (c_rows p) (c_cols p) (c_sym p) (c_inner p) (c_outer p) (c_order p)) with p by now destruct p.
  destruct dbg; [|reflexivity]. rewrite unique_check_ok by auto. reflexivity.
Qed.

Lemma nosort_good req : (req = Some SortedRows -> c_order p = SortedRows) -> csc_good req (Ok (CscCsc p [])).
Proof.
  intros H. exists p, []. refine (conj eq_refl (conj Hv (conj Ht _))). repeat split; auto. cbn. apply iota_length.
Qed.

Lemma csc_csc_ok req : csc_good req (csc_csc dbg srt tif tsf ti ts req p).
Proof.
  unfold csc_csc.
  destruct (match req with Some SortedRows => match c_order p with CscUnsorted => true | SortedRows => false end | _ => false end) eqn:En.
  - assert (req = Some SortedRows) as ->. { destruct req as [[|]|]; try discriminate. reflexivity. }
    destruct (c_order p) eqn:Eo; [|discriminate]. cbn [bind].
    rewrite inner_cast, outer_cast. rewrite (iota_cast ts n Hfs). rewrite sort_rows_csc_ok by auto. cbn [bind].
    pose proof (new_inner_length srt Hsrt p Hv) as Ln.
    replace (if ity_eqb tif ti then match new_inner srt p with [] => c_inner p | _ => new_inner srt p end else new_inner srt p) with (new_inner srt p).
    2:{ destruct (ity_eqb tif ti); auto. destruct (new_inner srt p); auto. cbn in Ln. destruct (c_inner p); auto. discriminate. }
    replace (if ity_eqb tsf ts then match c_outer p with [] => c_outer p | _ => c_outer p end else c_outer p) with (c_outer p).
    2:{ destruct (ity_eqb tsf ts); auto. now destruct (c_outer p). }
    pose proof (sorted_valid srt Hsrt p Hv SortedRows) as Vs.
    pose proof (sorted_pairs srt Hsrt p Hv SortedRows) as Ps.
    assert (Le : length (csc_entries (sorted_csc srt p SortedRows)) = n) by (rewrite entries_length by auto; auto).
    assert (Lp : length (new_perm srt p) = n).
    { unfold new_perm. rewrite <- (off_last p Hv). apply chunks_length; [now apply off_0|intros; now apply off_mono|].
      intros. rewrite map_length. now apply zs_length. }
    assert (Pp : Permutation (new_perm srt p) (iota n)).
    { apply (Permutation_map snd) in Ps. rewrite !map_snd_combine in Ps; auto.
      - rewrite iota_length. now apply entries_length.
      - lia. }
    assert (Pe : Permutation (csc_entries (sorted_csc srt p SortedRows)) (csc_entries p)).
    { apply (Permutation_map fst) in Ps. rewrite !map_fst_combine in Ps; auto.
      - rewrite iota_length. now apply entries_length.
      - lia. }
    exists (sorted_csc srt p SortedRows), (if is_sorted (new_perm srt p) then [] else new_perm srt p).
    rewrite (full_perm_trim n _ Pp).
    split.
    { destruct dbg; [|reflexivity].
      pose proof (unique_check_ok (sorted_csc srt p SortedRows) Vs) as U. cbn [c_outer c_inner sorted_csc] in U. rewrite U; [reflexivity|].
      eapply Permutation_NoDup; [apply Permutation_sym; exact Pe|auto]. }
    split; [exact Vs|]. split.
    { unfold csc_truthful. cbn [c_order sorted_csc c_cols]. intros c Hc. rewrite sorted_column by auto. now apply zs_sorted. }
    repeat split; auto; try congruence.
    destruct (is_sorted _); auto.
  - replace (match req with Some SortedRows => (SortedRows, match c_order p with CscUnsorted => true | SortedRows => false end) | _ => (c_order p, false) end)
      with (c_order p, false).
    2:{ destruct req as [[|]|]; auto. destruct (c_order p); [discriminate|reflexivity]. }
    cbv beta iota.
    rewrite nosort_ok by auto. apply nosort_good. intros ->. destruct (c_order p); [discriminate|reflexivity].
Qed.
End CscCsc.

(** ** Values *)
Section PermValues.
Context {V : Type} (zero : V) (dbg : bool) (to : csc) (perm : list Z).
Hypothesis (Hv : valid_csc to).
Notation n := (length (c_inner to)).
Hypothesis (Hp : Permutation (full_perm n perm) (iota n)) (Hlen : perm = [] \/ length perm = n).

Lemma perm_in_range : Forall (fun k => (0 <= k < Z.of_nat n)%Z) perm.
Proof.
  apply Forall_forall. intros k Hk. apply iota_in. eapply Permutation_in; [exact Hp|]. destruct perm; [destruct Hk|exact Hk].
Qed.
Lemma perm_convert c (vals work : list V) : c = CooCsc to perm \/ c = CscCsc to perm ->
  length vals = n -> length work = length perm ->
  exists r w, convert_values dbg zero c vals work = Ok (r, w) /\ values_out r vals w = map (pick zero vals) (full_perm n perm) /\
    length w = length perm /\ (perm = [] -> r = RFrom) /\ (perm <> [] -> r = RWork).
Proof.
  intros Hc Hl Hw.
  assert (E : convert_values dbg zero c vals work = match perm with [] => Ok (RFrom, work) | _ => w <- gather dbg perm vals work ;; Ok (RWork, w) end).
  { destruct Hc as [-> | ->]; unfold convert_values, nnz_from, work_size; rewrite nnz_ok by auto; cbn [bind];
      rewrite Hl, Hw, !Nat.eqb_refl; cbn [assert bind]; reflexivity. }
  rewrite E. destruct perm as [|k l] eqn:Ep.
  - exists RFrom, work. cbn [values_out full_perm]. rewrite <- Hl, pick_iota. split; [reflexivity|]. split; [reflexivity|].
    split; [exact Hw|]. split; congruence.
  - rewrite <- Ep in *. rewrite (gather_ok zero) by (auto; rewrite Hl; apply perm_in_range). cbn [bind].
    exists RWork, (map (pick zero vals) perm). rewrite Ep. cbn [values_out full_perm]. rewrite map_length. repeat split; congruence.
Qed.
End PermValues.
