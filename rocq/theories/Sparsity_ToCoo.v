(** CSC to COO and COO to COO. *)
From Verif Require Import Base Sparsity_Spec Sparsity_Model Sparsity_Base Sparsity_Csc Sparsity_Conv.
Local Open Scope outcome_scope.
Local Arguments Nat.eqb : simpl never.
Local Arguments Nat.leb : simpl never.
Local Arguments Nat.ltb : simpl never.

Lemma unshift (l : list Z) d : map (fun r => (r - d)%Z) (map (fun r => (r + d)%Z) l) = l.
Proof. rewrite map_map. rewrite <- (map_id l) at 2. apply map_ext. intros; lia. Qed.
Lemma shifted_entries (es : list (Z * Z)) d :
  combine (map (fun r => (r - d)%Z) (map (fun e => fst e + d)%Z es)) (map (fun r => (r - d)%Z) (map (fun e => snd e + d)%Z es)) = es.
Proof.
  rewrite !map_map. rewrite (map_ext _ (@fst Z Z)) by (intros; lia). rewrite (map_ext (fun x => (snd x + d - d)%Z) (@snd Z Z)) by (intros; lia).
  apply combine_fst_snd.
Qed.
Lemma shifted_nodup (es : list (Z * Z)) d : NoDup es ->
  check_uniqueness_triplets (map (fun e => fst e + d)%Z es) (map (fun e => snd e + d)%Z es) = true.
Proof.
  intros H. unfold check_uniqueness_triplets. apply no_adjacent_nodup; [apply pair_eqb_iff|].
  replace (combine _ _) with (map (fun e => (fst e + d, snd e + d)%Z) es).
  - apply FinFun.Injective_map_NoDup; auto. intros [a b] [a' b']. cbn. intros [= H1 H2]. f_equal; lia.
  - clear H. induction es as [|e es IH]; cbn; [reflexivity|]. now rewrite IH.
Qed.

Section CscCoo.
Context (dbg : bool) (ti : ity) (first : option Z) (p : csc).
Hypothesis (Hv : valid_csc p) (Ht : csc_truthful p).
Notation d := (first_or first 0).
Hypothesis (Hf : dims_fit ti (c_rows p) (c_cols p) d).
Hypothesis (Hdup : dbg = true -> NoDup (csc_entries p)).
Definition csc_coo_result : coo :=
  Coo (c_rows p) (c_cols p) (c_sym p) (map (fun e => fst e + d)%Z (csc_entries p)) (map (fun e => snd e + d)%Z (csc_entries p))
      (match c_order p with SortedRows => SortedByColsAndRows | CscUnsorted => SortedByColsOnly end) d.

Lemma idx_ok n z : fits ti (Z.of_nat n) -> fits ti d -> fits ti (d + Z.of_nat n) -> in_bounds n z ->
  chk ti (cast ti z + d) = Ok (z + d)%Z.
Proof.
  intros H1 H2 H3 Hz. unfold in_bounds in Hz. rewrite cast_id by (apply (fits_between ti 0 (Z.of_nat n)); auto using fits_0; lia).
  apply chk_ok. apply (fits_between ti d (d + Z.of_nat n)); auto. lia.
Qed.
Lemma csc_coo_ok : csc_coo dbg ti first p = Ok (CscCoo csc_coo_result).
Proof.
  unfold csc_coo. rewrite !nnz_ok by auto. cbn [bind].
  set (body := fun r c (st : list Z * list Z * nat) => let '(ri, ci, l) := st in
       x <- chk ti (cast ti r + d) ;; ri' <- set ri l x ;; y <- chk ti (cast ti c + d) ;; ci' <- set ci l y ;; Ok (ri', ci', S l)).
  pose proof (csc_iter p Hv dbg body (repeat 0%Z (length (c_inner p)), repeat 0%Z (length (c_inner p)), 0)) as It.
  assert (E : for_ (c_cols p) (fun c st =>
      a <- get (c_outer p) c ;;
      b <- get (c_outer p) (c + 1) ;;
      foldm (fun i '(ri, ci, l) =>
        r <- getz dbg (c_inner p) i ;;
        x <- chk ti (cast ti r + d) ;;
        ri' <- set ri l x ;;
        y <- chk ti (cast ti (Z.of_nat c) + d) ;;
        ci' <- set ci l y ;;
        Ok (ri', ci', S l)) (zrange a b) st) (repeat 0%Z (length (c_inner p)), repeat 0%Z (length (c_inner p)), 0)
    = Ok (map (fun e => fst e + d)%Z (csc_entries p), map (fun e => snd e + d)%Z (csc_entries p), length (csc_entries p))).
  { transitivity (foldm (fun e : Z * Z => body (fst e) (snd e)) (csc_entries p) (repeat 0%Z (length (c_inner p)), repeat 0%Z (length (c_inner p)), 0)).
    - rewrite <- It. unfold for_. apply foldm_ext. intros c st Hc. destruct (get (c_outer p) c); auto. cbn [bind].
      destruct (get (c_outer p) (c + 1)); auto. cbn [bind]. apply foldm_ext. intros i [[ri ci] l] Hi. reflexivity.
    - pose proof (entries_length p Hv) as Le.
      rewrite (fill2 (fun e => chk ti (cast ti (fst e) + d)) (fun e => chk ti (cast ti (snd e) + d))
                     (fun e => fst e + d)%Z (fun e => snd e + d)%Z).
      + rewrite Le, Nat.sub_diag. cbn [repeat]. now rewrite !app_nil_r.
      + intros e He. destruct (entries_bounds p Hv e He) as [Hr Hc]. destruct Hf as (F1 & F2 & F3 & F4 & F5).
        split; [apply (idx_ok (c_rows p))|apply (idx_ok (c_cols p))]; auto.
      + lia.
      + intros e [[ri ci] l] He. unfold body.
        destruct (entries_bounds p Hv e He) as [Hr Hc]. destruct Hf as (F1 & F2 & F3 & F4 & F5).
        rewrite (idx_ok (c_rows p)), (idx_ok (c_cols p)) by auto. cbn [bind]. destruct (set ri l _); reflexivity. }
  rewrite E. cbn [bind]. rewrite assert_true' by (intros; apply shifted_nodup; auto). reflexivity.
Qed.
Lemma csc_coo_entries : coo_entries csc_coo_result = csc_entries p.
Proof. unfold coo_entries. cbn. apply shifted_entries. Qed.
Lemma csc_coo_valid : valid_coo csc_coo_result.
Proof.
  split.
  - cbn. now rewrite !map_length.
  - rewrite csc_coo_entries. apply Forall_forall. intros e He. now apply entries_bounds.
Qed.
End CscCoo.

Lemma csc_entries_by_col p : StronglySorted (fun a b => (snd a <= snd b)%Z) (csc_entries p).
Proof.
  unfold csc_entries. apply sorted_chunks.
  - intros c Hc. generalize (csc_column p c) as l. induction l as [|r l IH]; cbn; constructor; auto.
    apply Forall_forall. intros e He. apply in_map_iff in He. destruct He as (x & <- & _). cbn. lia.
  - intros c d x y Hcd Hd Hx Hy. apply in_map_iff in Hx, Hy. destruct Hx as (? & <- & _), Hy as (? & <- & _). cbn. lia.
Qed.
Lemma csc_entries_col_major p : (forall c, c < c_cols p -> StronglySorted Z.le (csc_column p c)) -> StronglySorted col_major (csc_entries p).
Proof.
  intros Hs. unfold csc_entries. apply sorted_chunks.
  - intros c Hc. specialize (Hs c Hc). eapply StronglySorted_map; [|exact Hs]. intros x y. unfold col_major. cbn. lia.
  - intros c d x y Hcd Hd Hx Hy. apply in_map_iff in Hx, Hy. destruct Hx as (? & <- & _), Hy as (? & <- & _). unfold col_major. cbn. lia.
Qed.
Lemma csc_coo_truthful first p : csc_truthful p -> coo_truthful (csc_coo_result first p).
Proof.
  intros Ht. unfold coo_truthful. rewrite csc_coo_entries. cbn [o_order csc_coo_result]. unfold csc_truthful in Ht.
  destruct (c_order p).
  - apply csc_entries_by_col.
  - now apply csc_entries_col_major.
Qed.

Section CooCoo.
Context (dbg : bool) (tf ti : ity) (first : option Z) (p : coo).
Hypothesis (Hv : valid_coo p) (Ht : coo_truthful p).
(** What the indices are shifted by, and the new base. *)
Definition shift : Z := match first with Some f => (f - o_first p)%Z | None => 0%Z end.
Notation d := shift.
Hypothesis (Hf : coo_fits ti p) (Hd : fits ti d).
Hypothesis (Hd1 : fits ti (o_first p + d)) (Hd2 : fits ti (o_first p + d + Z.of_nat (o_rows p))) (Hd3 : fits ti (o_first p + d + Z.of_nat (o_cols p))).
Hypothesis (Hdup : dbg = true -> NoDup (coo_entries p)).
Definition coo_coo_result : coo :=
  Coo (o_rows p) (o_cols p) (o_sym p) (map (fun r => r + d)%Z (o_row p)) (map (fun c => c + d)%Z (o_col p))
      (o_order p) (o_first p + d).

Lemma row_bounds r : In r (o_row p) -> in_bounds (o_rows p) (r - o_first p).
Proof.
  intros H. destruct Hv as [Hl _]. rewrite <- (map_fst_combine (o_row p) (o_col p) Hl) in H. apply in_map_iff in H.
  destruct H as ([r' c] & <- & H). apply (coo_bounds p Hv _ _ H).
Qed.
Lemma col_bounds c : In c (o_col p) -> in_bounds (o_cols p) (c - o_first p).
Proof.
  intros H. destruct Hv as [Hl _]. rewrite <- (map_snd_combine (o_row p) (o_col p) Hl) in H. apply in_map_iff in H.
  destruct H as ([r c'] & <- & H). apply (coo_bounds p Hv _ _ H).
Qed.
Lemma shift_ok m i : fits ti (o_first p + Z.of_nat m) -> fits ti (o_first p + d + Z.of_nat m) -> in_bounds m (i - o_first p) ->
  chk ti (cast ti i + d) = Ok (i + d)%Z.
Proof.
  intros H1 H2 Hi. destruct Hf as (F & _). unfold in_bounds in Hi.
  rewrite cast_id by (apply (fits_between ti (o_first p) (o_first p + Z.of_nat m)); auto; lia).
  apply chk_ok. apply (fits_between ti (o_first p + d) (o_first p + d + Z.of_nat m)); auto; lia.
Qed.
Lemma coo_coo_unique : (dbg = true -> NoDup (coo_entries p)) ->
  assert dbg (check_uniqueness_triplets (map (fun r => r + d)%Z (o_row p)) (map (fun c => c + d)%Z (o_col p))) = Ok tt.
Proof.
  intros H. apply assert_true'. intros Hdbg. specialize (H Hdbg). unfold check_uniqueness_triplets.
  apply no_adjacent_nodup; [apply pair_eqb_iff|].
  unfold coo_entries in H. rewrite combine_map in H. apply NoDup_map_inv in H. rewrite combine_map.
  apply FinFun.Injective_map_NoDup; auto. intros [a b] [a' b']. cbn. intros [= H1 H2]. f_equal; lia.
Qed.
Lemma coo_coo_ok : coo_coo dbg tf ti first p = Ok (CooCoo coo_coo_result).
Proof.
  unfold coo_coo.
  assert (Fb : fits ti (o_first p)) by apply Hf.
  assert (E : match first with Some f => chk ti (f - cast ti (o_first p)) | None => Ok 0%Z end = Ok d).
  { unfold shift in *. destruct first; [|reflexivity]. rewrite cast_id by auto. now apply chk_ok. }
  rewrite E. cbn [bind].
  assert (Hnnz : coo_nnz dbg p = Ok (length (o_row p))) by (unfold coo_nnz; rewrite (proj1 Hv), Nat.eqb_refl; reflexivity).
  assert (K : forall X, (if ity_eqb tf ti && (d =? 0)%Z then Ok p else X) = Ok coo_coo_result \/ (if ity_eqb tf ti && (d =? 0)%Z then Ok p else X) = X).
  { intros X. destruct (ity_eqb tf ti && (d =? 0)%Z) eqn:Eb; [left|now right]. apply andb_true_iff in Eb. destruct Eb as [_ Eb].
    apply Z.eqb_eq in Eb. unfold coo_coo_result. rewrite Eb, Z.add_0_r.
    rewrite !(map_ext (fun r : Z => (r + 0)%Z) (fun r => r)) by (intros; lia). rewrite !map_id. f_equal. now destruct p. }
  match goal with |- context [if ity_eqb tf ti && (d =? 0)%Z then Ok p else ?X] =>
    assert (EX : X = Ok coo_coo_result); [|destruct (K X) as [K1|K1]; rewrite K1; clear K; [|rewrite EX]] end.
  - rewrite Hnnz. cbn [bind].
    rewrite (fill1 (fun i => chk ti (cast ti i + d)) (fun i => i + d)%Z).
    2:{ intros r Hr. apply (shift_ok (o_rows p)); [apply Hf|auto|now apply row_bounds]. }
    2:{ lia. }
    cbn [bind]. rewrite (fill1 (fun i => chk ti (cast ti i + d)) (fun i => i + d)%Z).
    2:{ intros c Hc. apply (shift_ok (o_cols p)); [apply Hf|auto|now apply col_bounds]. }
    2:{ rewrite (proj1 Hv). lia. }
    cbn [bind]. rewrite <- (proj1 Hv), !Nat.sub_diag. cbn [repeat]. rewrite !app_nil_r.
    unfold coo_coo_result. f_equal. f_equal. unfold shift. destruct first; [lia|]. rewrite cast_id by auto. lia.
  - cbn [bind o_row o_col coo_coo_result]. rewrite coo_coo_unique by auto. reflexivity.
  - cbn [bind o_row o_col coo_coo_result]. rewrite coo_coo_unique by auto. reflexivity.
Qed.
Lemma coo_coo_entries : coo_entries coo_coo_result = coo_entries p.
Proof.
  unfold coo_entries. cbn [o_row o_col o_first coo_coo_result]. rewrite !map_map. f_equal; apply map_ext; intros; lia.
Qed.
Lemma coo_coo_valid : valid_coo coo_coo_result.
Proof. split; [cbn; rewrite !map_length; apply Hv|]. rewrite coo_coo_entries. apply Hv. Qed.
Lemma coo_coo_truthful : coo_truthful coo_coo_result.
Proof. unfold coo_truthful. rewrite coo_coo_entries. exact Ht. Qed.
End CooCoo.
