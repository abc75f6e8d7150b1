(** C72: conversions between Eigen sparse matrices and CSC patterns. *)
From Verif Require Import Base Sparsity_Spec Sparsity_Model Sparsity_Base Sparsity_Csc EigenSparse_Spec EigenSparse_Model.
Local Open Scope outcome_scope.

(** A compressed matrix: exactly its entries, in storage order; the result is a valid
    pattern, and its SortedRows flag is right if Eigen's inner indices are sorted. *)
Theorem C72_as_sparsity_partial (M : eigen_sparse) (sy : symmetry) : eigen_ok M -> compressed M ->
  let p := as_sparsity M sy in
  valid_csc p /\ csc_entries p = eigen_entries M /\ c_rows p = e_rows M /\ c_cols p = e_cols M /\ c_sym p = sy /\
  (eigen_sorted M -> csc_truthful p).
Proof.
  intros (Hl & Hm & H0 & He & _ & Hb) [Hn Hz] p.
  assert (Ho : c_outer p = e_outer M) by (unfold p, as_sparsity; cbn [c_outer]; apply firstn_all2; lia).
  assert (N : non_zeros M = at_ (e_outer M) (e_cols M)).
  { unfold non_zeros. rewrite Hn. unfold at_ at 2. rewrite Hz. cbn. lia. }
  assert (M1 : forall c d, c <= d -> d <= e_cols M -> (nth c (e_outer M) 0 <= nth d (e_outer M) 0)%Z).
  { intros c d H. induction H as [|d H IH]; intros Hd; [lia|]. specialize (Hm d ltac:(lia)). specialize (IH ltac:(lia)). lia. }
  assert (Lin : length (c_inner p) = at_ (e_outer M) (e_cols M)).
  { unfold p, as_sparsity. cbn [c_inner]. rewrite N, firstn_length. unfold at_. lia. }
  assert (Col : forall c, c < e_cols M -> csc_column p c = eigen_column M c).
  { intros c Hc. unfold csc_column, eigen_column, column_count. rewrite Hn, Ho. unfold p, as_sparsity. cbn [c_inner]. rewrite N.
    assert (B1 : at_ (e_outer M) c <= at_ (e_outer M) (S c)) by (specialize (Hm c Hc); unfold at_; lia).
    assert (B2 : at_ (e_outer M) (S c) <= at_ (e_outer M) (e_cols M)) by (pose proof (M1 (S c) (e_cols M) ltac:(lia) ltac:(lia)); unfold at_; lia).
    replace (at_ (e_outer M) c + (at_ (e_outer M) (S c) - at_ (e_outer M) c)) with (at_ (e_outer M) (S c)) by lia.
    unfold slice. rewrite skipn_firstn_comm, firstn_firstn. f_equal. lia. }
  split; [|split; [|split; [reflexivity|split; [reflexivity|split; [reflexivity|]]]]].
  - unfold valid_csc. rewrite Ho. cbn [c_cols p as_sparsity]. split; [exact Hl|]. split; [exact Hz|]. split; [exact Hm|]. split.
    + change (c_inner p) with (c_inner p). rewrite Lin. unfold at_. pose proof (M1 0 (e_cols M) ltac:(lia) ltac:(lia)). lia.
    + apply Forall_forall. intros r Hr. cbn [c_rows p as_sparsity].
      assert (Hx : In r (flat_map (fun c => csc_column p c) (seq 0 (e_cols M)))).
      { unfold csc_column. rewrite Ho. rewrite (slice_flat_map (c_inner p) (at_ (e_outer M))).
        - rewrite <- Lin, slice_all. exact Hr.
        - intros c Hc. specialize (Hm c Hc). unfold at_. lia.
        - unfold at_. now rewrite Hz. }
      apply in_flat_map in Hx. destruct Hx as (c & Hc & Hx). apply in_seq in Hc. rewrite Col in Hx by lia.
      specialize (Hb c ltac:(lia)). rewrite Forall_forall in Hb. auto.
  - unfold csc_entries, eigen_entries. cbn [c_cols p as_sparsity]. apply flat_map_ext_in. intros c Hc. apply in_seq in Hc. now rewrite Col by lia.
  - intros Hs. unfold csc_truthful. cbn [c_order p as_sparsity]. intros c Hc. cbn in Hc. rewrite Col by auto. now apply Hs.
Qed.
Print Assumptions C72_as_sparsity_partial.

(** Not so with gaps in the storage: this matrix has reserved space after its first
    entry. The pattern is not valid, has other entries, and nnz() fails its assertion. *)
Theorem C72_uncompressed_refuted : exists M : eigen_sparse, eigen_ok M /\ eigen_sorted M /\
  let p := as_sparsity M Unsymmetric in
  ~ valid_csc p /\ eigen_entries M = [(0, 0); (1, 1)]%Z /\ csc_entries p <> eigen_entries M /\ csc_nnz true p = Abort.
Proof.
  exists (EigenSparse 2 2 [0; 2; 3]%Z (Some [1; 1]%Z) [0; 7; 1]%Z).
  split; [|split; [|split; [|split; [|split]]]].
  - split; [reflexivity|]. split; [intros [|[|c]] H; cbn in *; lia|]. split; [cbn; lia|]. split; [cbn; lia|]. split.
    + intros k [= <-]. split; [reflexivity|]. intros [|[|c]] H; cbn in *; lia.
    + intros [|[|c]] H; [| |cbn in H; lia]; repeat constructor; cbn; lia.
  - intros [|[|c]] H; [| |cbn in H; lia]; repeat constructor; cbn; lia.
  - intros (_ & _ & _ & H & _). vm_compute in H. discriminate H.
  - reflexivity.
  - intros H. discriminate H.
  - reflexivity.
Qed.
Print Assumptions C72_uncompressed_refuted.
(** Nor for a block of columns of a compressed matrix (first offset 1). *)
Theorem C72_column_block_refuted : exists M : eigen_sparse, eigen_ok M /\ eigen_sorted M /\ e_nonzeros M = None /\
  let p := as_sparsity M Unsymmetric in
  ~ valid_csc p /\ eigen_entries M = [(1, 0)]%Z /\ csc_entries p = [].
Proof.
  exists (EigenSparse 2 1 [1; 2]%Z None [0; 1]%Z).
  split; [|split; [|split; [reflexivity|split; [|split; reflexivity]]]].
  - split; [reflexivity|]. split; [intros [|c] H; cbn in *; lia|]. split; [cbn; lia|]. split; [cbn; lia|]. split.
    + intros k [= ].
    + intros [|c] H; [|cbn in H; lia]; repeat constructor; cbn; lia.
  - intros [|c] H; [|cbn in H; lia]; repeat constructor; cbn; lia.
  - intros (_ & H & _). vm_compute in H. discriminate H.
Qed.
Print Assumptions C72_column_block_refuted.

(** as_eigen: a compressed matrix with exactly the entries of the pattern. *)
Theorem C72_as_eigen (dbg : bool) (p : csc) : valid_csc p ->
  exists M, as_eigen dbg p = Ok M /\ eigen_ok M /\ compressed M /\ e_rows M = c_rows p /\ e_cols M = c_cols p /\
    eigen_entries M = csc_entries p.
Proof.
  intros Hv. pose proof Hv as (Hl & Hz & Hm & He & Hf). unfold as_eigen. rewrite nnz_ok by auto. cbn [bind]. eexists. split; [reflexivity|].
  assert (Col : forall c, c < c_cols p -> eigen_column (EigenSparse (c_rows p) (c_cols p) (c_outer p) None (c_inner p)) c = csc_column p c).
  { intros c Hc. unfold eigen_column, csc_column, column_count. cbn. pose proof (off_mono p Hv c Hc). f_equal. lia. }
  split; [|split; [split; [reflexivity|exact Hz]|split; [reflexivity|split; [reflexivity|]]]].
  - split; [exact Hl|]. split; [exact Hm|]. split; [cbn; lia|]. split; [cbn; lia|]. split; [intros k [= ]|].
    intros c Hc. cbn [e_cols] in Hc. rewrite Col by auto. apply Forall_forall. intros r Hr. rewrite Forall_forall in Hf. apply Hf. eapply in_slice; eauto.
  - unfold eigen_entries, csc_entries. cbn [e_cols]. apply flat_map_ext_in. intros c Hc. apply in_seq in Hc. now rewrite Col by lia.
Qed.
Print Assumptions C72_as_eigen.
(** Round trip; the order flag becomes SortedRows whatever it was. *)
Theorem C72_round_trip (dbg : bool) (p : csc) (sy : symmetry) : valid_csc p ->
  exists M, as_eigen dbg p = Ok M /\
    as_sparsity M sy = Csc (c_rows p) (c_cols p) sy (c_inner p) (c_outer p) SortedRows.
Proof.
  intros Hv. pose proof Hv as (Hl & Hz & Hm & He & Hf). unfold as_eigen. rewrite nnz_ok by auto. cbn [bind]. eexists. split; [reflexivity|].
  unfold as_sparsity. cbn. rewrite firstn_all2 by (unfold at_; lia). rewrite firstn_all2 by lia. reflexivity.
Qed.
Print Assumptions C72_round_trip.
Theorem C72_round_trip_order_refuted : exists (p : csc) (M : eigen_sparse), valid_csc p /\ csc_truthful p /\
  as_eigen true p = Ok M /\ ~ csc_truthful (as_sparsity M Unsymmetric).
Proof.
  exists (Csc 2 1 Unsymmetric [1; 0]%Z [0; 2]%Z CscUnsorted). eexists.
  split; [|split; [exact I|split; [reflexivity|]]].
  - split; [reflexivity|]. split; [reflexivity|]. split; [intros [|c] H; cbn in *; lia|]. split; [reflexivity|]. repeat constructor; cbn; lia.
  - intros H. specialize (H 0 ltac:(cbn; lia)). cbn in H. inversion H as [|? ? _ F]. inversion F as [|? ? K _]. lia.
Qed.
Print Assumptions C72_round_trip_order_refuted.

(** The hypotheses of the positive theorems can be met. *)
Example C72_example : let M := EigenSparse 3 2 [0; 2; 3]%Z None [0; 2; 1; 99]%Z in
  eigen_ok M /\ compressed M /\ eigen_sorted M /\ csc_entries (as_sparsity M Upper) = [(0, 0); (2, 0); (1, 1)]%Z.
Proof.
  split; [|split; [split; reflexivity|split; [|reflexivity]]].
  - split; [reflexivity|]. split; [intros [|[|c]] H; cbn in *; lia|]. split; [cbn; lia|]. split; [cbn; lia|]. split.
    + intros k [= ].
    + intros [|[|c]] H; [| |cbn in H; lia]; repeat constructor; cbn; lia.
  - intros [|[|c]] H; [| |cbn in H; lia]; repeat constructor; cbn; lia.
Qed.
