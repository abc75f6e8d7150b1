(** C43: exactly when conversions leave the indices alone. *)
From Verif Require Import Base Sparsity_Spec Sparsity_Model Sparsity_Base Sparsity_Csc Sparsity_Conv Sparsity_ToCoo Sparsity_FromDense Sparsity_Props.
Local Open Scope outcome_scope.
Local Arguments Z.pow : simpl never.

(** ** What a narrowing keeps: the value of the type that is congruent modulo 2^bits *)
Definition same_bits (t : ity) (z x : Z) : Prop := fits t x /\ ((z - x) mod 2 ^ bits t = 0)%Z.
(** The indices the source stores (or, for dense sources, would store from zero). *)
Definition stored_rows (s : sparsity) : list Z := map (fun e => (fst e + base_of s None)%Z) (source_entries s).
Definition stored_cols (s : sparsity) : list Z := map (fun e => (snd e + base_of s None)%Z) (source_entries s).
(** The indices of the source are values of its index type (true of every C++ object). *)
Definition own_indices (s : sparsity) : Prop :=
  match s with
  | SpCoo tf p => Forall (fits tf) (o_row p) /\ Forall (fits tf) (o_col p)
  | SpCsc ti ts p => Forall (fits ti) (c_inner p) /\ Forall (fits ts) (c_outer p)
  | SpDense _ => True
  end.

Lemma cast_same_bits t z : same_bits t z (cast t z).
Proof.
  unfold same_bits, cast, fits. rewrite (half_double t). pose proof (half_pos t) as Hp.
  set (h := (2 ^ (bits t - 1))%Z) in *. pose proof (Z.mod_pos_bound (z + h) (2 * h) ltac:(lia)) as B.
  split; [lia|].
  replace (z - ((z + h) mod (2 * h) - h))%Z with ((z + h) / (2 * h) * (2 * h))%Z by (rewrite (Z.mod_eq (z + h) (2 * h)) by lia; lia).
  apply Z.mod_mul. lia.
Qed.
Lemma fits_cast t z : fits t (cast t z). Proof. apply cast_same_bits. Qed.
Lemma same_bits_fits t z : fits t z -> same_bits t z z.
Proof. intros H. split; [exact H|]. now rewrite Z.sub_diag, Z.mod_0_l by (destruct t; discriminate). Qed.
Lemma same_bits_unique t z x : same_bits t z x -> (x = z <-> fits t z).
Proof.
  intros [F M]. split; [now intros <-|]. intros Fz. unfold fits in *. pose proof (half_double t) as Hd. pose proof (half_pos t) as Hp.
  set (h := (2 ^ (bits t - 1))%Z) in *. rewrite Hd in M. apply Z.mod_divide in M; [|lia]. destruct M as [k M].
  assert (k = 0)%Z by nia. lia.
Qed.
Lemma Forall2_same_bits t : forall l k, Forall2 (same_bits t) l k -> (k = l <-> Forall (fits t) l).
Proof.
  induction 1 as [|z x l k H _ IH]; [split; auto|]. pose proof (same_bits_unique t z x H) as U. split.
  - injection 1 as -> E. constructor; [now apply U|now apply IH].
  - inversion 1; subst. f_equal; [now apply U|now apply IH].
Qed.
Lemma map_cast_same t l : Forall2 (same_bits t) l (map (cast t) l).
Proof. induction l; constructor; auto using cast_same_bits. Qed.
Lemma own_same t l : Forall (fits t) l -> Forall2 (same_bits t) l l.
Proof. induction 1; constructor; auto using same_bits_fits. Qed.
Lemma chk_cast t z : chk t (cast t z + 0) = Ok (cast t z).
Proof. rewrite Z.add_0_r. apply chk_ok, fits_cast. Qed.
Lemma ity_eqb_eq a b : ity_eqb a b = true -> a = b.
Proof. now destruct a, b. Qed.
Lemma assert_cases (dbg b : bool) : assert dbg b = Ok tt \/ (dbg = true /\ assert dbg b = Abort).
Proof. unfold assert. destruct b, dbg; auto. Qed.

(** ** The three conversions to COO *)
Section ToCoo.
Context (dbg : bool) (ti : ity).
Lemma wrap_dense d : ok_dense d -> dense_coo ti None d = Ok (DenseCoo (Coo (d_rows d) (d_cols d) (d_sym d)
  (map (fun e => cast ti (fst e)) (dense_entries d)) (map (fun e => cast ti (snd e)) (dense_entries d)) SortedByColsAndRows 0)).
Proof.
  intros Hd.
  assert (F : forall nrows, (forall c, nrows c = kept d c) -> fill_coo ti 0 (d_cols d) nrows (dnnz d)
    = Ok (map (fun e => cast ti (fst e)) (dense_entries d), map (fun e => cast ti (snd e)) (dense_entries d))).
  { intros nrows Hn. unfold fill_coo.
    set (body := fun (e : Z * Z) (st : list Z * list Z * nat) => let '(ri, ci, l) := st in
       x <- chk ti (cast ti (fst e) + 0) ;; y <- chk ti (cast ti (snd e) + 0) ;; ri' <- set ri l x ;; ci' <- set ci l y ;; Ok (ri', ci', S l)).
    match goal with |- bind ?m _ = _ =>
      assert (E : m = foldm body (dense_entries d) (repeat 0%Z (dnnz d), repeat 0%Z (dnnz d), 0)) end.
    { rewrite dense_entries_eq, foldm_flat_map. unfold for_. apply foldm_ext. intros c st Hc. unfold dcol.
      rewrite foldm_map, Hn. apply foldm_ext. intros r [[ri ci] l] Hr. reflexivity. }
    rewrite E.
    rewrite (fill2 (fun e => chk ti (cast ti (fst e) + 0)) (fun e => chk ti (cast ti (snd e) + 0))
                     (fun e => cast ti (fst e)) (fun e => cast ti (snd e))).
    - cbn [bind]. rewrite dense_length, Nat.sub_diag by auto. cbn [repeat]. now rewrite !app_nil_r.
    - intros e He. split; apply chk_cast.
    - rewrite dense_length by auto. lia.
    - intros e [[ri ci] l] He. reflexivity. }
  unfold dense_coo. cbn [first_or]. unfold dnnz, kept in F. unfold ok_dense in Hd.
  destruct (d_sym d) eqn:Es; [| |destruct Hd].
  - rewrite F by auto. reflexivity.
  - rewrite Hd at 1. rewrite Nat.eqb_refl. cbn [negb]. rewrite F by (intros; lia). reflexivity.
Qed.
Definition wrap_csc_result (p : csc) : coo := Coo (c_rows p) (c_cols p) (c_sym p)
  (map (fun e => cast ti (fst e)) (csc_entries p)) (map (fun e => cast ti (snd e)) (csc_entries p))
  (match c_order p with SortedRows => SortedByColsAndRows | CscUnsorted => SortedByColsOnly end) 0.
Lemma wrap_csc p : valid_csc p -> csc_coo dbg ti None p
  = (_ <- assert dbg (check_uniqueness_triplets (o_row (wrap_csc_result p)) (o_col (wrap_csc_result p))) ;; Ok (CscCoo (wrap_csc_result p))).
Proof.
  intros Hv. unfold csc_coo. rewrite !nnz_ok by auto. cbn [bind first_or].
  set (body := fun r c (st : list Z * list Z * nat) => let '(ri, ci, l) := st in
       x <- chk ti (cast ti r + 0) ;; ri' <- set ri l x ;; y <- chk ti (cast ti c + 0) ;; ci' <- set ci l y ;; Ok (ri', ci', S l)).
  pose proof (csc_iter p Hv dbg body (repeat 0%Z (length (c_inner p)), repeat 0%Z (length (c_inner p)), 0)) as It.
  match goal with |- bind ?m _ = _ =>
    assert (E : m = Ok (map (fun e => cast ti (fst e)) (csc_entries p), map (fun e => cast ti (snd e)) (csc_entries p), length (csc_entries p))) end.
  { transitivity (foldm (fun e : Z * Z => body (fst e) (snd e)) (csc_entries p) (repeat 0%Z (length (c_inner p)), repeat 0%Z (length (c_inner p)), 0)).
    - rewrite <- It. unfold for_. apply foldm_ext. intros c st Hc. destruct (get (c_outer p) c); auto. cbn [bind].
      destruct (get (c_outer p) (c + 1)); auto. cbn [bind]. apply foldm_ext. intros i [[ri ci] l] Hi. reflexivity.
    - pose proof (entries_length p Hv) as Le.
      rewrite (fill2 (fun e => chk ti (cast ti (fst e) + 0)) (fun e => chk ti (cast ti (snd e) + 0))
                     (fun e => cast ti (fst e)) (fun e => cast ti (snd e))).
      + rewrite Le, Nat.sub_diag. cbn [repeat]. now rewrite !app_nil_r.
      + intros e He. split; apply chk_cast.
      + lia.
      + intros e [[ri ci] l] He. unfold body. rewrite !chk_cast. cbn [bind]. destruct (set ri l _); reflexivity. }
  rewrite E. reflexivity.
Qed.
Definition wrap_coo_result (tf : ity) (p : coo) : coo :=
  if ity_eqb tf ti then p else Coo (o_rows p) (o_cols p) (o_sym p) (map (cast ti) (o_row p)) (map (cast ti) (o_col p)) (o_order p) (cast ti (o_first p)).
Lemma wrap_coo tf p : length (o_row p) = length (o_col p) -> coo_coo dbg tf ti None p
  = (_ <- assert dbg (check_uniqueness_triplets (o_row (wrap_coo_result tf p)) (o_col (wrap_coo_result tf p))) ;; Ok (CooCoo (wrap_coo_result tf p))).
Proof.
  intros Hl. unfold coo_coo, wrap_coo_result. cbn [bind]. rewrite Z.eqb_refl, andb_true_r.
  destruct (ity_eqb tf ti); [reflexivity|].
  assert (Hnnz : coo_nnz dbg p = Ok (length (o_row p))) by (unfold coo_nnz; rewrite Hl, Nat.eqb_refl; reflexivity).
  rewrite Hnnz. cbn [bind].
  rewrite (fill1 (fun i => chk ti (cast ti i + 0)) (cast ti)) by (auto using chk_cast; lia).
  cbn [bind]. rewrite (fill1 (fun i => chk ti (cast ti i + 0)) (cast ti)) by (auto using chk_cast; lia).
  cbn [bind]. rewrite <- Hl, !Nat.sub_diag. cbn [repeat]. rewrite !app_nil_r. reflexivity.
Qed.
End ToCoo.

(** C43 for conversions to COO without a requested index base: whatever the sizes, the conversion succeeds (a debug build
    may fail the assertion that no two adjacent wrapped entries are equal), every index is stored modulo 2^bits, and
    the indices are unchanged if and only if the index type can represent all of them. *)
Theorem C43_exact_coo :
  forall srt (s : sparsity) (ti : ity), source_ok s -> dense_supported s -> own_indices s ->
  exists c p', construct false srt s (ToCoo ti None) = Ok c /\ result_coo c = Some p' /\
    (construct true srt s (ToCoo ti None) = Ok c \/ construct true srt s (ToCoo ti None) = Abort) /\
    Forall2 (same_bits ti) (stored_rows s) (o_row p') /\ Forall2 (same_bits ti) (stored_cols s) (o_col p') /\
    (o_row p' = stored_rows s <-> Forall (fits ti) (stored_rows s)) /\
    (o_col p' = stored_cols s <-> Forall (fits ti) (stored_cols s)).
Proof.
  intros srt s ti Hs Hd Ho.
  assert (K : exists c p', construct false srt s (ToCoo ti None) = Ok c /\ result_coo c = Some p' /\
    (construct true srt s (ToCoo ti None) = Ok c \/ construct true srt s (ToCoo ti None) = Abort) /\
    Forall2 (same_bits ti) (stored_rows s) (o_row p') /\ Forall2 (same_bits ti) (stored_cols s) (o_col p')).
  { destruct s as [d|ti0 ts0 p|tf p]; cbn [construct].
    - rewrite !wrap_dense by exact Hd. eexists _, _. split; [reflexivity|]. split; [reflexivity|]. split; [now left|].
      unfold stored_rows, stored_cols. cbn [o_row o_col source_entries base_of].
      split; rewrite <- (map_map _ (cast ti)); [rewrite (map_ext (fun e : Z * Z => (fst e + 0)%Z) fst) by (intros; lia)
        |rewrite (map_ext (fun e : Z * Z => (snd e + 0)%Z) snd) by (intros; lia)]; apply map_cast_same.
    - rewrite !wrap_csc by apply Hs. exists (CscCoo (wrap_csc_result ti p)), (wrap_csc_result ti p). split; [|split; [reflexivity|]].
      { unfold assert. now destruct (check_uniqueness_triplets _ _). }
      split. { destruct (assert_cases true (check_uniqueness_triplets (o_row (wrap_csc_result ti p)) (o_col (wrap_csc_result ti p)))) as [->|[_ ->]]; [now left|now right]. }
      unfold stored_rows, stored_cols. cbn [o_row o_col source_entries base_of wrap_csc_result].
      split; rewrite <- (map_map _ (cast ti)); [rewrite (map_ext (fun e : Z * Z => (fst e + 0)%Z) fst) by (intros; lia)
        |rewrite (map_ext (fun e : Z * Z => (snd e + 0)%Z) snd) by (intros; lia)]; apply map_cast_same.
    - destruct Hs as [[Hl Hb] _]. rewrite !wrap_coo by exact Hl. exists (CooCoo (wrap_coo_result ti tf p)), (wrap_coo_result ti tf p). split; [|split; [reflexivity|]].
      { unfold assert. now destruct (check_uniqueness_triplets _ _). }
      split. { destruct (assert_cases true (check_uniqueness_triplets (o_row (wrap_coo_result ti tf p)) (o_col (wrap_coo_result ti tf p)))) as [->|[_ ->]]; [now left|now right]. }
      assert (Er : stored_rows (SpCoo tf p) = o_row p /\ stored_cols (SpCoo tf p) = o_col p).
      { unfold stored_rows, stored_cols. cbn [source_entries base_of]. unfold coo_entries. rewrite combine_map, !map_map. cbn [fst snd].
        rewrite (map_ext _ (@fst Z Z)) by (intros; lia). rewrite (map_ext (fun x : Z * Z => (snd x - o_first p + o_first p)%Z) (@snd Z Z)) by (intros; lia).
        now rewrite map_fst_combine, map_snd_combine. }
      destruct Er as [-> ->]. unfold wrap_coo_result. destruct (ity_eqb tf ti) eqn:Et.
      + apply ity_eqb_eq in Et as ->. destruct Ho. split; now apply own_same.
      + split; apply map_cast_same. }
  destruct K as (c & p' & E & R & D & A & B). exists c, p'. repeat (split; [assumption|]).
  split; now apply Forall2_same_bits.
Qed.
Print Assumptions C43_exact_coo.

(** The same for CSC to CSC without a requested order (inner and outer indices). *)
Theorem C43_exact_csc :
  forall srt (tif tsf ti ts : ity) (p : csc), own_indices (SpCsc tif tsf p) ->
  exists c p', construct false srt (SpCsc tif tsf p) (ToCsc ti ts None) = Ok c /\ result_csc c = Some p' /\
    Forall2 (same_bits ti) (c_inner p) (c_inner p') /\ Forall2 (same_bits ts) (c_outer p) (c_outer p') /\
    (c_inner p' = c_inner p <-> Forall (fits ti) (c_inner p)) /\
    (c_outer p' = c_outer p <-> Forall (fits ts) (c_outer p)).
Proof.
  intros srt tif tsf ti ts p [Hi Ho].
  set (inner := if ity_eqb tif ti then c_inner p else map (cast ti) (c_inner p)).
  set (outer := if ity_eqb tsf ts then c_outer p else map (cast ts) (c_outer p)).
  assert (E : construct false srt (SpCsc tif tsf p) (ToCsc ti ts None) = Ok (CscCsc (Csc (c_rows p) (c_cols p) (c_sym p) inner outer (c_order p)) [])).
  { cbn [construct]. unfold csc_csc, inner, outer. destruct (ity_eqb tif ti), (ity_eqb tsf ts); reflexivity. }
  exists (CscCsc (Csc (c_rows p) (c_cols p) (c_sym p) inner outer (c_order p)) []). eexists. split; [exact E|]. split; [reflexivity|]. cbn [c_inner c_outer].
  assert (Fi : Forall2 (same_bits ti) (c_inner p) inner).
  { unfold inner. destruct (ity_eqb tif ti) eqn:Et; [apply ity_eqb_eq in Et as ->; now apply own_same|apply map_cast_same]. }
  assert (Fo : Forall2 (same_bits ts) (c_outer p) outer).
  { unfold outer. destruct (ity_eqb tsf ts) eqn:Et; [apply ity_eqb_eq in Et as ->; now apply own_same|apply map_cast_same]. }
  split; [exact Fi|]. split; [exact Fo|]. split; now apply Forall2_same_bits.
Qed.
Print Assumptions C43_exact_csc.

Example C43_exact_nonvacuous : 
  let s := SpCoo Long (Coo 2 2 Unsymmetric [2147483648; 1]%Z [2147483647; 0]%Z Unsorted (-1)) in
  own_indices s /\ same_bits Int 2147483648 (-2147483648) /\ ~ fits Int 2147483648 /\ fits Int 2147483647.
Proof.
  cbv zeta. split.
  - split; repeat constructor; unfold fits; cbn; lia.
  - repeat split; try (unfold fits; cbn; lia); reflexivity.
Qed.
(** A valid pattern with one narrowed index, of any larger number of rows. *)
Example C43_exact_nonvacuous' rows : (4294967297 <= Z.of_nat rows)%Z ->
  let s := SpCoo Long (Coo rows 1 Unsymmetric [4294967296]%Z [0]%Z Unsorted 0) in
  source_ok s /\ dense_supported s /\ own_indices s /\ ~ Forall (fits Int) (stored_rows s).
Proof.
  intros H. cbv zeta. split; [|split; [exact I|split]].
  - split; [|exact I]. split; [reflexivity|]. constructor; [|constructor]. unfold in_bounds. cbn [fst snd o_rows o_cols]. cbn. lia.
  - split; repeat constructor; unfold fits; cbn; lia.
  - inversion 1 as [|? ? F]; subst. unfold fits in F. cbn in F. lia.
Qed.
