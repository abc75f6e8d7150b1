(** C32-C43, C65, C66: sparsity conversions. *)
From Verif Require Import Base Sparsity_Spec Sparsity_Model Sparsity_Base Sparsity_Csc Sparsity_Conv Sparsity_CscCsc Sparsity_ToCoo Sparsity_FromDense Sparsity_ToDense Sparsity_All Sparsity_Into.
Local Open Scope outcome_scope.
Local Arguments Nat.eqb : simpl never.
Local Arguments Nat.leb : simpl never.
Local Arguments Nat.ltb : simpl never.

(** What is said about the values of a converter [c] for source [s] with result
    entries [es]: for every vector of values of the right size and every workspace
    of the requested size, convert_values succeeds and returns the values of the
    result entries, [rel] relating them to the source. *)
Definition values_ok {V} (zero : V) (dbg : bool) (c : conv) (s : sparsity) (es : list (Z * Z))
  (rel : list ((Z * Z) * option V) -> list ((Z * Z) * option V) -> Prop) : Prop :=
  nnz_from dbg c = Ok (source_size s) /\
  exists ws, work_size dbg c = Ok ws /\
  forall vals work, length vals = source_size s -> length work = ws ->
    exists r w, convert_values dbg zero c vals work = Ok (r, w) /\
      length (values_out r vals w) = length es /\
      rel (combine es (map Some (values_out r vals w))) (triples s vals).

Section Props.
Context {V : Type} (zero : V) (dbg : bool) (srt : sorter) (Hsrt : good_sorter srt).

Lemma converts_values c s ws out es rel : converts zero dbg c (source_size s) ws out ->
  (forall vals, length vals = source_size s -> length (out vals) = length es /\ rel (combine es (map Some (out vals))) (triples s vals)) ->
  values_ok zero dbg c s es rel.
Proof.
  intros (H1 & H2 & H3) H. split; [exact H1|]. exists ws. split; [exact H2|]. intros vals work Hl Hw.
  destruct (H3 vals work Hl Hw) as (r & w & E & E2 & _). exists r, w. rewrite E2. destruct (H vals Hl). auto.
Qed.

Lemma csc_result s ti ts o : source_ok s -> dense_supported s -> indices_fit s (ToCsc ti ts o) ->
  no_duplicates dbg s (ToCsc ti ts o) -> request_ok dbg s (ToCsc ti ts o) ->
  exists c to, construct dbg srt s (ToCsc ti ts o) = Ok c /\ result_csc c = Some to /\
    c_rows to = source_rows s /\ c_cols to = source_cols s /\ c_sym to = source_sym s /\
    (valid_csc to /\ length (c_inner to) = length (source_entries s)) /\ csc_truthful to /\
    (o = Some SortedRows -> c_order to = SortedRows) /\ values_ok zero dbg c s (csc_entries to) (@Permutation _).
Proof.
  intros Hs Hd Hf Hn Hr.
  destruct (to_csc zero dbg srt Hsrt s ti ts o Hs Hd Hf Hn) as (c & to & ws & out & E & R & A1 & A2 & A3 & A4 & A5 & A6 & A7 & A8 & C & P).
  { intros Hdbg -> t p ->. cbn in Hr. auto. }
  exists c, to. repeat (split; [auto; fail|]). eapply converts_values; [exact C|]. intros vals Hl. destruct (P vals Hl) as [P1 P2].
  split; auto. rewrite (entries_length to A1). lia.
Qed.
Lemma coo_result s ti f : source_ok s -> dense_supported s -> indices_fit s (ToCoo ti f) -> no_duplicates dbg s (ToCoo ti f) ->
  exists c to, construct dbg srt s (ToCoo ti f) = Ok c /\ result_coo c = Some to /\
    o_rows to = source_rows s /\ o_cols to = source_cols s /\ o_sym to = source_sym s /\ o_first to = base_of s f /\
    valid_coo to /\ coo_truthful to /\ coo_entries to = source_entries s /\
    values_ok zero dbg c s (coo_entries to) eq.
Proof.
  intros Hs Hd Hf Hn.
  destruct (to_coo zero dbg srt s ti f Hs Hd Hf Hn) as (c & to & ws & out & E & R & A1 & A2 & A3 & A4 & A5 & A6 & A7 & A8 & C & P).
  exists c, to. repeat (split; [auto; fail|]). eapply converts_values; [exact C|]. intros vals Hl. destruct (P vals Hl) as (P1 & P2 & P3).
  split; auto. now rewrite A7.
Qed.

(** C32 *)
Theorem C32_coo_to_csc (tf ti ts : ity) (p : coo) (o : option csc_order) :
  valid_coo p -> coo_truthful p -> coo_fits tf p -> coo_fits ti p -> fits ts (Z.of_nat (length (o_row p))) ->
  (dbg = true -> NoDup (coo_entries p)) ->
  (dbg = true -> o = Some CscUnsorted -> o_order p <> SortedByColsAndRows) ->
  exists c to, construct dbg srt (SpCoo tf p) (ToCsc ti ts o) = Ok c /\ result_csc c = Some to /\
    c_rows to = o_rows p /\ c_cols to = o_cols p /\ c_sym to = o_sym p /\
    (o = Some SortedRows -> c_order to = SortedRows) /\
    values_ok zero dbg c (SpCoo tf p) (csc_entries to) (@Permutation _).
Proof.
  intros Hv Ht F1 F2 F3 Hn Hr.
  destruct (csc_result (SpCoo tf p) ti ts o) as (c & to & E & R & A1 & A2 & A3 & _ & _ & A4 & A5); cbn; auto.
  { destruct o as [[|]|]; auto. }
  exists c, to. auto 10.
Qed.

(** C33 *)
Theorem C33_csc_to_coo (tif tsf ti : ity) (p : csc) (f : option Z) :
  valid_csc p -> csc_truthful p -> dims_fit ti (c_rows p) (c_cols p) (match f with Some b => b | None => 0%Z end) ->
  (dbg = true -> NoDup (csc_entries p)) ->
  exists c to, construct dbg srt (SpCsc tif tsf p) (ToCoo ti f) = Ok c /\ result_coo c = Some to /\
    o_rows to = c_rows p /\ o_cols to = c_cols p /\ o_sym to = c_sym p /\ o_first to = match f with Some b => b | None => 0%Z end /\
    coo_entries to = csc_entries p /\
    o_row to = map (fun e => fst e + o_first to)%Z (csc_entries p) /\ o_col to = map (fun e => snd e + o_first to)%Z (csc_entries p) /\
    nnz_from dbg c = Ok (length (c_inner p)) /\ work_size dbg c = Ok 0 /\
    forall (vals work : list V), length vals = length (c_inner p) -> convert_values dbg zero c vals work = Ok (RFrom, work).
Proof.
  intros Hv Ht Hf Hn.
  assert (E : construct dbg srt (SpCsc tif tsf p) (ToCoo ti f) = Ok (CscCoo (csc_coo_result f p))).
  { cbn [construct]. apply csc_coo_ok; auto. }
  exists (CscCoo (csc_coo_result f p)), (csc_coo_result f p). split; [exact E|].
  assert (Hnnz : coo_nnz dbg (csc_coo_result f p) = Ok (length (c_inner p))).
  { unfold coo_nnz. cbn [o_row o_col csc_coo_result]. rewrite !map_length, Nat.eqb_refl, entries_length by auto. reflexivity. }
  split; [reflexivity|]. split; [reflexivity|]. split; [reflexivity|]. split; [reflexivity|]. split; [now destruct f|].
  split; [apply csc_coo_entries|]. split; [reflexivity|]. split; [reflexivity|]. split; [exact Hnnz|]. split; [reflexivity|].
  intros vals work Hl. unfold convert_values. cbn [nnz_from]. rewrite Hnnz. cbn [bind]. rewrite Hl, Nat.eqb_refl. reflexivity.
Qed.

(** C34 *)
(** The entries of a dense matrix: each element once (for Upper: row <= column), by column, then row. *)
Theorem C34_dense_entries (d : dense) : dense_supported (SpDense d) ->
  NoDup (dense_entries d) /\ StronglySorted col_major (dense_entries d) /\
  forall r c, In (r, c) (dense_entries d) <->
    in_bounds (d_rows d) r /\ in_bounds (d_cols d) c /\ (d_sym d = Upper -> (r <= c)%Z).
Proof.
  intros Hd. assert (Hd' : ok_dense d) by exact Hd. split; [|split].
  - unfold dense_entries.
    assert (K : forall n k, NoDup (flat_map (fun c => map (fun r => (Z.of_nat r, Z.of_nat c)) (seq 0 (kept d c))) (seq k n))).
    { induction n as [|n IH]; intros k; cbn; [constructor|]. apply NoDup_app_intro; auto.
      - apply FinFun.Injective_map_NoDup; [|apply seq_NoDup]. intros x y [= E]. lia.
      - intros x Hx Hy. apply in_flat_map in Hy. destruct Hy as (c & Hc & Hy). apply in_seq in Hc. apply in_map_iff in Hx, Hy.
        destruct Hx as (? & <- & _), Hy as (? & E & _). injection E as _ E. lia. }
    apply K.
  - apply dense_sorted.
  - intros r c. unfold dense_entries. rewrite in_flat_map. unfold in_bounds. split.
    + intros (c' & Hc & H). apply in_seq in Hc. apply in_map_iff in H. destruct H as (r' & [= <- <-] & H). apply in_seq in H.
      unfold ok_dense in Hd'. destruct (d_sym d); [|subst|destruct Hd']; repeat split; try lia; discriminate.
    + intros (Hr & Hc & Hu). exists (Z.to_nat c). split; [apply in_seq; lia|]. apply in_map_iff. exists (Z.to_nat r). split; [f_equal; lia|].
      apply in_seq. unfold ok_dense in Hd'. destruct (d_sym d); [lia| |destruct Hd']. specialize (Hu eq_refl). lia.
Qed.

Theorem C34_dense_to_csc (ti ts : ity) (d : dense) (o : option csc_order) :
  dense_supported (SpDense d) -> fits ti (Z.of_nat (d_rows d)) -> fits ts (Z.of_nat (length (dense_entries d))) ->
  exists c to, construct dbg srt (SpDense d) (ToCsc ti ts o) = Ok c /\ result_csc c = Some to /\
    c_rows to = d_rows d /\ c_cols to = d_cols d /\ c_sym to = d_sym d /\
    csc_entries to = dense_entries d /\ values_ok zero dbg c (SpDense d) (csc_entries to) eq.
Proof.
  intros Hd F1 F2. assert (Hd' : ok_dense d) by exact Hd.
  assert (E : construct dbg srt (SpDense d) (ToCsc ti ts o) = Ok (DenseCsc (dense_csc_result d))).
  { cbn [construct]. apply dense_csc_ok; auto. now rewrite <- dense_length. }
  exists (DenseCsc (dense_csc_result d)), (dense_csc_result d). split; [exact E|].
  repeat (split; [reflexivity|]). split; [now apply dense_csc_entries|].
  rewrite dense_csc_entries by auto.
  split; [reflexivity|]. exists (match d_sym d with Unsymmetric => 0 | _ => dnnz d end). split.
  { cbn [work_size]. rewrite nnz_ok by (now apply dense_csc_valid). cbn [c_inner c_sym dense_csc_result]. unfold dinner. rewrite map_length, dense_length by auto. now destruct (d_sym d). }
  intros vals work H1 H2. destruct (dense_convert zero d Hd' dbg (DenseCsc (dense_csc_result d)) vals work (or_intror eq_refl) H1 H2) as (r & w & Ec & E2 & _).
  exists r, w. split; [exact Ec|]. rewrite E2. unfold dvalues. split; [now rewrite map_length|]. rewrite map_map. cbn [triples].
  assert (K : forall l, (forall e, In e l -> In e (dense_entries d)) -> combine l (map (fun x => Some (dpick zero d vals x)) l) = map (fun e => (e, element (d_rows d) vals (Z.to_nat (fst e)) (Z.to_nat (snd e)))) l).
  { induction l as [|e l IH]; intros Hin; cbn; [reflexivity|]. f_equal; [|apply IH; intros; apply Hin; now right].
    f_equal. unfold element, dpick. destruct (dense_in d e Hd' (Hin e (or_introl eq_refl))) as [B1 B2]. unfold in_bounds in *.
    symmetry. apply nth_error_nth'. cbn in H1. rewrite H1. nia. }
  apply K. auto.
Qed.
Theorem C34_dense_to_coo (ti : ity) (d : dense) (f : option Z) :
  dense_supported (SpDense d) -> dims_fit ti (d_rows d) (d_cols d) (match f with Some b => b | None => 0%Z end) ->
  exists c to, construct dbg srt (SpDense d) (ToCoo ti f) = Ok c /\ result_coo c = Some to /\
    o_rows to = d_rows d /\ o_cols to = d_cols d /\ o_sym to = d_sym d /\ o_first to = match f with Some b => b | None => 0%Z end /\
    coo_entries to = dense_entries d /\ values_ok zero dbg c (SpDense d) (coo_entries to) eq.
Proof.
  intros Hd Hf. destruct (coo_result (SpDense d) ti f) as (c & to & E & R & A1 & A2 & A3 & A4 & A5 & A6 & A7 & A8); cbn; auto.
  { intros _. now apply C34_dense_entries. }
  exists c, to. auto 10.
Qed.
(** C35 *)
Theorem C35_sparse_to_dense (s : sparsity) :
  source_ok s -> (forall d, s <> SpDense d) -> indices_fit s ToDense -> NoDup (source_entries s) ->
  shape_ok (source_sym s) (source_rows s) (source_cols s) ->
  Forall (fun e => ~ wrong_side (source_sym s) e) (source_entries s) ->
  exists c, construct dbg srt s ToDense = Ok c /\
    result_dense c = Some (Dense (source_rows s) (source_cols s) (source_sym s)) /\
    nnz_from dbg c = Ok (source_size s) /\ work_size dbg c = Ok (source_rows s * source_cols s) /\
    forall vals work : list V, length vals = source_size s -> length work = source_rows s * source_cols s ->
      exists w, convert_values dbg zero c vals work = Ok (RWork, w) /\
         is_dense_of zero (source_rows s) (source_cols s) (source_sym s) (source_entries s) vals w.
Proof.
  intros Hs Hd Hf Hn Hsh Hw. destruct (to_dense zero dbg srt s Hs Hd Hf Hn Hsh) as (c & E & R & N & W & C).
  exists c. repeat (split; [assumption|]). intros vals work H1 H2. now apply C.
Qed.
Theorem C35_dense_to_dense (d : dense) : shape_ok (d_sym d) (d_rows d) (d_cols d) ->
  exists c, construct dbg srt (SpDense d) ToDense = Ok c /\ result_dense c = Some d /\
    nnz_from dbg c = Ok (d_rows d * d_cols d) /\ work_size dbg c = Ok 0 /\
    forall vals work : list V, length vals = d_rows d * d_cols d -> convert_values dbg zero c vals work = Ok (RFrom, work).
Proof.
  intros H. exists (DenseDense d). split; [cbn; unfold dense_dense; now rewrite (proj2 (sym_nonsquare_iff _ _ _) H)|].
  repeat (split; [reflexivity|]). intros vals work Hl. unfold convert_values. cbn [nnz_from bind]. rewrite Hl, Nat.eqb_refl. reflexivity.
Qed.

(** C36 *)
Theorem C36_csc_to_csc (tif tsf ti ts : ity) (p : csc) (o : option csc_order) :
  valid_csc p -> csc_truthful p -> fits ti (Z.of_nat (c_rows p)) -> fits ts (Z.of_nat (length (c_inner p))) ->
  (dbg = true -> NoDup (csc_entries p)) ->
  exists c to, construct dbg srt (SpCsc tif tsf p) (ToCsc ti ts o) = Ok c /\ result_csc c = Some to /\
    c_rows to = c_rows p /\ c_cols to = c_cols p /\ c_sym to = c_sym p /\
    values_ok zero dbg c (SpCsc tif tsf p) (csc_entries to) (@Permutation _) /\
    (o = Some SortedRows -> c_order to = SortedRows /\ forall k, k < c_cols to -> StronglySorted Z.le (csc_column to k)) /\
    (o <> Some SortedRows \/ c_order p = SortedRows -> to = p /\
       forall (vals work : list V), length vals = length (c_inner p) -> length work = 0 -> convert_values dbg zero c vals work = Ok (RFrom, work)).
Proof.
  intros Hv Ht F1 F2 Hn.
  destruct (csc_csc_ok dbg srt Hsrt tif tsf ti ts p Hv Ht F1 F2 Hn o) as (to & perm & E & A1 & A2 & A3 & A4 & A5 & A6 & A7 & A8 & A8' & _).
  destruct (csc_result (SpCsc tif tsf p) ti ts o) as (c & to' & E' & R & B1 & B2 & B3 & (B4 & B5) & B6 & B7 & B8); cbn; auto.
  { rewrite entries_length by auto. auto. }
  { destruct o as [[|]|]; auto. }
  cbn [construct] in E'. rewrite E in E'. injection E' as <-. cbn in R. injection R as <-.
  exists (CscCsc to perm), to. split; [exact E|]. repeat (split; [auto; fail|]). split.
  - intros Ho. split; auto. unfold csc_truthful in A2. now rewrite (A7 Ho) in A2.
  - intros Ho. destruct Ho as [Ho|Ho]; [destruct (A8 Ho) as [-> ->]|destruct (A8' Ho) as [-> ->]]; (split; [reflexivity|]); intros vals work Hl Hw;
      unfold convert_values; cbn [nnz_from work_size]; rewrite nnz_ok by auto; cbn [bind length]; rewrite Hl, Hw, !Nat.eqb_refl; reflexivity.
Qed.

(** C37 *)
Theorem C37_coo_to_coo (tf ti : ity) (p : coo) (f : option Z) :
  valid_coo p -> coo_truthful p -> coo_fits ti p ->
  let base := match f with Some b => b | None => o_first p end in
  fits ti (base - o_first p) -> dims_fit ti (o_rows p) (o_cols p) base ->
  (dbg = true -> NoDup (coo_entries p)) ->
  exists c to, construct dbg srt (SpCoo tf p) (ToCoo ti f) = Ok c /\ result_coo c = Some to /\
    to = Coo (o_rows p) (o_cols p) (o_sym p)
             (map (fun r => r + (base - o_first p))%Z (o_row p)) (map (fun r => r + (base - o_first p))%Z (o_col p)) (o_order p) base /\
    coo_entries to = coo_entries p /\ (f = None -> to = p) /\
    nnz_from dbg c = Ok (length (o_row p)) /\ work_size dbg c = Ok 0 /\
    forall (vals work : list V), length vals = length (o_row p) -> convert_values dbg zero c vals work = Ok (RFrom, work).
Proof.
  intros Hv Ht F1 base F2 (F3 & F4 & F5 & F6 & F7) Hn.
  assert (Hsh : (base - o_first p)%Z = shift f p) by (unfold base, shift; destruct f; lia).
  assert (Hb : base = (o_first p + shift f p)%Z) by lia.
  assert (E : construct dbg srt (SpCoo tf p) (ToCoo ti f) = Ok (CooCoo (coo_coo_result f p))).
  { cbn [construct]. apply coo_coo_ok; auto; rewrite <- ?Hb; auto; congruence. }
  exists (CooCoo (coo_coo_result f p)), (coo_coo_result f p). split; [exact E|]. split; [reflexivity|].
  assert (Hnnz : coo_nnz dbg (coo_coo_result f p) = Ok (length (o_row p))).
  { unfold coo_nnz. cbn [o_row o_col coo_coo_result]. rewrite !map_length, (proj1 Hv), Nat.eqb_refl. reflexivity. }
  split; [unfold coo_coo_result; now rewrite Hsh, <- Hb|]. split; [apply coo_coo_entries|]. split.
  { intros ->. unfold coo_coo_result, shift. rewrite Z.add_0_r. rewrite !(map_ext (fun r : Z => (r + 0)%Z) (fun r => r)) by (intros; lia).
    rewrite !map_id. now destruct p. }
  split; [exact Hnnz|]. split; [reflexivity|]. intros vals work Hl. unfold convert_values. cbn [nnz_from]. rewrite Hnnz. cbn [bind]. rewrite Hl, Nat.eqb_refl. reflexivity.
Qed.

(** C38 *)
Theorem C38_truthful_order (s : sparsity) (to : target) (c : conv) :
  source_ok s -> supported s to -> indices_fit s to -> no_duplicates dbg s to -> request_ok dbg s to ->
  construct dbg srt s to = Ok c ->
  (forall p, result_csc c = Some p -> csc_truthful p) /\ (forall p, result_coo c = Some p -> coo_truthful p).
Proof.
  intros Hs Hsup Hf Hn Hr E. destruct to as [|ti f|ti ts o].
  - assert (K : result_csc c = None /\ result_coo c = None).
    { destruct s as [d|ti ts p|ti p]; cbn [construct] in E.
      - unfold dense_dense in E. destruct (sym_nonsquare _ _ _); inversion E; auto.
      - unfold csc_dense in E. destruct (if dbg then _ else _); try discriminate. cbn [bind] in E. destruct (sym_nonsquare _ _ _); inversion E; auto.
      - unfold coo_dense in E. destruct (assert dbg _); try discriminate. cbn [bind] in E. destruct (sym_nonsquare _ _ _); inversion E; auto. }
    destruct K as [-> ->]. split; discriminate.
  - destruct (coo_result s ti f Hs Hsup Hf Hn) as (c' & t & E' & R & _ & _ & _ & _ & _ & A & _). rewrite E in E'. injection E' as <-.
    split; intros p Hp; [destruct c; discriminate|congruence].
  - destruct (csc_result s ti ts o Hs Hsup Hf Hn Hr) as (c' & t & E' & R & _ & _ & _ & _ & A & _). rewrite E in E'. injection E' as <-.
    split; intros p Hp; [congruence|destruct c; discriminate].
Qed.

(** C39 *)
Theorem C39_csc_well_formed (s : sparsity) (ti ts : ity) (o : option csc_order) :
  source_ok s -> supported s (ToCsc ti ts o) -> indices_fit s (ToCsc ti ts o) -> no_duplicates dbg s (ToCsc ti ts o) -> request_ok dbg s (ToCsc ti ts o) ->
  exists c p, construct dbg srt s (ToCsc ti ts o) = Ok c /\ result_csc c = Some p /\
    length (c_outer p) = S (source_cols s) /\ nth 0 (c_outer p) 0%Z = 0%Z /\
    (forall k, k < source_cols s -> (nth k (c_outer p) 0 <= nth (S k) (c_outer p) 0)%Z) /\
    nth (source_cols s) (c_outer p) 0%Z = Z.of_nat (length (source_entries s)) /\
    length (c_inner p) = length (source_entries s) /\
    Forall (fun r => (0 <= r < Z.of_nat (source_rows s))%Z) (c_inner p).
Proof.
  intros Hs Hsup Hf Hn Hr.
  destruct (csc_result s ti ts o Hs Hsup Hf Hn Hr) as (c & p & E & R & A1 & A2 & _ & ((V1 & V2 & V3 & V4 & V5) & L) & _).
  exists c, p. rewrite <- A1, <- A2. split; [exact E|]. split; [exact R|]. rewrite V1, V2, V4, L. repeat split; auto.
Qed.

(** C40 *)
Theorem C40_nonsquare_rejected (s : sparsity) : source_ok s -> no_duplicates dbg s ToDense ->
  ~ shape_ok (source_sym s) (source_rows s) (source_cols s) -> construct dbg srt s ToDense = Throw invalid_argument.
Proof.
  intros Hs Hn Hsh.
  assert (K : sym_nonsquare (source_sym s) (source_rows s) (source_cols s) = true).
  { destruct (sym_nonsquare _ _ _) eqn:E; auto. apply sym_nonsquare_iff in E. contradiction. }
  destruct s as [d|ti ts p|ti p]; cbn [construct source_sym source_rows source_cols source_ok] in *.
  - unfold dense_dense. now rewrite K.
  - rewrite csc_dense_ok; [now rewrite K|apply Hs|exact Hn].
  - rewrite coo_dense_ok; [now rewrite K|exact Hn].
Qed.
Theorem C40_dense_unsupported_rejected (d : dense) (to : target) : to <> ToDense -> ~ dense_supported (SpDense d) ->
  construct dbg srt (SpDense d) to = Throw invalid_argument.
Proof.
  intros Ht Hd. cbn [dense_supported] in Hd. destruct to as [|ti f|ti ts o]; [congruence| |]; cbn [construct].
  - unfold dense_coo. destruct (d_sym d); [destruct Hd; exact I| |reflexivity]. rewrite (proj2 (Nat.eqb_neq _ _)) by auto. reflexivity.
  - unfold dense_csc. destruct (d_sym d); [destruct Hd; exact I| |reflexivity]. rewrite (proj2 (Nat.eqb_neq _ _)) by auto. reflexivity.
Qed.
(** With square shape: rejected exactly if an entry is on the wrong side. *)
Theorem C40_wrong_side_rejected (s : sparsity) : source_ok s -> (forall d, s <> SpDense d) -> indices_fit s ToDense ->
  NoDup (source_entries s) -> shape_ok (source_sym s) (source_rows s) (source_cols s) ->
  exists c, construct dbg srt s ToDense = Ok c /\
  forall vals work : list V, length vals = source_size s -> length work = source_rows s * source_cols s ->
    (Exists (wrong_side (source_sym s)) (source_entries s) <-> convert_values dbg zero c vals work = Throw invalid_argument) /\
    (Forall (fun e => ~ wrong_side (source_sym s) e) (source_entries s) <-> exists w, convert_values dbg zero c vals work = Ok (RWork, w)).
Proof.
  intros Hs Hd Hf Hn Hsh. destruct (to_dense zero dbg srt s Hs Hd Hf Hn Hsh) as (c & E & R & N & W & C).
  exists c. split; [exact E|]. intros vals work H1 H2. destruct (C vals work H1 H2) as [C1 C2].
  assert (D : Forall (fun e => ~ wrong_side (source_sym s) e) (source_entries s) \/ Exists (wrong_side (source_sym s)) (source_entries s)).
  { generalize (source_entries s) as l. induction l as [|e l [IH|IH]]; [now left| |right; now constructor 2].
    destruct (wrong_side_dec (source_sym s) e); [right; now constructor|left; now constructor]. }
  split; split; auto.
  - intros Et. destruct D as [D|D]; auto. destruct (C1 D) as (w & Ew & _). congruence.
  - intros D'. destruct (C1 D') as (w & Ew & _). eauto.
  - intros (w & Ew). destruct D as [D|D]; auto. rewrite (C2 D) in Ew. discriminate.
Qed.

(** C41. A series of calls, each with the workspace the previous one returned. *)
Fixpoint series (c : conv) (work : list V) (calls : list (bool * list V * (nat -> list V))) : outcome (list (list V * list nat)) :=
  match calls with
  | [] => Ok []
  | (rnull, result, eval) :: rest =>
      '(res, sizes, work') <- convert_values_into dbg zero c rnull result eval work ;;
      more <- series c work' rest ;;
      Ok ((res, sizes) :: more)
  end.
Theorem C41_convert_values_into_partial (s : sparsity) (to : target) :
  source_ok s -> supported s to -> indices_fit s to -> no_duplicates dbg s to -> request_ok dbg s to ->
  (to = ToDense -> Forall (fun e => ~ wrong_side (source_sym s) e) (source_entries s) \/ exists d, s = SpDense d) ->
  exists c, construct dbg srt s to = Ok c /\
  forall calls outs,
    (* the evaluator fills the span it gets; the result has the size of the converted
       values; an empty result has a null pointer *)
    Forall2 (fun '(rnull, result, eval) out =>
       length (eval (source_size s)) = source_size s /\
       convert_values_copy dbg zero c (eval (source_size s)) = Ok out /\ length result = length out /\
       (result = [] -> rnull = true)) calls outs ->
    series c [] calls = Ok (map (fun out => (out, [source_size s])) outs).
Proof.
  intros Hs Hsup Hf Hn Hr Hw.
  destruct (every_converts zero dbg srt Hsrt s to Hs Hsup Hf Hn Hr Hw) as (c & ws & out & E & C).
  exists c. split; [exact E|].
  assert (K : forall calls outs work, (ws = 0 -> work = []) -> Forall2 (fun '(rnull, result, eval) o =>
       length (eval (source_size s)) = source_size s /\
       convert_values_copy dbg zero c (eval (source_size s)) = Ok o /\ length result = length o /\
       (result = [] -> rnull = true)) calls outs -> series c work calls = Ok (map (fun o => (o, [source_size s])) outs)).
  { induction calls as [|[[rnull result] eval] calls IH]; intros outs work Hwork H; inversion H as [|? o ? outs' H1 H2]; subst; [reflexivity|].
    destruct H1 as (L1 & Ec & L2 & Hnull). rewrite (copy_ok zero dbg c _ ws out _ C L1) in Ec. injection Ec as <-.
    destruct (into_ok zero dbg c (source_size s) ws out rnull result eval work C L1 L2 Hwork (fun _ => Hnull)) as (work' & Ei & Hwork').
    cbn [series]. rewrite Ei. cbn [bind]. rewrite (IH outs' work' Hwork' H2). reflexivity. }
  intros calls outs. apply K. auto.
Qed.

(** C42 *)
Theorem C42_triplets (rows cols : list Z) :
  StronglySorted col_major (combine rows cols) \/ StronglySorted row_major (combine rows cols) ->
  (check_uniqueness_triplets rows cols = true <-> NoDup (combine rows cols)).
Proof. apply triplets_unique_iff. Qed.
Theorem C42_csc (p : csc) : valid_csc p -> (forall c, c < c_cols p -> StronglySorted Z.le (csc_column p c)) ->
  exists b, check_uniqueness_csc (c_outer p) (c_inner p) = Ok b /\ (b = true <-> NoDup (csc_entries p)).
Proof. apply csc_unique_iff. Qed.

(** C43 *)
Theorem C43_indices_unchanged_partial (s : sparsity) (to : target) (c : conv) :
  source_ok s -> supported s to -> indices_fit s to -> no_duplicates dbg s to -> request_ok dbg s to ->
  construct dbg srt s to = Ok c ->
  (forall p, result_csc c = Some p -> Permutation (csc_entries p) (source_entries s)) /\
  (forall p, result_coo c = Some p -> coo_entries p = source_entries s /\ o_row p = map (fun e => fst e + o_first p)%Z (source_entries s) /\
      o_col p = map (fun e => snd e + o_first p)%Z (source_entries s)).
Proof.
  intros Hs Hsup Hf Hn Hr E. destruct to as [|ti f|ti ts o].
  - assert (K : result_csc c = None /\ result_coo c = None).
    { destruct s as [d|ti ts p|ti p]; cbn [construct] in E.
      - unfold dense_dense in E. destruct (sym_nonsquare _ _ _); inversion E; auto.
      - unfold csc_dense in E. destruct (if dbg then _ else _); try discriminate. cbn [bind] in E. destruct (sym_nonsquare _ _ _); inversion E; auto.
      - unfold coo_dense in E. destruct (assert dbg _); try discriminate. cbn [bind] in E. destruct (sym_nonsquare _ _ _); inversion E; auto. }
    destruct K as [-> ->]. split; discriminate.
  - destruct (coo_result s ti f Hs Hsup Hf Hn) as (c' & t & E' & R & _ & _ & _ & _ & Vt & _ & A & _). rewrite E in E'. injection E' as <-.
    split; intros p Hp; [destruct c; discriminate|]. rewrite R in Hp. injection Hp as <-. split; [exact A|]. rewrite <- A.
    unfold coo_entries. rewrite combine_map, !map_map. destruct Vt as [Hl _]. cbn [fst snd].
    rewrite (map_ext _ (@fst Z Z)) by (intros; lia). rewrite (map_ext (fun x => (snd x - o_first t + o_first t)%Z) (@snd Z Z)) by (intros; lia).
    now rewrite map_fst_combine, map_snd_combine.
  - destruct (csc_result s ti ts o Hs Hsup Hf Hn Hr) as (c' & t & E' & R & _ & _ & _ & (Vt & L) & _ & _ & A). rewrite E in E'. injection E' as <-.
    split; intros p Hp; [|destruct c; discriminate]. rewrite R in Hp. injection Hp as <-.
    destruct A as (_ & ws & _ & A). destruct (A (repeat zero (source_size s)) (repeat zero ws) (repeat_length _ _) (repeat_length _ _)) as (r & w & _ & Lo & P).
    apply (Permutation_map fst) in P. rewrite map_fst_combine in P by (now rewrite map_length).
    rewrite P. destruct s as [d|tif tsf q|tf q]; cbn [triples source_entries].
    + rewrite map_map. cbn [fst]. rewrite map_id. reflexivity.
    + rewrite map_fst_combine; [reflexivity|]. rewrite map_length, repeat_length. apply entries_length. apply Hs.
    + rewrite map_fst_combine; [reflexivity|]. rewrite map_length, repeat_length. apply coo_entries_length. apply Hs.
Qed.
End Props.
