(** All conversions together. *)
From Verif Require Import Base Sparsity_Spec Sparsity_Model Sparsity_Base Sparsity_Csc Sparsity_Conv Sparsity_CscCsc Sparsity_ToCoo Sparsity_FromDense Sparsity_ToDense.
Local Open Scope outcome_scope.
Local Arguments Nat.eqb : simpl never.
Local Arguments Nat.leb : simpl never.
Local Arguments Nat.ltb : simpl never.

(** Sizes and values of a converter: [ent] are the entries of its result. *)
Definition converts {V} (zero : V) (dbg : bool) (c : conv) (n ws : nat) (out : list V -> list V) : Prop :=
  nnz_from dbg c = Ok n /\ work_size dbg c = Ok ws /\
  forall vals work, length vals = n -> length work = ws ->
    exists r w, convert_values dbg zero c vals work = Ok (r, w) /\ values_out r vals w = out vals /\ length w = ws /\
      r = (match ws with 0 => r | _ => RWork end) /\ (ws = 0 -> r = RFrom \/ n = 0) /\ r <> REmpty.

Lemma combine_some {A V} (es : list A) : forall vals : list V, combine es (map Some vals) = map (fun x => (fst x, Some (snd x))) (combine es vals).
Proof. induction es as [|e es IH]; intros [|v vals]; cbn; auto. now rewrite IH. Qed.

Lemma tri_zero n m : n * (n + 1) / 2 = 0 -> n * m = 0.
Proof. destruct n as [|n]; auto. rewrite tri. lia. Qed.

Section All.
Context {V : Type} (zero : V) (dbg : bool) (srt : sorter) (Hsrt : good_sorter srt).

Lemma perm_converts c to perm : valid_csc to -> (c = CooCsc to perm \/ c = CscCsc to perm) ->
  Permutation (full_perm (length (c_inner to)) perm) (iota (length (c_inner to))) -> (perm = [] \/ length perm = length (c_inner to)) ->
  converts zero dbg c (length (c_inner to)) (length perm) (fun vals => map (pick zero vals) (full_perm (length (c_inner to)) perm)).
Proof.
  intros Hv Hc Hp Hl. split; [|split].
  - destruct Hc as [-> | ->]; cbn [nnz_from]; now apply nnz_ok.
  - destruct Hc as [-> | ->]; reflexivity.
  - intros vals work H1 H2. destruct (perm_convert zero dbg to perm Hv Hp Hl c vals work Hc H1 H2) as (r & w & E & E2 & E3 & E4 & E5).
    exists r, w. split; [exact E|]. split; [exact E2|]. split; [lia|]. destruct perm as [|k l].
    + rewrite E4 by auto. cbn. repeat split; auto. discriminate.
    + rewrite E5 by discriminate. cbn. repeat split; auto; discriminate.
Qed.

Lemma perm_triples {E} (es es' : list E) perm (vals : list V) : length es = length vals -> length es' = length perm ->
  Permutation (combine es' perm) (combine es (iota (length es))) ->
  Permutation (combine es' (map Some (map (pick zero vals) perm))) (combine es (map Some vals)).
Proof.
  intros H1 H2 P. rewrite !combine_some. apply Permutation_map. now apply perm_values.
Qed.

(** ** To CSC *)
Lemma to_csc s ti ts o : source_ok s -> dense_supported s -> indices_fit s (ToCsc ti ts o) ->
  (dbg = true -> NoDup (source_entries s)) ->
  (dbg = true -> o = Some CscUnsorted -> forall t p, s = SpCoo t p -> o_order p <> SortedByColsAndRows) ->
  exists c to ws out, construct dbg srt s (ToCsc ti ts o) = Ok c /\ result_csc c = Some to /\
    valid_csc to /\ csc_truthful to /\ c_rows to = source_rows s /\ c_cols to = source_cols s /\ c_sym to = source_sym s /\
    length (c_inner to) = length (source_entries s) /\ (o = Some SortedRows -> c_order to = SortedRows) /\
    (ws = 0 \/ ws = length (source_entries s)) /\
    converts zero dbg c (source_size s) ws out /\
    forall vals, length vals = source_size s -> length (out vals) = length (source_entries s) /\
      Permutation (combine (csc_entries to) (map Some (out vals))) (triples s vals).
Proof.
  intros Hs Hd Hf Hn Hu. destruct s as [d|tif tsf p|tf p]; cbn [source_ok dense_supported indices_fit source_entries source_rows source_cols source_sym source_size triples construct] in *.
  - (* Dense *)
    assert (Hd' : ok_dense d) by exact Hd. destruct Hf as [F1 F2]. rewrite dense_length in F2 by auto.
    exists (DenseCsc (dense_csc_result d)), (dense_csc_result d), (match d_sym d with Unsymmetric => 0 | _ => dnnz d end), (dvalues zero d).
    rewrite dense_length by auto.
    split; [now apply dense_csc_ok|]. split; [reflexivity|]. split; [now apply dense_csc_valid|]. split; [now apply dense_csc_truthful|].
    split; [reflexivity|]. split; [reflexivity|]. split; [reflexivity|].
    assert (L : length (c_inner (dense_csc_result d)) = dnnz d) by (cbn; unfold dinner; rewrite map_length; now apply dense_length).
    split; [exact L|]. split; [reflexivity|]. split; [destruct (d_sym d); auto|]. split.
    + split; [reflexivity|]. split.
      { cbn [work_size]. rewrite nnz_ok by (now apply dense_csc_valid). rewrite L. cbn [c_sym dense_csc_result]. now destruct (d_sym d). }
      intros vals work H1 H2. destruct (dense_convert zero d Hd' dbg (DenseCsc (dense_csc_result d)) vals work (or_intror eq_refl) H1 H2) as (r & w & E & E2 & E3 & ->).
      exists (match d_sym d with Unsymmetric => RFrom | _ => RWork end), w. split; [exact E|]. split; [exact E2|]. split; [lia|]. 
      assert (Lv : length (dvalues zero d vals) = dnnz d) by (unfold dvalues; rewrite map_length; now apply dense_length).
      destruct (d_sym d) eqn:Es; [repeat split; auto; discriminate|split; [|split; [|discriminate]]|split; [|split; [|discriminate]]].
      * now destruct (dnnz d).
      * intros E0. right. unfold ok_dense, dnnz in *. rewrite Es in *. now apply tri_zero.
      * now destruct (dnnz d).
      * unfold ok_dense in Hd'. now rewrite Es in Hd'.
    + intros vals Hl. split; [unfold dvalues; rewrite map_length; now apply dense_length|].
      rewrite dense_csc_entries by auto. unfold dvalues. rewrite map_map.
      assert (E : combine (dense_entries d) (map (fun x => Some (dpick zero d vals x)) (dense_entries d))
        = map (fun e => (e, element (d_rows d) vals (Z.to_nat (fst e)) (Z.to_nat (snd e)))) (dense_entries d)).
      { assert (K : forall l, (forall e, In e l -> In e (dense_entries d)) -> combine l (map (fun x => Some (dpick zero d vals x)) l) = map (fun e => (e, element (d_rows d) vals (Z.to_nat (fst e)) (Z.to_nat (snd e)))) l).
        { induction l as [|e l IH]; intros Hin; cbn; [reflexivity|]. f_equal; [|apply IH; intros; apply Hin; now right].
          f_equal. unfold element, dpick. destruct (dense_in d e Hd' (Hin e (or_introl eq_refl))) as [B1 B2]. unfold in_bounds in *.
          symmetry. apply nth_error_nth'. rewrite Hl. nia. }
        apply K. auto. }
      rewrite E. reflexivity.
  - (* CSC *)
    destruct Hs as [Hv Ht], Hf as [F1 F2]. rewrite entries_length in F2 by auto.
    destruct (csc_csc_ok dbg srt Hsrt tif tsf ti ts p Hv Ht F1 F2 Hn o) as (to & perm & E & A1 & A2 & A3 & A4 & A5 & A6 & A7 & _ & _ & A9 & A10 & A11).
    exists (CscCsc to perm), to, (length perm), (fun vals => map (pick zero vals) (full_perm (length (c_inner to)) perm)).
    rewrite entries_length by auto. split; [exact E|]. split; [reflexivity|]. rewrite A6 in *.
    assert (Pp : Permutation (full_perm (length (c_inner p)) perm) (iota (length (c_inner p)))).
    { apply (Permutation_map snd) in A11. rewrite !map_snd_combine in A11; auto; rewrite ?iota_length, ?entries_length by auto; lia. }
    repeat (split; [first [assumption|reflexivity]|]). split; [destruct A10 as [->|]; auto|]. split.
    + rewrite <- A6. apply perm_converts; auto; rewrite A6; auto.
    + intros vals Hl. split; [rewrite map_length; lia|].
      apply perm_triples; auto; rewrite ?entries_length by auto; try lia. exact A11.
  - (* COO *)
    destruct Hs as [Hv Ht], Hf as (F1 & F2 & F3).
    destruct (coo_csc_ok dbg srt Hsrt tf ti ts p Hv Ht F1 F2 F3 Hn o) as (to & perm & E & A1 & A2 & A3 & A4 & A5 & A6 & A7 & A9 & A10 & A11).
    { intros Hdbg Ho. now apply (Hu Hdbg Ho tf). }
    exists (CooCsc to perm), to, (length perm), (fun vals => map (pick zero vals) (full_perm (length (c_inner to)) perm)).
    rewrite coo_entries_length by auto. split; [exact E|]. split; [reflexivity|]. rewrite A6 in *.
    assert (Pp : Permutation (full_perm (length (o_row p)) perm) (iota (length (o_row p)))).
    { apply (Permutation_map snd) in A11. rewrite !map_snd_combine in A11; auto; rewrite ?iota_length, ?entries_length, ?coo_entries_length by auto; lia. }
    repeat (split; [first [assumption|reflexivity]|]). split; [destruct A10 as [->|]; auto|]. split.
    + rewrite <- A6. apply perm_converts; auto; rewrite A6; auto.
    + intros vals Hl. split; [rewrite map_length; lia|].
      apply perm_triples; auto; rewrite ?coo_entries_length, ?entries_length by auto; try lia. exact A11.
Qed.

(** ** To COO *)
Lemma to_coo s ti f : source_ok s -> dense_supported s -> indices_fit s (ToCoo ti f) ->
  (dbg = true -> NoDup (source_entries s)) ->
  exists c to ws out, construct dbg srt s (ToCoo ti f) = Ok c /\ result_coo c = Some to /\
    valid_coo to /\ coo_truthful to /\ o_rows to = source_rows s /\ o_cols to = source_cols s /\ o_sym to = source_sym s /\
    o_first to = base_of s f /\ coo_entries to = source_entries s /\
    (ws = 0 \/ ws = length (source_entries s)) /\
    converts zero dbg c (source_size s) ws out /\
    forall vals, length vals = source_size s -> length (out vals) = length (source_entries s) /\
      combine (coo_entries to) (map Some (out vals)) = triples s vals /\
      ((forall d, s <> SpDense d) -> out vals = vals).
Proof.
  intros Hs Hd Hf Hn. destruct s as [d|tif tsf p|tf p]; cbn [source_ok dense_supported indices_fit source_entries source_rows source_cols source_sym source_size triples construct] in *.
  - (* Dense *)
    assert (Hd' : ok_dense d) by exact Hd.
    exists (DenseCoo (dense_coo_result f d)), (dense_coo_result f d), (match d_sym d with Unsymmetric => 0 | _ => dnnz d end), (dvalues zero d).
    assert (Hb : base_of (SpDense d) f = first_or f 0) by (destruct f; reflexivity). rewrite Hb in *.
    rewrite dense_length by auto.
    split; [now apply dense_coo_ok|]. split; [reflexivity|]. split; [now apply dense_coo_valid|]. split; [now apply dense_coo_truthful|].
    split; [reflexivity|]. split; [reflexivity|]. split; [reflexivity|]. split; [reflexivity|]. split; [apply dense_coo_entries|].
    split; [destruct (d_sym d); auto|]. split.
    + split; [reflexivity|]. split.
      { cbn [work_size]. unfold coo_nnz. cbn [o_row o_col o_sym dense_coo_result]. rewrite !map_length, Nat.eqb_refl, dense_length by auto. now destruct (d_sym d). }
      intros vals work H1 H2. destruct (dense_convert zero d Hd' dbg (DenseCoo (dense_coo_result f d)) vals work) as (r & w & E & E2 & E3 & ->); auto.
      { left. exists ti, f. auto. }
      exists (match d_sym d with Unsymmetric => RFrom | _ => RWork end), w. split; [exact E|]. split; [exact E2|]. split; [lia|]. 
      assert (Lv : length (dvalues zero d vals) = dnnz d) by (unfold dvalues; rewrite map_length; now apply dense_length).
      destruct (d_sym d) eqn:Es; [repeat split; auto; discriminate|split; [|split; [|discriminate]]|split; [|split; [|discriminate]]].
      * now destruct (dnnz d).
      * intros E0. right. unfold ok_dense, dnnz in *. rewrite Es in *. now apply tri_zero.
      * now destruct (dnnz d).
      * unfold ok_dense in Hd'. now rewrite Es in Hd'.
    + intros vals Hl. split; [unfold dvalues; rewrite map_length; now apply dense_length|]. split; [|intros K; now destruct (K d)].
      rewrite dense_coo_entries by auto. unfold dvalues. rewrite map_map.
      assert (K : forall l, (forall e, In e l -> In e (dense_entries d)) -> combine l (map (fun x => Some (dpick zero d vals x)) l) = map (fun e => (e, element (d_rows d) vals (Z.to_nat (fst e)) (Z.to_nat (snd e)))) l).
      { induction l as [|e l IH]; intros Hin; cbn; [reflexivity|]. f_equal; [|apply IH; intros; apply Hin; now right].
        f_equal. unfold element, dpick. destruct (dense_in d e Hd' (Hin e (or_introl eq_refl))) as [B1 B2]. unfold in_bounds in *.
        symmetry. apply nth_error_nth'. rewrite Hl. nia. }
      apply K. auto.
  - (* CSC *)
    destruct Hs as [Hv Ht]. assert (Hb : base_of (SpCsc tif tsf p) f = first_or f 0) by (destruct f; reflexivity). rewrite Hb in *.
    exists (CscCoo (csc_coo_result f p)), (csc_coo_result f p), 0, (fun vals => vals).
    split; [now apply csc_coo_ok|]. split; [reflexivity|]. split; [now apply csc_coo_valid|]. split; [now apply csc_coo_truthful|].
    split; [reflexivity|]. split; [reflexivity|]. split; [reflexivity|]. split; [reflexivity|]. split; [apply csc_coo_entries|].
    split; [now left|].
    assert (Hnnz : coo_nnz dbg (csc_coo_result f p) = Ok (length (c_inner p))).
    { unfold coo_nnz. cbn [o_row o_col csc_coo_result]. rewrite !map_length, Nat.eqb_refl, entries_length by auto. reflexivity. }
    split.
    + split; [exact Hnnz|]. split; [reflexivity|]. intros vals work H1 H2. exists RFrom, work.
      split; [unfold convert_values; cbn [nnz_from]; rewrite Hnnz; cbn [bind]; rewrite H1, Nat.eqb_refl; reflexivity|].
      cbn. repeat split; auto. discriminate.
    + intros vals Hl. rewrite csc_coo_entries, entries_length by auto. auto.
  - (* COO *)
    destruct Hs as [Hv Ht], Hf as (F1 & F2 & F3 & F4 & F5 & F6 & F7).
    assert (Hb : base_of (SpCoo tf p) f = (o_first p + shift f p)%Z) by (unfold shift; destruct f; cbn; lia).
    rewrite Hb in *. replace (o_first p + shift f p - o_first p)%Z with (shift f p) in F2 by lia.
    exists (CooCoo (coo_coo_result f p)), (coo_coo_result f p), 0, (fun vals => vals).
    split; [now apply coo_coo_ok|]. split; [reflexivity|]. split; [now apply coo_coo_valid|]. split; [now apply coo_coo_truthful|].
    split; [reflexivity|]. split; [reflexivity|]. split; [reflexivity|]. split; [reflexivity|]. split; [apply coo_coo_entries|].
    split; [now left|].
    assert (Hnnz : coo_nnz dbg (coo_coo_result f p) = Ok (length (o_row p))).
    { unfold coo_nnz. cbn [o_row o_col coo_coo_result]. rewrite !map_length, (proj1 Hv), Nat.eqb_refl. reflexivity. }
    split.
    + split; [exact Hnnz|]. split; [reflexivity|]. intros vals work H1 H2. exists RFrom, work.
      split; [unfold convert_values; cbn [nnz_from]; rewrite Hnnz; cbn [bind]; rewrite H1, Nat.eqb_refl; reflexivity|].
      cbn. repeat split; auto. discriminate.
    + intros vals Hl. rewrite coo_coo_entries, coo_entries_length by auto. auto.
Qed.

(** ** To Dense *)
Lemma sym_nonsquare_iff sy rows cols : sym_nonsquare sy rows cols = false <-> shape_ok sy rows cols.
Proof.
  unfold sym_nonsquare, shape_ok. destruct sy; [split; [congruence|auto]| |].
  - rewrite negb_false_iff, Nat.eqb_eq. split; [auto|]. intros H. apply H. discriminate.
  - rewrite negb_false_iff, Nat.eqb_eq. split; [auto|]. intros H. apply H. discriminate.
Qed.
Lemma to_dense s : source_ok s -> (forall d, s <> SpDense d) -> indices_fit s ToDense -> NoDup (source_entries s) ->
  shape_ok (source_sym s) (source_rows s) (source_cols s) ->
  exists c, construct dbg srt s ToDense = Ok c /\
    result_dense c = Some (Dense (source_rows s) (source_cols s) (source_sym s)) /\
    nnz_from dbg c = Ok (source_size s) /\ work_size dbg c = Ok (source_rows s * source_cols s) /\
    forall vals work : list V, length vals = source_size s -> length work = source_rows s * source_cols s ->
      (Forall (fun e => ~ wrong_side (source_sym s) e) (source_entries s) ->
        exists w, convert_values dbg zero c vals work = Ok (RWork, w) /\
           is_dense_of zero (source_rows s) (source_cols s) (source_sym s) (source_entries s) vals w) /\
      (Exists (wrong_side (source_sym s)) (source_entries s) -> convert_values dbg zero c vals work = Throw invalid_argument).
Proof.
  intros Hs Hnd Hf Hn Hsh. destruct s as [d|tif tsf p|tf p]; [now destruct (Hnd d)| |]; cbn [source_ok indices_fit source_entries source_rows source_cols source_sym source_size construct] in *.
  - destruct Hs as [Hv Ht]. exists (CscDense p (Dense (c_rows p) (c_cols p) (c_sym p))).
    split; [rewrite csc_dense_ok by auto; now rewrite (proj2 (sym_nonsquare_iff _ _ _) Hsh)|].
    split; [reflexivity|]. split; [now apply nnz_ok|]. split; [reflexivity|].
    intros vals work H1 H2. rewrite csc_dense_values by auto.
    destruct (place_spec zero dbg (c_sym p) (c_rows p) (c_cols p) Hsh (csc_entries p) vals) as [P1 P2]; auto.
    { rewrite entries_length by auto. lia. }
    { apply Forall_forall. intros e He. now apply entries_bounds. }
    split; intros H.
    + destruct (P1 H) as (w & E & Hw). exists w. rewrite E. auto.
    + rewrite P2 by auto. reflexivity.
  - destruct Hs as [Hv Ht], Hf as [F1 F2]. exists (CooDense tf p (Dense (o_rows p) (o_cols p) (o_sym p))).
    split; [rewrite coo_dense_ok by auto; now rewrite (proj2 (sym_nonsquare_iff _ _ _) Hsh)|].
    split; [reflexivity|].
    assert (Hnnz : coo_nnz dbg p = Ok (length (o_row p))) by (unfold coo_nnz; rewrite (proj1 Hv), Nat.eqb_refl; reflexivity).
    split; [exact Hnnz|]. split; [reflexivity|].
    intros vals work H1 H2. rewrite coo_dense_values by auto.
    destruct (place_spec zero dbg (o_sym p) (o_rows p) (o_cols p) Hsh (coo_entries p) vals) as [P1 P2]; auto.
    { rewrite coo_entries_length by auto. lia. }
    { exact (proj2 Hv). }
    split; intros H.
    + destruct (P1 H) as (w & E & Hw). exists w. rewrite E. auto.
    + rewrite P2 by auto. reflexivity.
Qed.
End All.
