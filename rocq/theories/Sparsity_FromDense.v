(** Dense to COO and CSC. *)
From Verif Require Import Base Sparsity_Spec Sparsity_Model Sparsity_Base Sparsity_Csc Sparsity_Conv Sparsity_CscCsc Sparsity_ToCoo.
Local Open Scope outcome_scope.
Local Arguments Nat.eqb : simpl never.
Local Arguments Nat.leb : simpl never.
Local Arguments Nat.ltb : simpl never.

(** Number of rows kept in column [c]. *)
Definition kept (d : dense) (c : nat) : nat := match d_sym d with Upper => S c | _ => d_rows d end.
Definition ok_dense (d : dense) : Prop := match d_sym d with Unsymmetric => True | Upper => d_rows d = d_cols d | Lower => False end.
Definition dnnz (d : dense) : nat := match d_sym d with Unsymmetric => d_rows d * d_cols d | _ => d_rows d * (d_rows d + 1) / 2 end.
(** Offset of column [c] in the list of entries. *)
Definition doff (d : dense) (c : nat) : nat := match d_sym d with Upper => c * (c + 1) / 2 | _ => c * d_rows d end.
Lemma tri c : S c * (S c + 1) / 2 = c * (c + 1) / 2 + S c.
Proof. replace (S c * (S c + 1)) with (c * (c + 1) + S c * 2) by nia. rewrite Nat.div_add by lia. reflexivity. Qed.
Lemma doff_S d c : doff d (S c) = doff d c + kept d c.
Proof. unfold doff, kept. destruct (d_sym d); [cbn; lia|apply tri|cbn; lia]. Qed.
Lemma doff_0 d : doff d 0 = 0. Proof. unfold doff. now destruct (d_sym d). Qed.
Lemma doff_last d : ok_dense d -> doff d (d_cols d) = dnnz d.
Proof. unfold ok_dense, doff, dnnz. destruct (d_sym d); [lia|intros ->; reflexivity|intros []]. Qed.
Lemma kept_le d c : ok_dense d -> c < d_cols d -> kept d c <= d_rows d.
Proof. unfold ok_dense, kept. destruct (d_sym d); lia. Qed.

Definition dcol (d : dense) (c : nat) : list (Z * Z) := map (fun r => (Z.of_nat r, Z.of_nat c)) (seq 0 (kept d c)).
Lemma dense_entries_eq d : dense_entries d = flat_map (dcol d) (seq 0 (d_cols d)).
Proof. reflexivity. Qed.
Lemma dense_length d : ok_dense d -> length (dense_entries d) = dnnz d.
Proof.
  intros H. rewrite <- doff_last by auto. rewrite dense_entries_eq. apply chunks_length; [apply doff_0| |]; intros; rewrite doff_S; [lia|].
  unfold dcol. rewrite map_length, seq_length. lia.
Qed.
Lemma dense_in d e : ok_dense d -> In e (dense_entries d) -> in_bounds (d_rows d) (fst e) /\ in_bounds (d_cols d) (snd e).
Proof.
  intros Hd. rewrite dense_entries_eq. intros H. apply in_flat_map in H. destruct H as (c & Hc & H). apply in_seq in Hc.
  unfold dcol in H. apply in_map_iff in H. destruct H as (r & <- & H). apply in_seq in H. pose proof (kept_le d c Hd ltac:(lia)).
  unfold in_bounds. cbn. lia.
Qed.
Lemma dense_sorted d : StronglySorted col_major (dense_entries d).
Proof.
  rewrite dense_entries_eq. apply sorted_chunks.
  - intros c Hc. unfold dcol. eapply (StronglySorted_map lt).
    + intros x y Hxy. unfold col_major. cbn. lia.
    + generalize (kept d c) as n, 0 as k. induction n as [|n IH]; intros k; cbn; constructor; auto.
      apply Forall_forall. intros x Hx. apply in_seq in Hx. lia.
  - intros c e x y Hce He Hx Hy. apply in_map_iff in Hx, Hy. destruct Hx as (? & <- & _), Hy as (? & <- & _).
    unfold col_major. cbn. lia.
Qed.

(** ** Dense to COO *)
Section DenseCoo.
Context (ti : ity) (first : option Z) (d : dense).
Notation b := (first_or first 0).
Hypothesis (Hd : ok_dense d) (Hf : dims_fit ti (d_rows d) (d_cols d) b).
Definition dense_coo_result : coo :=
  Coo (d_rows d) (d_cols d) (d_sym d) (map (fun e => fst e + b)%Z (dense_entries d)) (map (fun e => snd e + b)%Z (dense_entries d))
      SortedByColsAndRows b.
Lemma fill_coo_ok nrows : (forall c, nrows c = kept d c) -> fill_coo ti b (d_cols d) nrows (dnnz d)
  = Ok (map (fun e => fst e + b)%Z (dense_entries d), map (fun e => snd e + b)%Z (dense_entries d)).
Proof.
  intros Hn. unfold fill_coo.
  set (body := fun (e : Z * Z) (st : list Z * list Z * nat) => let '(ri, ci, l) := st in
       x <- chk ti (cast ti (fst e) + b) ;; y <- chk ti (cast ti (snd e) + b) ;; ri' <- set ri l x ;; ci' <- set ci l y ;; Ok (ri', ci', S l)).
  match goal with |- bind ?m _ = _ =>
    assert (E : m = foldm body (dense_entries d) (repeat 0%Z (dnnz d), repeat 0%Z (dnnz d), 0)) end.
  { rewrite dense_entries_eq, foldm_flat_map. unfold for_. apply foldm_ext. intros c st Hc. unfold dcol.
    rewrite foldm_map, Hn. apply foldm_ext. intros r [[ri ci] l] Hr. reflexivity. }
  rewrite E.
  rewrite (fill2 (fun e => chk ti (cast ti (fst e) + b)) (fun e => chk ti (cast ti (snd e) + b))
                     (fun e => fst e + b)%Z (fun e => snd e + b)%Z).
  - cbn [bind]. rewrite dense_length, Nat.sub_diag by auto. cbn [repeat]. now rewrite !app_nil_r.
  - intros e He. destruct (dense_in d e Hd He) as [Hr Hc]. destruct Hf as (F1 & F2 & F3 & F4 & F5).
    split; [apply (idx_ok ti first (d_rows d))|apply (idx_ok ti first (d_cols d))]; auto.
  - rewrite dense_length by auto. lia.
  - intros e [[ri ci] l] He. reflexivity.
Qed.
Lemma dense_coo_ok : dense_coo ti first d = Ok (DenseCoo dense_coo_result).
Proof.
  unfold dense_coo. pose proof fill_coo_ok as F. unfold dnnz, kept in F. unfold ok_dense in Hd.
  destruct (d_sym d) eqn:Es; [| |destruct Hd].
  - rewrite F by auto. cbn [bind]. unfold dense_coo_result. now rewrite Es.
  - rewrite Hd at 1. rewrite Nat.eqb_refl. cbn [negb].
    rewrite F by (intros; lia). cbn [bind]. unfold dense_coo_result. now rewrite Es.
Qed.
Lemma dense_coo_entries : coo_entries dense_coo_result = dense_entries d.
Proof. unfold coo_entries. cbn. apply shifted_entries. Qed.
Lemma dense_coo_valid : valid_coo dense_coo_result.
Proof.
  split; [cbn; now rewrite !map_length|]. rewrite dense_coo_entries. apply Forall_forall. intros e He. now apply dense_in.
Qed.
Lemma dense_coo_truthful : coo_truthful dense_coo_result.
Proof. unfold coo_truthful. rewrite dense_coo_entries. cbn. apply dense_sorted. Qed.
End DenseCoo.

(** ** Dense to CSC *)
Section DenseCsc.
Context (ti ts : ity) (d : dense).
Hypothesis (Hd : ok_dense d) (Hfr : fits ti (Z.of_nat (d_rows d))) (Hfn : fits ts (Z.of_nat (dnnz d))).
Definition dinner : list Z := map fst (dense_entries d).
Definition douter : list Z := map (fun c => Z.of_nat (doff d c)) (seq 0 (S (d_cols d))).
Definition dense_csc_result : csc := Csc (d_rows d) (d_cols d) (d_sym d) dinner douter SortedRows.

Lemma doff_le c e : c <= e -> doff d c <= doff d e.
Proof. induction 1; [lia|]. rewrite doff_S. lia. Qed.
Lemma dinner_prefix c : c <= d_cols d -> length (map fst (flat_map (dcol d) (seq 0 c))) = doff d c.
Proof.
  intros _. rewrite map_length. apply chunks_length; [apply doff_0| |]; intros; rewrite doff_S; [lia|].
  unfold dcol. rewrite map_length, seq_length. lia.
Qed.
Lemma inner_loop c done outer : c < d_cols d -> length done = doff d c ->
  for_ (kept d c) (fun r '(inner, outer, l) =>
        inner' <- set inner l (cast ti (Z.of_nat r)) ;; Ok (inner', outer, S l))
       (done ++ repeat 0%Z (dnnz d - doff d c), outer, doff d c)
  = Ok ((done ++ map fst (dcol d c)) ++ repeat 0%Z (dnnz d - doff d (S c)), outer : list Z, doff d (S c)).
Proof.
  intros Hc Hl.
  assert (Hb : doff d (S c) <= dnnz d) by (rewrite <- doff_last by auto; apply doff_le; lia).
  rewrite doff_S in *.
  assert (K : forall k, k <= kept d c -> for_ k (fun r '(inner, outer, l) =>
        inner' <- set inner l (cast ti (Z.of_nat r)) ;; Ok (inner', outer, S l))
       (done ++ repeat 0%Z (dnnz d - doff d c), outer, doff d c)
     = Ok ((done ++ map Z.of_nat (seq 0 k)) ++ repeat 0%Z (dnnz d - (doff d c + k)), outer, doff d c + k)).
  { induction k as [|k IH]; intros Hk.
    - cbn. now rewrite app_nil_r, Nat.add_0_r.
    - unfold for_ in *. rewrite seq_S, foldm_app, IH by lia. cbn [foldm bind Nat.add].
      assert (L : length (done ++ map Z.of_nat (seq 0 k)) = doff d c + k) by (rewrite app_length, map_length, seq_length; lia).
      rewrite <- L. rewrite set_fill by lia. cbn [bind].
      rewrite cast_id.
      2:{ apply (fits_between ti 0 (Z.of_nat (d_rows d))); auto using fits_0. pose proof (kept_le d c Hd Hc). lia. }
      rewrite app_length, L. cbn [length]. rewrite map_app. cbn [map]. rewrite !app_assoc.
      replace (doff d c + S k) with (S (doff d c + k)) by lia. now rewrite Nat.add_1_r. }
  rewrite K by lia. repeat f_equal. unfold dcol. rewrite map_map. reflexivity.
Qed.
Lemma fill_csc_ok nrows : (forall c, nrows c = kept d c) -> fill_csc ti ts (d_cols d) nrows (dnnz d) = Ok (dinner, douter).
Proof.
  intros Hn. unfold fill_csc.
  assert (C : forall c, c <= d_cols d -> cast ts (Z.of_nat (doff d c)) = Z.of_nat (doff d c)).
  { intros c Hc. apply cast_id. apply (fits_between ts 0 (Z.of_nat (dnnz d))); auto using fits_0.
    rewrite <- doff_last by auto. pose proof (doff_le c (d_cols d) Hc). lia. }
  assert (K : forall k, k <= d_cols d -> for_ k (fun c '(inner, outer, l) =>
      outer' <- set outer c (cast ts (Z.of_nat l)) ;;
      for_ (nrows c) (fun r '(inner, outer, l) =>
        inner' <- set inner l (cast ti (Z.of_nat r)) ;; Ok (inner', outer, S l)) (inner, outer', l))
      (repeat 0%Z (dnnz d), repeat 0%Z (d_cols d + 1), 0)
    = Ok (map fst (flat_map (dcol d) (seq 0 k)) ++ repeat 0%Z (dnnz d - doff d k),
          map (fun c => Z.of_nat (doff d c)) (seq 0 k) ++ repeat 0%Z (d_cols d + 1 - k), doff d k)).
  { induction k as [|k IH]; intros Hk.
    - cbn. rewrite doff_0, !Nat.sub_0_r. reflexivity.
    - unfold for_ at 1 in IH. unfold for_ at 1. rewrite seq_S, foldm_app, IH by lia. cbn [foldm bind Nat.add].
      assert (L : length (map (fun c => Z.of_nat (doff d c)) (seq 0 k)) = k) by (rewrite map_length, seq_length; lia).
      pose proof (set_fill 0%Z (cast ts (Z.of_nat (doff d k))) (map (fun c => Z.of_nat (doff d c)) (seq 0 k)) (d_cols d + 1)) as SF.
      rewrite L in SF. rewrite SF by lia. cbn [bind]. rewrite Hn.
      rewrite inner_loop by (auto; apply dinner_prefix; lia). cbn [bind].
      rewrite flat_map_app, map_app. cbn [flat_map]. rewrite app_nil_r. rewrite map_app. cbn [map].
      rewrite C by lia. rewrite app_length, L. cbn [length]. rewrite !Nat.add_1_r. reflexivity. }
  rewrite K by lia. cbn [bind].
  assert (L : length (map (fun c => Z.of_nat (doff d c)) (seq 0 (d_cols d))) = d_cols d) by (rewrite map_length, seq_length; lia).
  pose proof (set_fill 0%Z (cast ts (Z.of_nat (doff d (d_cols d)))) (map (fun c => Z.of_nat (doff d c)) (seq 0 (d_cols d))) (d_cols d + 1)) as SF.
  rewrite L in SF. rewrite SF by lia. cbn [bind]. rewrite app_length, L. cbn [length]. rewrite Nat.sub_diag. cbn [repeat].
  rewrite doff_last, Nat.sub_diag by auto. cbn [repeat]. rewrite !app_nil_r. unfold dinner, douter.
  rewrite <- dense_entries_eq. rewrite seq_S, map_app. cbn [map Nat.add]. rewrite doff_last by auto.
  rewrite <- (doff_last d Hd) at 1. rewrite C by lia. now rewrite doff_last.
Qed.
Lemma dense_csc_ok : dense_csc ti ts d = Ok (DenseCsc dense_csc_result).
Proof.
  unfold dense_csc. pose proof fill_csc_ok as F. unfold dnnz, kept in F.
  pose proof Hd as Hd'. unfold ok_dense in Hd'.
  destruct (d_sym d) eqn:Es; [| |destruct Hd'].
  - rewrite F by auto. cbn [bind]. unfold dense_csc_result. now rewrite Es.
  - rewrite Hd' at 1. rewrite Nat.eqb_refl. cbn [negb].
    rewrite F by (intros; lia). cbn [bind]. unfold dense_csc_result. now rewrite Es.
Qed.
Lemma douter_nth c : c <= d_cols d -> nth c douter 0%Z = Z.of_nat (doff d c).
Proof.
  intros H. unfold douter. rewrite (nth_indep _ 0%Z (Z.of_nat (doff d 0))) by (rewrite map_length, seq_length; lia).
  rewrite (map_nth (fun c => Z.of_nat (doff d c))), seq_nth by lia. reflexivity.
Qed.
Lemma dense_csc_column c : c < d_cols d -> csc_column dense_csc_result c = map Z.of_nat (seq 0 (kept d c)).
Proof.
  intros Hc. unfold csc_column, at_. cbn [c_inner c_outer dense_csc_result]. rewrite !douter_nth, !Nat2Z.id by lia.
  unfold dinner. rewrite dense_entries_eq. rewrite flat_map_concat_map, concat_map, map_map, <- flat_map_concat_map.
  rewrite (slice_chunk (doff d) (fun c => map fst (dcol d c)) (d_cols d)); auto.
  - unfold dcol. rewrite map_map. reflexivity.
  - apply doff_0.
  - intros. rewrite doff_S. lia.
  - intros. rewrite doff_S. unfold dcol. rewrite !map_length, seq_length. lia.
Qed.
Lemma dense_csc_entries : csc_entries dense_csc_result = dense_entries d.
Proof.
  rewrite dense_entries_eq. unfold csc_entries. cbn [c_cols dense_csc_result]. apply flat_map_ext_in. intros c Hc. apply in_seq in Hc.
  rewrite dense_csc_column by lia. unfold dcol. rewrite map_map. reflexivity.
Qed.
Lemma dense_csc_valid : valid_csc dense_csc_result.
Proof.
  unfold valid_csc. cbn [c_outer c_cols c_inner c_rows dense_csc_result]. split; [|split; [|split; [|split]]].
  - unfold douter. now rewrite map_length, seq_length.
  - rewrite douter_nth by lia. now rewrite doff_0.
  - intros c Hc. rewrite !douter_nth by lia. rewrite doff_S. lia.
  - rewrite douter_nth by lia. unfold dinner. rewrite map_length, dense_length by auto. now rewrite doff_last.
  - unfold dinner. apply Forall_forall. intros r Hr. apply in_map_iff in Hr. destruct Hr as (e & <- & He). now apply dense_in.
Qed.
Lemma dense_csc_truthful : csc_truthful dense_csc_result.
Proof.
  unfold csc_truthful. cbn [c_order dense_csc_result]. intros c Hc. cbn in Hc. rewrite dense_csc_column by auto. apply seq_sorted.
Qed.
End DenseCsc.

(** ** Values *)
Lemma slice_map_nth {A} (z : A) l a k : a + k <= length l -> slice l a (a + k) = map (fun i => nth (a + i) l z) (seq 0 k).
Proof.
  intros H. apply nth_ext with (d := z) (d' := z).
  - rewrite slice_length, map_length, seq_length by lia. lia.
  - intros i Hi. rewrite slice_length in Hi by lia.
    assert (Hi' : i < k) by lia.
    pose proof (slice_nth l a (a + k) i) as E. rewrite (proj2 (Nat.ltb_lt _ _)) in E by lia.
    rewrite (nth_error_nth' _ z) in E by (rewrite slice_length; lia). rewrite (nth_error_nth' _ z) in E by lia. injection E as E.
    rewrite E. rewrite (nth_indep (map (fun i => nth (a + i) l z) (seq 0 k)) z (nth (a + 0) l z)) by (rewrite map_length, seq_length; lia).
    rewrite (map_nth (fun i => nth (a + i) l z)), seq_nth by lia. reflexivity.
Qed.
Section Values.
Context {V : Type} (zero : V) (d : dense).
Hypothesis (Hd : ok_dense d).
(** The values of the entries, in the order of the entries. *)
Definition dpick (vals : list V) (e : Z * Z) : V := nth (Z.to_nat (fst e) + Z.to_nat (snd e) * d_rows d) vals zero.
Definition dvalues (vals : list V) : list V := map (dpick vals) (dense_entries d).
Lemma dcol_values vals c : c < d_cols d -> length vals = d_rows d * d_cols d ->
  slice vals (c * d_rows d) (c * d_rows d + kept d c) = map (dpick vals) (dcol d c).
Proof.
  intros Hc Hl. pose proof (kept_le d c Hd Hc). rewrite (slice_map_nth zero) by nia. unfold dcol. rewrite map_map.
  apply map_ext. intros r. unfold dpick. cbn [fst snd]. rewrite !Nat2Z.id. f_equal. lia.
Qed.
Lemma dvalues_unsym vals : d_sym d = Unsymmetric -> length vals = d_rows d * d_cols d -> dvalues vals = vals.
Proof.
  intros Hs Hl. unfold dvalues. rewrite dense_entries_eq. rewrite flat_map_concat_map, concat_map, map_map, <- flat_map_concat_map.
  rewrite (flat_map_ext_in _ (fun c => slice vals (c * d_rows d) (S c * d_rows d))).
  - rewrite (slice_flat_map vals (fun c => c * d_rows d)); auto.
    + rewrite (Nat.mul_comm (d_cols d)), <- Hl. apply slice_all.
    + intros. cbn. lia.
  - intros c Hc. apply in_seq in Hc. rewrite <- dcol_values by (auto; lia). unfold kept. rewrite Hs. f_equal. cbn. lia.
Qed.
Lemma copy_upper_ok vals work : d_sym d = Upper -> length vals = d_rows d * d_cols d -> length work = dnnz d ->
  copy_upper (d_rows d) (d_cols d) vals work = Ok (dvalues vals).
Proof.
  intros Hs Hl Hw. unfold copy_upper.
  assert (K : forall k, k <= d_cols d -> for_ k (fun c '(w, t) =>
      let t := t + (c + 1) in
      col <- subrange vals (Z.of_nat (c * d_rows d)) (Z.of_nat (c * d_rows d + (c + 1))) ;;
      if Nat.leb (length col) t && Nat.leb t (length w)
      then Ok (firstn (t - length col) w ++ col ++ skipn t w, t) else UB) (work, 0)
     = Ok (map (dpick vals) (flat_map (dcol d) (seq 0 k)) ++ skipn (doff d k) work, doff d k)).
  { induction k as [|k IH]; intros Hk.
    - cbn. now rewrite doff_0.
    - unfold for_ in *. rewrite seq_S, foldm_app, IH by lia. cbn [foldm bind Nat.add].
      assert (Hkp : kept d k = k + 1) by (unfold kept; rewrite Hs; lia).
      pose proof (kept_le d k Hd ltac:(lia)) as Hkl.
      assert (Hb : doff d (S k) <= dnnz d).
      { rewrite <- doff_last by auto. clear -Hk. assert (M : forall e, S k <= e -> doff d (S k) <= doff d e).
        { induction 1; [lia|]. rewrite (doff_S d m). lia. } apply M; lia. }
      rewrite doff_S in Hb.
      assert (Sub : subrange vals (Z.of_nat (k * d_rows d)) (Z.of_nat (k * d_rows d + (k + 1))) = Ok (map (dpick vals) (dcol d k))).
      { unfold subrange. rewrite (proj2 (Z.leb_le _ _)) by lia. rewrite (proj2 (Z.leb_le _ _)) by lia.
        rewrite (proj2 (Z.leb_le _ _)) by nia. cbn [andb]. rewrite !Nat2Z.id, <- Hkp. now rewrite dcol_values by (auto; lia). }
      rewrite Sub. cbn [bind].
      assert (Lc : length (map (dpick vals) (dcol d k)) = k + 1) by (unfold dcol; rewrite !map_length, seq_length; lia).
      assert (Lp : length (map (dpick vals) (flat_map (dcol d) (seq 0 k))) = doff d k).
      { rewrite map_length. apply chunks_length; [apply doff_0| |]; intros; rewrite doff_S; [lia|].
        unfold dcol. rewrite map_length, seq_length. lia. }
      rewrite (proj2 (Nat.leb_le _ _)) by lia.
      rewrite (proj2 (Nat.leb_le _ _)) by (rewrite app_length, Lp, skipn_length; lia). cbn [andb].
      rewrite Lc. replace (doff d k + (k + 1) - (k + 1)) with (doff d k) by lia.
      rewrite firstn_app, Lp, Nat.sub_diag, firstn_O, app_nil_r, firstn_all2 by lia.
      rewrite skipn_app, skipn_all2 by lia. cbn [app]. rewrite Lp, skipn_skipn'.
      rewrite flat_map_app, map_app. cbn [flat_map]. rewrite app_nil_r, <- app_assoc.
      rewrite doff_S, Hkp. replace (doff d k + (k + 1) - doff d k + doff d k) with (doff d k + (k + 1)) by lia. reflexivity. }
  rewrite K by lia. cbn [bind]. rewrite doff_last by auto. rewrite skipn_all2 by lia. rewrite app_nil_r. reflexivity.
Qed.
Lemma dense_convert dbg c (vals work : list V) : (exists ti first, dims_fit ti (d_rows d) (d_cols d) (first_or first 0) /\ c = DenseCoo (dense_coo_result first d)) \/ c = DenseCsc (dense_csc_result d) ->
  length vals = d_rows d * d_cols d -> length work = match d_sym d with Unsymmetric => 0 | _ => dnnz d end ->
  exists r w, convert_values dbg zero c vals work = Ok (r, w) /\ values_out r vals w = dvalues vals /\ length w = length work /\
     r = match d_sym d with Unsymmetric => RFrom | _ => RWork end.
Proof.
  intros Hc Hl Hw.
  assert (E : convert_values dbg zero c vals work = match d_sym d with
      | Unsymmetric => Ok (RFrom, work)
      | Upper => w <- copy_upper (d_rows d) (d_cols d) vals work ;; Ok (RWork, w)
      | Lower => UB end).
  { pose proof Hd as Hd'. unfold ok_dense in Hd'. destruct Hc as [(ti & first & Hf & ->)| ->].
    - unfold convert_values, nnz_from, work_size. cbn [o_rows o_cols o_sym dense_coo_result bind]. rewrite Hl, Nat.eqb_refl. cbn [assert bind].
      unfold coo_nnz. cbn [o_row o_col dense_coo_result]. rewrite !map_length, Nat.eqb_refl, dense_length by auto. cbn [assert bind].
      destruct (d_sym d); cbn [is_unsym bind]; rewrite ?Hw, ?Nat.eqb_refl; cbn [assert bind]; auto. destruct Hd'.
    - unfold convert_values, nnz_from, work_size. cbn [c_rows c_cols c_sym dense_csc_result bind]. rewrite Hl, Nat.eqb_refl. cbn [assert bind].
      rewrite nnz_ok by (now apply dense_csc_valid). cbn [c_inner dense_csc_result]. unfold dinner. rewrite map_length, dense_length by auto.
      destruct (d_sym d); cbn [is_unsym bind]; rewrite ?Hw, ?Nat.eqb_refl; cbn [assert bind]; auto. destruct Hd'. }
  rewrite E. pose proof Hd as Hd'. unfold ok_dense in Hd'. destruct (d_sym d) eqn:Es; [| |destruct Hd'].
  - exists RFrom, work. cbn [values_out]. rewrite dvalues_unsym by auto. auto.
  - rewrite copy_upper_ok by auto. cbn [bind]. exists RWork, (dvalues vals). cbn [values_out].
    unfold dvalues. rewrite map_length, dense_length by auto. auto.
Qed.
End Values.
