(** COO to CSC. *)
From Verif Require Import Base Sparsity_Spec Sparsity_Model Sparsity_Base Sparsity_Csc.
Local Open Scope outcome_scope.
Local Arguments Nat.eqb : simpl never.
Local Arguments Nat.leb : simpl never.
Local Arguments Nat.ltb : simpl never.

Definition iota (n : nat) : list Z := map Z.of_nat (seq 0 n).
Lemma iota_length n : length (iota n) = n. Proof. unfold iota. now rewrite map_length, seq_length. Qed.
Lemma iota_in n k : In k (iota n) -> (0 <= k < Z.of_nat n)%Z.
Proof. unfold iota. intros H. apply in_map_iff in H. destruct H as (i & <- & H). apply in_seq in H. lia. Qed.
Lemma iota_cast ts n : fits ts (Z.of_nat n) -> map (fun k => cast ts (Z.of_nat k)) (seq 0 n) = iota n.
Proof.
  intros H. unfold iota. apply map_ext_in. intros k Hk. apply in_seq in Hk. apply cast_id.
  apply (fits_between ts 0 (Z.of_nat n)); auto using fits_0. lia.
Qed.

Lemma skipn_nth_error {A} (l : list A) : forall n x, nth_error l n = Some x -> skipn n l = x :: skipn (S n) l.
Proof. induction l as [|y l IH]; intros [|n] x; cbn; try discriminate; [now intros [= ->]|apply IH]. Qed.
Lemma firstn_nth_error {A} (l : list A) : forall n x, nth_error l n = Some x -> firstn (S n) l = firstn n l ++ [x].
Proof.
  induction l as [|y l IH]; intros [|n] x H; cbn in *; try discriminate; [now injection H as ->|]. f_equal. now apply IH.
Qed.

Lemma set_mid' {A} (a b : list A) x y n : length a = n -> set (a ++ y :: b) n x = Ok (a ++ x :: b).
Proof. intros <-. apply set_mid. Qed.

Section Gather.
Context {V : Type} (zero : V).
Definition pick (vals : list V) (k : Z) : V := nth (Z.to_nat k) vals zero.
Lemma pick_iota vals : map (pick vals) (iota (length vals)) = vals.
Proof.
  unfold iota, pick. rewrite map_map. rewrite (map_ext _ (fun k => nth k vals zero)) by (intros; now rewrite Nat2Z.id).
  induction vals as [|v vals IH]; cbn; [reflexivity|]. f_equal. rewrite <- IH at 2. rewrite <- seq_shift, map_map. reflexivity.
Qed.
Lemma gather_ok dbg perm vals work : length work = length perm -> Forall (fun k => (0 <= k < Z.of_nat (length vals))%Z) perm ->
  gather dbg perm vals work = Ok (map (pick vals) perm).
Proof.
  intros Hl Hf. unfold gather, for_.
  destruct (foldm_inv (fun i w => k <- get perm i ;; v <- getz dbg vals k ;; set w i v)
    (fun pre w => w = map (pick vals) (firstn (length pre) perm) ++ skipn (length pre) work /\ pre = seq 0 (length pre))
    (seq 0 (length perm)) work) as (w & E & -> & _).
  - cbn. auto.
  - intros pre i post w Es [-> Hp].
    assert (Hlp : length pre < length perm).
    { apply (f_equal (@length nat)) in Es. rewrite seq_length, app_length in Es. cbn in Es. lia. }
    assert (i = length pre) as ->.
    { assert (nth_error (seq 0 (length perm)) (length pre) = Some i) by (rewrite Es, nth_error_app2, Nat.sub_diag by lia; reflexivity).
      rewrite (nth_error_nth' _ 0) in H by (rewrite seq_length; lia). rewrite seq_nth in H by lia. injection H as <-. reflexivity. }
    set (n := length pre) in *.
    destruct (nth_error perm n) as [k|] eqn:Ek; [|apply nth_error_None in Ek; lia].
    unfold get at 1. rewrite Ek. cbn [bind].
    assert (Hk : (0 <= k < Z.of_nat (length vals))%Z).
    { rewrite Forall_forall in Hf. apply Hf. eapply nth_error_In; eauto. }
    unfold getz. rewrite cast_sz_ok by lia. cbn [bind].
    unfold get. rewrite (nth_error_nth' _ zero) by lia. cbn [bind].
    destruct (nth_error work n) as [x|] eqn:Ex; [|apply nth_error_None in Ex; lia].
    assert (Hs : skipn n work = x :: skipn (S n) work).
    { now apply skipn_nth_error. }
    assert (Hf1 : firstn (S n) perm = firstn n perm ++ [k]).
    { now apply firstn_nth_error. }
    rewrite Hs.
    assert (Hlen : length (map (pick vals) (firstn n perm)) = n) by (rewrite map_length, firstn_length; lia).
    rewrite (set_mid' _ _ _ _ _ Hlen). eexists. split; [reflexivity|].
    rewrite app_length, Nat.add_1_r. cbn [length]. fold n. split.
    + rewrite Hf1, map_app, <- app_assoc. cbn. reflexivity.
    + rewrite seq_S. cbn. now rewrite <- Hp.
  - rewrite E. rewrite seq_length, firstn_all, skipn_all2 by lia. now rewrite app_nil_r.
Qed.
(** Applying a permutation of the positions to the values. *)
Lemma perm_values {E} (es es' : list E) (perm : list Z) (vals : list V) : length es = length vals -> length es' = length perm ->
  Permutation (combine es' perm) (combine es (iota (length es))) ->
  Permutation (combine es' (map (pick vals) perm)) (combine es vals).
Proof.
  intros Hl Hl' P. apply (Permutation_map (fun x => (fst x, pick vals (snd x)))) in P.
  assert (K : forall (a : list E) (b : list Z), map (fun x => (fst x, pick vals (snd x))) (combine a b) = combine a (map (pick vals) b)).
  { induction a as [|x a IH]; intros [|y b]; cbn; auto. now rewrite IH. }
  rewrite !K in P. rewrite Hl in P. rewrite pick_iota in P. exact P.
Qed.
End Gather.

(** What a permutation kept by a converter stands for. *)
Definition full_perm (n : nat) (perm : list Z) : list Z := match perm with [] => iota n | _ => perm end.
Lemma full_perm_trim n perm : Permutation perm (iota n) -> full_perm n (if is_sorted perm then [] else perm) = perm.
Proof.
  intros P. destruct (is_sorted perm) eqn:E.
  - cbn. apply sorted_unique; auto using seq_sorted, is_sorted_strong, Permutation_sym. apply seq_sorted.
  - unfold full_perm. destruct perm; [|reflexivity]. discriminate.
Qed.

Section CooCsc.
Context (dbg : bool) (srt : sorter) (Hsrt : good_sorter srt).
Context (tf ti ts : ity) (p : coo).
Hypothesis (Hv : valid_coo p) (Ht : coo_truthful p).
Hypothesis (Hff : coo_fits tf p) (Hft : coo_fits ti p) (Hfs : fits ts (Z.of_nat (length (o_row p)))).
Hypothesis (Hdup : dbg = true -> NoDup (coo_entries p)).
Notation b := (o_first p).
Notation n := (length (o_row p)).

Lemma coo_bounds r c : In (r, c) (combine (o_row p) (o_col p)) ->
  in_bounds (o_rows p) (r - b) /\ in_bounds (o_cols p) (c - b).
Proof.
  intros H. destruct Hv as [_ Hf]. rewrite Forall_forall in Hf. unfold coo_entries in Hf. rewrite combine_map in Hf.
  apply (Hf ((r - b)%Z, (c - b)%Z)). apply in_map_iff. exists (r, c). auto.
Qed.

(** The code after sorting, for any rearrangement of the entries sorted by column. *)
Definition tail (order : csc_order) (ri ci perm : list Z) : outcome conv :=
  let perm := if is_sorted perm then [] else perm in
  nnz <- coo_nnz dbg p ;;
  let rows := match ri with [] => o_row p | _ => ri end in
  let cols := match ci with [] => o_col p | _ => ci end in
  '(inner, outer) <- convert_triplets_to_ccs dbg tf ti ts rows cols (repeat 0%Z nnz) (repeat 0%Z (o_cols p + 1)) b ;;
  _ <- (if dbg then u <- check_uniqueness_csc outer inner ;; assert dbg u else Ok tt) ;;
  Ok (CooCsc (Csc (o_rows p) (o_cols p) (o_sym p) inner outer order) perm).

Definition good_result (req : option csc_order) (c : outcome conv) : Prop :=
  exists to perm, c = Ok (CooCsc to perm) /\ valid_csc to /\ csc_truthful to /\
    c_rows to = o_rows p /\ c_cols to = o_cols p /\ c_sym to = o_sym p /\ length (c_inner to) = n /\
    (req = Some SortedRows -> c_order to = SortedRows) /\
    length (full_perm n perm) = n /\ (perm = [] \/ length perm = n) /\
    Permutation (combine (csc_entries to) (full_perm n perm)) (combine (coo_entries p) (iota n)).

Lemma combine_shift (rows cols : list Z) :
  combine (map (fun r => (r - b)%Z) rows) (map (fun c => (c - b)%Z) cols)
  = map (fun e => (fst e - b, snd e - b)%Z) (combine rows cols).
Proof. now rewrite combine_map. Qed.
Lemma StronglySorted_map {A B} (R : A -> A -> Prop) (R' : B -> B -> Prop) (f : A -> B) l :
  (forall x y, R x y -> R' (f x) (f y)) -> StronglySorted R l -> StronglySorted R' (map f l).
Proof.
  intros H Hs. induction Hs as [|x l Hs IH Hf]; cbn; constructor; auto. rewrite Forall_forall in *.
  intros y Hy. apply in_map_iff in Hy. destruct Hy as (z & <- & Hz). auto.
Qed.

Lemma tail_ok order ri ci perm req :
  length ri = n -> length ci = n -> length perm = n ->
  Permutation (combine (combine ri ci) perm) (combine (combine (o_row p) (o_col p)) (iota n)) ->
  StronglySorted Z.le ci ->
  (order = SortedRows -> StronglySorted col_major (combine ri ci)) ->
  (req = Some SortedRows -> order = SortedRows) ->
  forall perm0, full_perm n (if is_sorted perm0 then [] else perm0) = perm -> (perm0 = [] \/ perm0 = perm) ->
  good_result req (tail order ri ci perm0).
Proof.
  intros Hr Hc Hp P Hs Ho Hq perm0 Hperm0 Hp0. destruct Hv as [Hlen Hbnd].
  assert (P2 : Permutation (combine ri ci) (combine (o_row p) (o_col p))).
  { apply (Permutation_map fst) in P. rewrite !map_fst_combine in P by (rewrite ?combine_length, ?iota_length; lia). exact P. }
  assert (Hb : forall r c, In (r, c) (combine ri ci) -> in_bounds (o_rows p) (r - b) /\ in_bounds (o_cols p) (c - b)).
  { intros r c Hin. apply coo_bounds. eapply Permutation_in; eauto. }
  assert (Hrows : Forall (fun r => in_bounds (o_rows p) (r - b)) ri).
  { apply Forall_forall. intros r Hin. rewrite <- (map_fst_combine ri ci) in Hin by lia.
    apply in_map_iff in Hin. destruct Hin as ([r' c'] & <- & Hin). apply (Hb _ _ Hin). }
  assert (Hcols : Forall (fun c => (b <= c < b + Z.of_nat (o_cols p))%Z) ci).
  { apply Forall_forall. intros c Hin. rewrite <- (map_snd_combine ri ci) in Hin by lia.
    apply in_map_iff in Hin. destruct Hin as ([r' c'] & <- & Hin). destruct (Hb _ _ Hin) as [_ K]. unfold in_bounds in K. cbn. lia. }
  set (to := built b ri ci (o_cols p) (o_rows p) (o_sym p) order).
  assert (Vto : valid_csc to) by (apply built_valid; auto; lia).
  assert (Ent : csc_entries to = combine (map (fun r => (r - b)%Z) ri) (map (fun c => (c - b)%Z) ci)) by (apply built_entries; auto; lia).
  assert (Ep : Permutation (combine (csc_entries to) perm) (combine (coo_entries p) (iota n))).
  { rewrite Ent. unfold coo_entries. rewrite !combine_shift.
    apply (Permutation_map (fun x => ((fst (fst x) - b, snd (fst x) - b)%Z, snd x))) in P.
    assert (K : forall (es : list (Z * Z)) (k : list Z), map (fun x => ((fst (fst x) - b, snd (fst x) - b)%Z, snd x)) (combine es k)
              = combine (map (fun e => (fst e - b, snd e - b)%Z) es) k).
    { induction es as [|e es IH]; intros [|y k]; cbn; auto. now rewrite IH. }
    rewrite !K in P. exact P. }
  exists to, (if is_sorted perm0 then [] else perm0).
  assert (Hmr : match ri with [] => o_row p | _ => ri end = ri).
  { destruct ri; auto. cbn in Hr. destruct (o_row p); [auto|discriminate]. }
  assert (Hmc : match ci with [] => o_col p | _ => ci end = ci).
  { destruct ci; auto. cbn in Hc. destruct (o_col p); [auto|]. cbn in Hlen. lia. }
  split.
  { unfold tail. unfold coo_nnz. rewrite Hlen, Nat.eqb_refl. cbn [assert bind]. rewrite Hmr, Hmc.
    rewrite <- Hlen, <- Hr.
    rewrite (convert_triplets_ok b ri ci) with (nrows := o_rows p) (sy := o_sym p) (o := order); auto; try lia.
    - fold to. cbn [bind]. destruct dbg eqn:Edbg.
      + rewrite unique_check_ok; auto.
        assert (NoDup (coo_entries p)) as Nd by auto. rewrite Ent.
        eapply Permutation_NoDup; [|exact Nd]. unfold coo_entries. rewrite !combine_shift.
        apply Permutation_map, Permutation_sym, P2.
      + reflexivity.
    - rewrite Forall_forall in *. intros r Hin. split; auto. destruct Hft as (F1 & F2 & _).
      specialize (Hrows _ Hin). unfold in_bounds in Hrows. apply (fits_between ti b (b + Z.of_nat (o_rows p))); auto. lia.
    - apply Hft.
    - apply Hft.
    - apply Hff.
    - apply Hff.
    - apply Hff.
    - now rewrite Hc. }
  split; [exact Vto|]. split.
  { unfold csc_truthful. cbn [c_order to built]. destruct order; [exact I|]. intros c Hin.
    apply built_sorted; auto; [lia|]. rewrite combine_shift. eapply StronglySorted_map; [|apply Ho; auto].
    intros x y. unfold col_major. cbn. lia. }
  repeat split; auto.
  - cbn. now rewrite map_length.
  - rewrite Hperm0. lia.
  - destruct (is_sorted perm0); auto. destruct Hp0 as [-> | ->]; auto.
  - now rewrite Hperm0.
Qed.

Lemma coo_csc_ok req : (dbg = true -> req = Some CscUnsorted -> o_order p <> SortedByColsAndRows) ->
  good_result req (coo_csc dbg srt tf ti ts req p).
Proof.
  intros Hreq. destruct Hv as [Hlen Hbnd].
  unfold coo_csc. rewrite (iota_cast ts n Hfs).
  set (T := combine (combine (o_row p) (o_col p)) (iota n)).
  assert (LT : length T = n) by (unfold T; rewrite !combine_length, iota_length; lia).
  (* sorting *)
  assert (Sort : forall both : bool, let '(ri, ci, perm) :=
             if both then sort_triplets srt (o_row p) (o_col p) (iota n) else sort_triplets_col srt (o_row p) (o_col p) (iota n) in
          length ri = n /\ length ci = n /\ length perm = n /\ Permutation (combine (combine ri ci) perm) T /\
          StronglySorted Z.le ci /\ (both = true -> StronglySorted col_major (combine ri ci)) /\ Permutation perm (iota n)).
  { intros both.
    assert (K : forall X, Permutation X T -> let '(ri, ci, perm) := unzip3 X in
       length ri = n /\ length ci = n /\ length perm = n /\ combine ri ci = map fst X /\ combine (combine ri ci) perm = X /\ Permutation perm (iota n)).
    { intros X PX. cbn. pose proof (Permutation_length PX) as LX. rewrite !map_length.
      assert (E1 : combine (map (fun x => fst (fst x)) X) (map (fun x => snd (fst x)) X) = map fst X).
      { rewrite <- (combine_fst_snd (map fst X)). rewrite !map_map. reflexivity. }
      split; [lia|]. split; [lia|]. split; [lia|]. split; [exact E1|]. split.
      - rewrite E1. apply combine_fst_snd.
      - apply (Permutation_map snd) in PX. unfold T in PX. rewrite map_snd_combine in PX; [exact PX|].
        rewrite combine_length, iota_length. lia. }
    destruct both.
    - unfold sort_triplets. fold T. destruct (Hsrt _ 0 lt_col_row T lt_col_row_swo) as [PX SX]. specialize (K _ PX).
      destruct (unzip3 _) as [[ri ci] perm] eqn:EU. destruct K as (K1 & K2 & K3 & K4 & K5 & K6).
      split; [auto|]. split; [auto|]. split; [auto|]. split; [now rewrite K5|]. unfold unzip3 in EU. injection EU as <- <- <-. split; [|split; [|exact K6]].
      + eapply StronglySorted_map; [|exact SX]. intros [[? ?] ?] [[? ?] ?]. cbn. lia.
      + intros _. rewrite K4. eapply StronglySorted_map; [|exact SX]. intros [[? ?] ?] [[? ?] ?]. unfold col_major. cbn. lia.
    - unfold sort_triplets_col. fold T. destruct (Hsrt _ 0 lt_col T lt_col_swo) as [PX SX]. specialize (K _ PX).
      destruct (unzip3 _) as [[ri ci] perm] eqn:EU. destruct K as (K1 & K2 & K3 & K4 & K5 & K6).
      split; [auto|]. split; [auto|]. split; [auto|]. split; [now rewrite K5|]. unfold unzip3 in EU. injection EU as <- <- <-. split; [|split; [|exact K6]].
      + eapply StronglySorted_map; [|exact SX]. intros [[? ?] ?] [[? ?] ?]. cbn. lia.
      + discriminate. }
  assert (Srt : forall both order, (both = true \/ order = CscUnsorted) -> (req = Some SortedRows -> order = SortedRows) ->
     let '(ri, ci, perm) := if both : bool then sort_triplets srt (o_row p) (o_col p) (iota n) else sort_triplets_col srt (o_row p) (o_col p) (iota n) in
     good_result req (tail order ri ci perm)).
  { intros both order Hb Hq. specialize (Sort both).
    destruct (if both then _ else _) as [[ri ci] perm]. destruct Sort as (S1 & S2 & S3 & S4 & S5 & S6 & S7).
    apply (tail_ok order ri ci perm req); auto.
    - intros ->. apply S6. destruct Hb; [auto|discriminate].
    - now apply full_perm_trim. }
  (* no sorting *)
  assert (Uns : forall order, StronglySorted (fun x y => (snd x <= snd y)%Z) (coo_entries p) ->
      (order = SortedRows -> StronglySorted col_major (coo_entries p)) -> (req = Some SortedRows -> order = SortedRows) ->
      good_result req (tail order [] [] [])).
  { intros order H1 H2 H3.
    assert (E : tail order [] [] [] = tail order (o_row p) (o_col p) []).
    { unfold tail. now destruct (o_row p), (o_col p). }
    rewrite E. apply (tail_ok order _ _ (iota n)); auto.
    - now rewrite iota_length.
    - rewrite <- (map_snd_combine (o_row p) (o_col p)) by lia.
      assert (K : combine (o_row p) (o_col p) = map (fun e => (fst e + b, snd e + b)%Z) (coo_entries p)).
      { unfold coo_entries. rewrite combine_shift, map_map. rewrite <- (map_id (combine (o_row p) (o_col p))) at 1.
        apply map_ext. intros [r c]. cbn. f_equal; lia. }
      rewrite K, map_map. eapply StronglySorted_map; [|exact H1]. intros x y. cbn. lia.
    - intros Ho. specialize (H2 Ho).
      assert (K : combine (o_row p) (o_col p) = map (fun e => (fst e + b, snd e + b)%Z) (coo_entries p)).
      { unfold coo_entries. rewrite combine_shift, map_map. rewrite <- (map_id (combine (o_row p) (o_col p))) at 1.
        apply map_ext. intros [r c]. cbn. f_equal; lia. }
      rewrite K. eapply StronglySorted_map; [|exact H2]. intros x y. unfold col_major. cbn. lia. }
  assert (Lex : StronglySorted col_major (coo_entries p) -> StronglySorted (fun x y => (snd x <= snd y)%Z) (coo_entries p)).
  { intros H. rewrite <- (map_id (coo_entries p)). eapply StronglySorted_map; [|exact H]. unfold col_major. cbn. lia. }
  unfold coo_truthful in Ht.
  assert (Hnnz : coo_nnz dbg p = Ok n) by (unfold coo_nnz; rewrite Hlen, Nat.eqb_refl; reflexivity).
  destruct req as [[|]|]; destruct (o_order p) eqn:Eo; cbn [bind];
    try (rewrite Hnnz; cbn [bind]); cbv beta iota.
  (* the order check of line 483 *)
  all: try match goal with
    | |- context [sort_triplets_col srt _ _ _] =>
        let S1 := fresh in pose proof (Srt false CscUnsorted (or_intror eq_refl)) as S1; cbv beta iota in S1; specialize (S1 ltac:(try congruence; auto)); revert S1;
        destruct (sort_triplets_col srt (o_row p) (o_col p) (iota n)) as [[ri ci] perm]; intros S1; unfold tail in S1; rewrite Hnnz in S1; cbn [assert bind] in *; exact S1
    | |- context [sort_triplets srt _ _ _] =>
        let S1 := fresh in pose proof (Srt true SortedRows (or_introl eq_refl)) as S1; cbv beta iota in S1; specialize (S1 ltac:(try congruence; auto)); revert S1;
        destruct (sort_triplets srt (o_row p) (o_col p) (iota n)) as [[ri ci] perm]; intros S1; unfold tail in S1; rewrite Hnnz in S1; cbn [assert bind] in *; exact S1
    end.
  all: cbn [assert bind].
  all: unfold tail in Uns; rewrite Hnnz in Uns; cbn [bind is_sorted] in *.
  - (* request Unsorted, source sorted by columns and rows: only without assertions *)
    destruct dbg eqn:Ed; [destruct (Hreq eq_refl eq_refl eq_refl)|]. cbn [assert bind].
    apply Uns; auto; congruence.
  - apply Uns; auto; congruence.
  - apply Uns; auto.
  - apply Uns; auto; congruence.
  - apply Uns; auto; congruence.
Qed.
End CooCsc.
