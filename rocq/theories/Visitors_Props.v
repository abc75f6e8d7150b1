(** C80: what is_dense, get_nnz, get_symmetry, num_rows and num_cols say about
    patterns and about the results of conversions. *)
From Verif Require Import Base Sparsity_Spec Sparsity_Model Sparsity_Base Sparsity_Csc Sparsity_Conv Sparsity_CscCsc Sparsity_ToCoo Sparsity_FromDense Sparsity_ToDense Sparsity_All Sparsity_Into Sparsity_Props Visitors_Model.
Local Open Scope outcome_scope.
Local Arguments Nat.eqb : simpl never.
Local Arguments Nat.leb : simpl never.
Local Arguments Nat.ltb : simpl never.
Local Arguments Nat.div : simpl never.

Ltac step H :=
  repeat match type of H with
  | context [bind ?m _] => let X := fresh "X" in destruct m eqn:X; cbn [bind] in H; [|discriminate H..]
  | context [let '(_, _) := ?x in _] => destruct x
  | (if ?b then _ else _) = Ok _ => destruct b; try discriminate H
  end.

(** A converter that could be built, whatever the source (also an invalid one),
    is for a pattern of the same shape and symmetry, of the requested kind. *)
Theorem C80_shape (dbg : bool) (srt : sorter) (s : sparsity) (to : target) (c : conv) :
  construct dbg srt s to = Ok c ->
  exists r, result_sparsity to c = Some r /\
    num_rows r = num_rows s /\ num_cols r = num_cols s /\ get_symmetry r = get_symmetry s /\
    (is_dense r = true <-> to = ToDense) /\
    match to, r with
    | ToDense, SpDense _ => True
    | ToCoo ti _, SpCoo ti' _ => ti' = ti
    | ToCsc ti ts _, SpCsc ti' ts' _ => ti' = ti /\ ts' = ts
    | _, _ => False
    end.
Proof.
  intros E.
  assert (K : exists r, result_sparsity to c = Some r /\ num_rows r = num_rows s /\ num_cols r = num_cols s /\ get_symmetry r = get_symmetry s).
  { destruct s as [d|tif tsf p|tf p], to as [|ti f|ti ts o]; cbn [construct] in E;
      cbn [num_rows num_cols get_symmetry].
    - unfold dense_dense in E. step E. injection E as <-. cbn. eauto.
    - unfold dense_coo in E. step E. injection E as <-. cbn. eauto.
    - unfold dense_csc in E. step E. injection E as <-. cbn. eauto.
    - unfold csc_dense in E. step E. injection E as <-. cbn. eauto.
    - unfold csc_coo in E. step E. injection E as <-. cbn. eauto.
    - unfold csc_csc in E. step E. injection E as <-. cbn. eauto.
    - unfold coo_dense in E. step E. injection E as <-. cbn. eauto.
    - unfold coo_coo in E.
      destruct (match f with Some f => _ | None => _ end) eqn:D in E; cbn [bind] in E; try discriminate E.
      destruct (ity_eqb tf ti && _)%bool; cbn [bind] in E.
      + destruct (assert _ _); cbn [bind] in E; try discriminate E. injection E as <-. cbn. eauto.
      + destruct (coo_nnz dbg p); cbn [bind] in E; try discriminate E.
        destruct (foldm _ (o_row p) _) as [[]| | |]; cbn [bind] in E; try discriminate E.
        destruct (foldm _ (o_col p) _) as [[]| | |]; cbn [bind] in E; try discriminate E.
        destruct (assert _ _); cbn [bind] in E; try discriminate E. injection E as <-. cbn. eauto.
    - unfold coo_csc in E. step E; injection E as <-; cbn; eauto. }
  destruct K as (r & R & K). exists r. split; [exact R|]. destruct K as (K1 & K2 & K3). repeat (split; [assumption|]).
  destruct to; cbn in R.
  - destruct (result_dense c); [|discriminate R]. injection R as <-. cbn. tauto.
  - destruct (result_coo c); [|discriminate R]. injection R as <-. cbn. split; [split; discriminate|auto].
  - destruct (result_csc c); [|discriminate R]. injection R as <-. cbn. split; [split; discriminate|auto].
Qed.
Print Assumptions C80_shape.
(** They are the members of the stored alternative. *)
Theorem C80_members (d : dense) (p : csc) (q : coo) (ti ts : ity) :
  (num_rows (SpDense d), num_cols (SpDense d), get_symmetry (SpDense d), is_dense (SpDense d)) = (d_rows d, d_cols d, d_sym d, true) /\
  (num_rows (SpCsc ti ts p), num_cols (SpCsc ti ts p), get_symmetry (SpCsc ti ts p), is_dense (SpCsc ti ts p)) = (c_rows p, c_cols p, c_sym p, false) /\
  (num_rows (SpCoo ti q), num_cols (SpCoo ti q), get_symmetry (SpCoo ti q), is_dense (SpCoo ti q)) = (o_rows q, o_cols q, o_sym q, false).
Proof. repeat split. Qed.
Print Assumptions C80_members.

(** The product of the dimensions is a ptrdiff_t. *)
Definition size_fits (s : sparsity) : Prop := fits Long (Z.of_nat (source_rows s) * Z.of_nat (source_cols s)).

Lemma chk_fits t z : fits t z -> chk t z = Ok z.
Proof. intros [A B]. unfold chk, fitsb. now rewrite (proj2 (Z.leb_le _ _) A), (proj2 (Z.ltb_lt _ _) B). Qed.

(** get_nnz is the number of values that belong to the pattern; for sparse and
    unsymmetric dense patterns one per entry. *)
Theorem C80_nnz (dbg : bool) (s : sparsity) : source_ok s -> (is_dense s = true -> size_fits s) ->
  get_nnz dbg s = Ok (Z.of_nat (source_size s)) /\
  (is_dense s = false \/ get_symmetry s = Unsymmetric -> source_size s = length (source_entries s)).
Proof.
  intros Hs Hd. destruct s as [d|ti ts p|ti p]; cbn [get_nnz source_size source_entries is_dense get_symmetry] in *.
  - rewrite chk_fits by (apply Hd; reflexivity). rewrite <- Nat2Z.inj_mul. split; [reflexivity|]. intros [H|H]; [discriminate H|].
    unfold dense_entries. rewrite H. clear. assert (K : forall n k, length (flat_map (fun c => map (fun r => (Z.of_nat r, Z.of_nat c)) (seq 0 (d_rows d))) (seq k n)) = (d_rows d * n)%nat).
    { induction n as [|n IH]; intros k; cbn [seq flat_map length]; [lia|]. rewrite app_length, map_length, seq_length, IH. lia. }
    now rewrite K.
  - destruct Hs as [Hv _]. rewrite nnz_ok by exact Hv. cbn [bind]. split; [reflexivity|]. intros _. symmetry. now apply entries_length.
  - destruct Hs as [[Hl Hv] _]. unfold coo_nnz. rewrite Hl, Nat.eqb_refl. cbn [assert bind]. split; [reflexivity|]. intros _.
    unfold coo_entries. rewrite combine_length, !map_length, Hl. lia.
Qed.
Print Assumptions C80_nnz.

(** A symmetric dense matrix counts all its elements, although only the
    n (n + 1) / 2 elements of the upper triangle become entries of a sparse result. *)
Theorem C80_symmetric_dense (dbg : bool) (n : nat) : fits Long (Z.of_nat n * Z.of_nat n) ->
  let s := SpDense (Dense n n Upper) in
  get_nnz dbg s = Ok (Z.of_nat (n * n)) /\ length (source_entries s) = (n * (n + 1) / 2)%nat /\
  ((2 <= n)%nat -> length (source_entries s) <> (n * n)%nat).
Proof.
  intros H s. assert (L : length (source_entries s) = (n * (n + 1) / 2)%nat).
  { cbn [s source_entries]. rewrite dense_length; reflexivity. }
  split; [|split; [exact L|]].
  - unfold s. cbn [get_nnz d_rows d_cols]. now rewrite chk_fits, <- Nat2Z.inj_mul by exact H.
  - intros Hn. rewrite L. pose proof (Nat.div_mod_eq (n * (n + 1)) 2). nia.
Qed.
Print Assumptions C80_symmetric_dense.

Lemma classic_dense (s : sparsity) : (exists d, s = SpDense d) \/ forall d, s <> SpDense d.
Proof. destruct s; [left; eauto|right; discriminate..]. Qed.

(** After a conversion that the properties C32-C40 promise: get_nnz of the result
    is the number of values convert_values delivers: one per entry of the source
    for a sparse result, all elements for a dense one. *)
Theorem C80_result_nnz {V} (zero : V) (dbg : bool) (srt : sorter) (s : sparsity) (to : target) (c : conv) (r : sparsity) :
  good_sorter srt ->
  source_ok s -> supported s to -> indices_fit s to -> no_duplicates dbg s to -> request_ok dbg s to ->
  (to = ToDense -> size_fits s) ->
  construct dbg srt s to = Ok c -> result_sparsity to c = Some r ->
  get_nnz dbg r = Ok (Z.of_nat (match to with ToDense => source_rows s * source_cols s | _ => length (source_entries s) end)) /\
  forall ws vals work res w, work_size dbg c = Ok ws -> length vals = source_size s -> length work = ws ->
    convert_values dbg zero c vals work = Ok (res, w) ->
    get_nnz dbg r = Ok (Z.of_nat (length (values_out res vals w))).
Proof.
  intros Hsrt Hs Hsup Hf Hn Hr Hsz E R. destruct to as [|ti f|ti ts o].
  - destruct (C80_shape dbg srt s ToDense c E) as (r' & R' & S1 & S2 & S3 & D & _). rewrite R in R'. injection R' as <-.
    assert (Hd : is_dense r = true) by (now apply D). destruct r as [d| |]; try discriminate Hd. cbn [num_rows num_cols] in *.
    assert (G : get_nnz dbg (SpDense d) = Ok (Z.of_nat (source_rows s * source_cols s))).
    { cbn [get_nnz]. specialize (Hsz eq_refl). unfold size_fits in Hsz. rewrite S1, S2. change (num_rows s) with (source_rows s). change (num_cols s) with (source_cols s).
      now rewrite chk_fits, <- Nat2Z.inj_mul by exact Hsz. }
    split; [exact G|]. intros ws vals work res w Hw Hv Hl Ec. rewrite G. f_equal. f_equal.
    destruct (classic_dense s) as [(d0 & ->)|Nd].
    + cbn [construct] in E. unfold dense_dense in E. destruct (sym_nonsquare _ _ _); [discriminate E|]. injection E as <-.
      unfold convert_values in Ec. cbn [nnz_from bind] in Ec. cbn [source_size] in Hv. rewrite Hv, Nat.eqb_refl in Ec. cbn [assert bind] in Ec. injection Ec as <- <-. cbn. now rewrite Hv.
    + destruct (to_dense zero dbg srt s Hs Nd Hf (match s as s0 return (no_duplicates dbg s0 ToDense -> (forall d, s0 <> SpDense d) -> NoDup (source_entries s0)) with SpDense d0 => fun _ N => False_ind _ (N d0 eq_refl) | SpCsc _ _ _ => fun h _ => h | SpCoo _ _ => fun h _ => h end Hn Nd) Hsup) as (c' & E' & _ & _ & W & C).
      rewrite E in E'. injection E' as <-. rewrite W in Hw. injection Hw as <-.
      destruct (C vals work Hv Hl) as [C1 C2].
      assert (Dc : Forall (fun e => ~ wrong_side (source_sym s) e) (source_entries s) \/ Exists (wrong_side (source_sym s)) (source_entries s)).
      { generalize (source_entries s) as l. induction l as [|e l [IH|IH]]; [now left| |right; now constructor 2].
        destruct (wrong_side_dec (source_sym s) e); [right; now constructor|left; now constructor]. }
      destruct Dc as [Dc|Dc]; [|rewrite (C2 Dc) in Ec; discriminate Ec].
      destruct (C1 Dc) as (w' & Ew & Hw' & _). rewrite Ew in Ec. injection Ec as <- <-. cbn. now rewrite Hw'.
  - destruct (coo_result zero dbg srt s ti f Hs Hsup Hf Hn) as (c' & t & E' & Rt & _ & _ & _ & _ & Vt & Tt & A & B). rewrite E in E'. injection E' as <-.
    cbn [result_sparsity] in R. rewrite Rt in R. injection R as <-.
    assert (G : get_nnz dbg (SpCoo ti t) = Ok (Z.of_nat (length (source_entries s)))).
    { destruct (C80_nnz dbg (SpCoo ti t)) as [G G2]; [cbn; auto|discriminate|]. rewrite G. rewrite G2 by (now left). cbn [source_entries]. now rewrite A. }
    split; [exact G|]. intros ws vals work res w Hw Hv Hl Ec. rewrite G. destruct B as (_ & ws' & W & B). rewrite W in Hw. injection Hw as <-.
    destruct (B vals work Hv Hl) as (r' & w' & E' & L & _). rewrite Ec in E'. injection E' as <- <-. now rewrite L, A.
  - destruct (csc_result zero dbg srt Hsrt s ti ts o Hs Hsup Hf Hn Hr) as (c' & t & E' & Rt & _ & _ & _ & (Vt & Lt) & Tt & _ & B). rewrite E in E'. injection E' as <-.
    cbn [result_sparsity] in R. rewrite Rt in R. injection R as <-.
    assert (G : get_nnz dbg (SpCsc ti ts t) = Ok (Z.of_nat (length (source_entries s)))).
    { cbn [get_nnz]. rewrite nnz_ok by exact Vt. cbn [bind]. now rewrite Lt. }
    split; [exact G|]. intros ws vals work res w Hw Hv Hl Ec. rewrite G. destruct B as (_ & ws' & W & B). rewrite W in Hw. injection Hw as <-.
    destruct (B vals work Hv Hl) as (r' & w' & E' & L & _). rewrite Ec in E'. injection E' as <- <-. now rewrite L, (entries_length t Vt), Lt.
Qed.
Print Assumptions C80_result_nnz.

(** A converter wants as many values as get_nnz says for its source. *)
Theorem C80_wanted (dbg : bool) (srt : sorter) (s : sparsity) (to : target) (c : conv) : good_sorter srt ->
  source_ok s -> supported s to -> indices_fit s to -> no_duplicates dbg s to -> request_ok dbg s to ->
  (to = ToDense -> Forall (fun e => ~ wrong_side (source_sym s) e) (source_entries s) \/ exists d, s = SpDense d) ->
  (is_dense s = true -> size_fits s) ->
  construct dbg srt s to = Ok c ->
  exists n, nnz_from dbg c = Ok n /\ get_nnz dbg s = Ok (Z.of_nat n).
Proof.
  intros Hsrt Hs Hsup Hf Hn Hr Hw Hd E. destruct (every_converts tt dbg srt Hsrt s to Hs Hsup Hf Hn Hr Hw) as (c' & ws & out & E' & N & _).
  rewrite E in E'. injection E' as <-. exists (source_size s). split; [exact N|]. now apply C80_nnz.
Qed.
Print Assumptions C80_wanted.

(** With assertions, get_nnz only answers for patterns whose arrays agree in size;
    without, it always answers (unless the product overflows). *)
Theorem C80_checked (s : sparsity) :
  (forall n, get_nnz true s = Ok n ->
     match s with
     | SpDense _ => True
     | SpCsc _ _ p => length (c_outer p) = S (c_cols p) /\ nth (c_cols p) (c_outer p) 0%Z = Z.of_nat (length (c_inner p)) /\ n = Z.of_nat (length (c_inner p))
     | SpCoo _ p => length (o_col p) = length (o_row p) /\ n = Z.of_nat (length (o_row p))
     end) /\
  (is_dense s = false -> exists n, get_nnz false s = Ok n).
Proof.
  split.
  - intros n H. destruct s as [d|ti ts p|ti p]; cbn [get_nnz] in H; [exact I| |].
    + unfold csc_nnz in H. destruct (Nat.eqb_spec (length (c_outer p)) (c_cols p + 1)) as [L|L]; cbn [assert bind] in H; [|discriminate H].
      rewrite Nat.add_1_r in L. split; [exact L|].
      destruct (rev (c_outer p)) as [|z l] eqn:Er; [cbn [bind] in H; discriminate H|].
      destruct (Z.eqb_spec z (Z.of_nat (length (c_inner p)))) as [Ez|Ez]; cbn [assert bind] in H; [|discriminate H].
      injection H as <-. split; [|reflexivity].
      assert (Ec : c_outer p = rev l ++ [z]) by (rewrite <- (rev_involutive (c_outer p)), Er; reflexivity).
      rewrite Ec in *. rewrite app_length in L. cbn in L. rewrite app_nth2 by lia. replace (c_cols p - length (rev l))%nat with 0%nat by lia. exact Ez.
    + unfold coo_nnz in H. destruct (Nat.eqb_spec (length (o_row p)) (length (o_col p))) as [L|L]; cbn [assert bind] in H; [|discriminate H].
      injection H as <-. auto.
  - intros Hd. destruct s as [d|ti ts p|ti p]; [discriminate Hd| |]; cbn [get_nnz].
    + unfold csc_nnz. destruct (Nat.eqb _ _); cbn [assert bind]; (destruct (rev (c_outer p)); cbn [bind]; [eauto|]); destruct (Z.eqb _ _); cbn [assert bind]; eauto.
    + unfold coo_nnz. destruct (Nat.eqb _ _); cbn [assert bind]; eauto.
Qed.
Print Assumptions C80_checked.

(** A 3x2 pattern with three entries. *)
Example C80_example :
  let p := Csc 3 2 Unsymmetric [0; 2; 1]%Z [0; 2; 3]%Z SortedRows in
  source_ok (SpCsc Int Int p) /\ get_nnz true (SpCsc Int Int p) = Ok 3%Z /\ num_rows (SpCsc Int Int p) = 3%nat.
Proof.
  cbv zeta. split; [|split; reflexivity]. split.
  - split; [reflexivity|]. split; [reflexivity|]. split; [|split; [reflexivity|]].
    + intros [|[|c]] Hc; cbn in *; lia.
    + repeat (constructor; [unfold in_bounds; cbn; lia|]). constructor.
  - cbn. intros [|[|c]] Hc; [|repeat constructor|cbn in Hc; lia]. cbn. repeat constructor. lia.
Qed.
(** An invalid one that a release build accepts. *)
Example C80_invalid :
  let p := Coo 3 3 Unsymmetric [0; 1]%Z [2]%Z Unsorted 0%Z in
  get_nnz true (SpCoo Int p) = Abort /\ get_nnz false (SpCoo Int p) = Ok 2%Z.
Proof. split; reflexivity. Qed.
Example C80_symmetric : fits Long (Z.of_nat 3 * Z.of_nat 3).
Proof. unfold fits. cbn. lia. Qed.
