(** C92: sparsity conversions in builds without std::views::zip. *)
From Verif Require Import Base Sparsity_Spec Sparsity_Model Sparsity20_Model Sparsity_Base Sparsity_All Sparsity_Into Sparsity_Props SparsityMore_Props.
Local Open Scope outcome_scope.

(** ** Specification: when the requested result needs the entries in another order. *)
Definition needs_sorting (s : sparsity) (to : target) : Prop :=
  match s, to with
  | SpCoo _ p, ToCsc _ _ (Some SortedRows) => o_order p <> SortedByColsAndRows
  | SpCoo _ p, ToCsc _ _ _ => o_order p <> SortedByColsAndRows /\ o_order p <> SortedByColsOnly
  | SpCsc _ _ p, ToCsc _ _ (Some SortedRows) => c_order p = CscUnsorted
  | _, _ => False
  end.

(** Whatever the pattern, valid or not: sorting is refused with the exception. *)
Theorem C92_sorting_throws dbg (s : sparsity) (to : target) :
  needs_sorting s to -> construct20 dbg s to = Throw logic_error.
Proof.
  destruct s as [d|tif tsf p|tf p], to as [|ti f|ti ts [[|]|]]; cbn [needs_sorting construct20]; try (now intros []).
  - intros H. unfold csc_csc20. now rewrite H.
  - intros [H1 H2]. unfold coo_csc20. destruct (o_order p); congruence || reflexivity.
  - intros H1. unfold coo_csc20. destruct (o_order p); congruence || reflexivity.
  - intros [H1 H2]. unfold coo_csc20. destruct (o_order p); congruence || reflexivity.
Qed.
Print Assumptions C92_sorting_throws.

Lemma coo_csc_unsorted dbg srt tf ti ts o p : ~ needs_sorting (SpCoo tf p) (ToCsc ti ts o) ->
  coo_csc20 dbg tf ti ts o p = coo_csc dbg srt tf ti ts o p.
Proof.
  intros H. unfold coo_csc20, coo_csc. cbn [needs_sorting] in H.
  destruct o as [[|]|], (o_order p) eqn:E; try (exfalso; apply H; (split; congruence) || congruence); reflexivity.
Qed.
Lemma csc_csc_unsorted dbg srt tif tsf ti ts o p : ~ needs_sorting (SpCsc tif tsf p) (ToCsc ti ts o) ->
  csc_csc20 dbg tif tsf ti ts o p = csc_csc dbg srt tif tsf ti ts o p.
Proof.
  intros H. unfold csc_csc20, csc_csc. cbn [needs_sorting] in H.
  destruct o as [[|]|], (c_order p) eqn:E; try (exfalso; now apply H); destruct (ity_eqb tif ti), (ity_eqb tsf ts); reflexivity.
Qed.

(** Without sorting, such a build constructs what a C++23 build constructs, whatever
    the pattern: only the assertion that there are no duplicate entries is missing,
    so where the other build stops at an assertion this one may go on. *)
Theorem C92_otherwise_the_same srt (s : sparsity) (to : target) :
  ~ needs_sorting s to ->
  construct20 false s to = construct false srt s to /\
  (construct true srt s to <> Abort -> construct20 true s to = construct true srt s to).
Proof.
  intros H. destruct s as [d|tif tsf p|tf p], to as [|ti f|ti ts o]; try (split; reflexivity).
  - cbn [construct20 construct]. unfold csc_coo20, csc_coo. split.
    + destruct (csc_nnz false p) as [n| | |]; try reflexivity. cbn [bind]. destruct (for_ (c_cols p) _ _) as [[[ri ci] l]| | |]; try reflexivity. cbn [bind]. unfold assert. now destruct (check_uniqueness_triplets ri ci).
    + destruct (csc_nnz true p) as [n| | |]; try reflexivity. cbn [bind]. destruct (for_ (c_cols p) _ _) as [[[ri ci] l]| | |]; try reflexivity. cbn [bind]. unfold assert. now destruct (check_uniqueness_triplets ri ci).
  - cbn [construct20 construct]. now rewrite !(csc_csc_unsorted _ srt) by exact H.
  - cbn [construct20 construct]. unfold coo_dense20, coo_dense, assert. destruct (check_uniqueness_triplets _ _); split; try reflexivity. now intros.
  - cbn [construct20 construct]. unfold coo_coo20, coo_coo. split.
    + destruct f as [f|]; [destruct (chk ti _) as [z| | |]; try reflexivity; cbn [bind]|cbn [bind]];
        destruct (if ity_eqb tf ti && _ then _ else _) as [q| | |]; try reflexivity; cbn [bind]; unfold assert; now destruct (check_uniqueness_triplets (o_row q) (o_col q)).
    + destruct f as [f|]; [destruct (chk ti _) as [z| | |]; try reflexivity; cbn [bind]|cbn [bind]];
        destruct (if ity_eqb tf ti && _ then _ else _) as [q| | |]; try reflexivity; cbn [bind]; unfold assert; now destruct (check_uniqueness_triplets (o_row q) (o_col q)).
  - cbn [construct20 construct]. now rewrite !(coo_csc_unsorted _ srt) by exact H.
Qed.
Print Assumptions C92_otherwise_the_same.

(** For the inputs the other build accepts: construction succeeds exactly if no
    sorting is needed, and then the converter is the one of the other build (so
    that everything C32-C43, C65 and C66 say of it holds). *)
Theorem C92_accepted_iff {V} (zero : V) dbg srt (s : sparsity) (to : target) : good_sorter srt ->
  source_ok s -> supported s to -> indices_fit s to -> no_duplicates dbg s to -> request_ok dbg s to ->
  (to = ToDense -> Forall (fun e => ~ wrong_side (source_sym s) e) (source_entries s) \/ exists d, s = SpDense d) ->
  exists c, construct dbg srt s to = Ok c /\
    (construct20 dbg s to = Ok c /\ ~ needs_sorting s to \/ construct20 dbg s to = Throw logic_error /\ needs_sorting s to).
Proof.
  intros Hsrt Hs Hsup Hf Hn Hr Hw. destruct (every_converts zero dbg srt Hsrt s to Hs Hsup Hf Hn Hr Hw) as (c & ws & out & E & _).
  exists c. split; [exact E|].
  assert (D : needs_sorting s to \/ ~ needs_sorting s to).
  { destruct s as [d|tif tsf p|tf p], to as [|ti f|ti ts [[|]|]]; cbn [needs_sorting]; auto.
    - destruct (c_order p); [now left|now right].
    - destruct (o_order p); ((left; split; discriminate) || (right; intros [? ?]; congruence)).
    - destruct (o_order p); ((left; discriminate) || (right; congruence)).
    - destruct (o_order p); ((left; split; discriminate) || (right; intros [? ?]; congruence)). }
  destruct D as [D|D]; [right; split; [now apply C92_sorting_throws|exact D]|left; split; [|exact D]].
  destruct (C92_otherwise_the_same srt s to D) as [A B]. destruct dbg; [rewrite B; [exact E|congruence]|now rewrite A].
Qed.
Print Assumptions C92_accepted_iff.

(** Duplicate entries of a coordinate list are not noticed, not even by builds
    that check assertions: a dense result is constructed where the other build
    aborts, and of two values for one element the last one wins. *)
Theorem C92_duplicates_unnoticed_refuted srt :
  exists s : sparsity, source_ok s /\ supported s ToDense /\ indices_fit s ToDense /\
    construct true srt s ToDense = Abort /\
    exists c, construct20 true s ToDense = Ok c /\ convert_values_copy true 0%Z c [3; 4]%Z = Ok [4; 0]%Z.
Proof.
  exists (SpCoo Int (Coo 1 2 Unsymmetric [0; 0]%Z [0; 0]%Z SortedByColsAndRows 0)).
  split; [|split; [intros H; now elim H|split; [split; cbn; split; reflexivity || discriminate|split; [reflexivity|]]]].
  - split; [split; [reflexivity|]; repeat constructor; cbn; lia|]. repeat constructor; unfold col_major; cbn; lia.
  - eexists. split; [reflexivity|]. reflexivity.
Qed.
Print Assumptions C92_duplicates_unnoticed_refuted.

(** Non-vacuity: both sides of C92_accepted_iff occur. *)
Example C92_refused : needs_sorting (SpCsc Int Int (Csc 2 1 Unsymmetric [1; 0]%Z [0; 2]%Z CscUnsorted)) (ToCsc Int Int (Some SortedRows)) /\
  source_ok (SpCsc Int Int (Csc 2 1 Unsymmetric [1; 0]%Z [0; 2]%Z CscUnsorted)).
Proof.
  split; [reflexivity|]. split; [|exact I]. repeat split; auto; [intros [|c] Hc; cbn in *; lia|repeat constructor; cbn; lia].
Qed.
Example C92_accepted : construct20 true (SpCoo Long (Coo 2 2 Unsymmetric [2; 1]%Z [1; 2]%Z SortedByColsOnly 1)) (ToCsc Int Int None) =
  Ok (CooCsc (Csc 2 2 Unsymmetric [1; 0]%Z [0; 1; 2]%Z CscUnsorted) []).
Proof. reflexivity. Qed.
