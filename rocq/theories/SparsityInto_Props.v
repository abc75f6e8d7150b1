(** C41: what convert_values_into does for results of every size. *)
From Verif Require Import Base Sparsity_Spec Sparsity_Model Sparsity_Base Sparsity_Csc Sparsity_Conv Sparsity_All Sparsity_Into Sparsity_Props SparsityMore_Props.
Local Open Scope outcome_scope.
Local Arguments Nat.eqb : simpl never.
Local Arguments Nat.leb : simpl never.
Local Arguments Nat.ltb : simpl never.

Section Exact.
Context {V : Type} (zero : V) (srt : sorter) (Hsrt : good_sorter srt).

Lemma assert_false_abort : assert true false = Abort. Proof. reflexivity. Qed.
Lemma wrong_from c n (from work : list V) : nnz_from true c = Ok n -> length from <> n -> convert_values true zero c from work = Abort.
Proof.
  intros H N. unfold convert_values. rewrite H. cbn [bind]. rewrite (proj2 (Nat.eqb_neq _ _) N). cbn [assert].
  destruct c; reflexivity.
Qed.
Definition in_place (c : conv) : bool := match c with DenseDense _ | CscCoo _ | CooCoo _ => true | _ => false end.
Lemma wrong_work c n ws (from work : list V) : nnz_from true c = Ok n -> work_size true c = Ok ws -> length from = n -> length work <> ws ->
  convert_values true zero c from work = if in_place c then Ok (RFrom, work) else Abort.
Proof.
  intros H W L N. unfold convert_values. rewrite H, W. cbn [bind]. rewrite (proj2 (Nat.eqb_eq _ _) L), (proj2 (Nat.eqb_neq _ _) N). cbn [assert bind].
  destruct c; reflexivity.
Qed.
Lemma in_place_ws c dbg : in_place c = true -> work_size dbg c = Ok 0.
Proof. destruct c; (reflexivity || discriminate). Qed.
Lemma out_length dbg c n ws out vals : converts zero dbg c n ws out -> length vals = n -> ws = 0 -> length (out vals) = n.
Proof.
  intros (_ & _ & H3) L ->. destruct (H3 vals [] L eq_refl) as (r & w & _ & E2 & E3 & _ & E5 & E6).
  rewrite <- E2. destruct (E5 eq_refl) as [->| ->]; [exact L|]. destruct r; cbn [values_out]; [exact L|exact E3|reflexivity].
Qed.
Lemma out_length_ws dbg c n ws out vals : converts zero dbg c n ws out -> length vals = n -> ws <> 0 -> length (out vals) = ws.
Proof.
  intros (_ & _ & H3) L N. destruct (H3 vals (repeat zero ws) L (repeat_length _ _)) as (r & w & _ & E2 & E3 & E4 & _).
  rewrite <- E2. destruct ws; [now elim N|]. rewrite E4. exact E3.
Qed.

Lemma into_wrong_size c n ws out rnull result eval work : converts zero true c n ws out -> length (eval n) = n ->
  length result <> length (out (eval n)) -> convert_values_into true zero c rnull result eval work = Abort.
Proof.
  intros C L N. pose proof C as (H1 & H2 & H3). unfold convert_values_into. rewrite H1, H2. cbn [bind].
  destruct (Nat.eqb_spec ws 0) as [E0|N0]; cbn [andb].
  - rewrite (out_length _ _ _ _ _ _ C L E0) in N.
    destruct (Nat.leb_spec n (length result)) as [Le|Lt].
    + rewrite (wrong_from c n); auto. unfold store_first. rewrite app_length, skipn_length. lia.
    + assert (Es : store_first (resize zero work n) (eval n) = eval n) by (apply store_all; rewrite resize_length; auto).
      rewrite Es. assert (A : assert true (rnull && Nat.eqb (length (eval n)) 0) = Abort).
      { rewrite L, (proj2 (Nat.eqb_neq n 0)) by lia. rewrite andb_false_r. reflexivity. }
      destruct (Nat.eq_dec (length result) 0) as [Z0|NZ].
      * destruct (H3 (eval n) result L ltac:(lia)) as (r & w & F & _ & _ & _ & F5 & _). rewrite F. cbn [bind].
        destruct (F5 E0) as [->|]; [|lia]. rewrite A. reflexivity.
      * rewrite (wrong_work c n ws); auto; [|lia]. destruct (in_place c); [|reflexivity]. cbn [bind]. rewrite A. reflexivity.
  - rewrite (out_length_ws _ _ _ _ _ _ C L N0) in N.
    assert (Es : store_first (resize zero work n) (eval n) = eval n) by (apply store_all; rewrite resize_length; auto).
    rewrite Es, (wrong_work c n ws); auto. destruct (in_place c) eqn:Ip; [|reflexivity].
    rewrite (in_place_ws c true Ip) in H2. injection H2 as <-. now elim N0.
Qed.

(** Debug builds: a call is right if and only if the result has the size of the converted values; with any other size an
    assertion fails. (An empty result must have a null pointer: C41_empty_result_refuted.) *)
Theorem C41_exact :
  forall (s : sparsity) (to : target),
  source_ok s -> supported s to -> indices_fit s to -> no_duplicates true s to -> request_ok true s to ->
  (to = ToDense -> Forall (fun e => ~ wrong_side (source_sym s) e) (source_entries s) \/ exists d, s = SpDense d) ->
  exists c, construct true srt s to = Ok c /\
  forall rnull (result : list V) (eval : nat -> list V),
    length (eval (source_size s)) = source_size s -> (result = [] -> rnull = true) ->
    exists out, convert_values_copy true zero c (eval (source_size s)) = Ok out /\
      (length result = length out -> exists work, convert_values_into true zero c rnull result eval [] = Ok (out, [source_size s], work)) /\
      (length result <> length out -> forall work, convert_values_into true zero c rnull result eval work = Abort).
Proof.
  intros s to Hs Hsup Hf Hn Hr Hw.
  destruct (every_converts zero true srt Hsrt s to Hs Hsup Hf Hn Hr Hw) as (c & ws & out & E & C).
  exists c. split; [exact E|]. intros rnull result eval L Hnull. exists (out (eval (source_size s))).
  split; [eapply copy_ok; eauto|]. split.
  - intros Lr. destruct (into_ok zero true c _ ws out rnull result eval [] C L Lr (fun _ => eq_refl) (fun _ => Hnull)) as (w & Ew & _). eauto.
  - intros N work. now apply (into_wrong_size c (source_size s) ws out).
Qed.

(** Release builds, converters that need no workspace: a result that is too small is left as it was, and a larger one gets
    the values in its first elements. *)
Theorem C41_release_wrong_size_refuted :
  forall (s : sparsity) (to : target),
  source_ok s -> supported s to -> indices_fit s to -> no_duplicates false s to -> request_ok false s to ->
  (to = ToDense -> Forall (fun e => ~ wrong_side (source_sym s) e) (source_entries s) \/ exists d, s = SpDense d) ->
  exists c, construct false srt s to = Ok c /\
  (in_place c = true ->
   forall rnull (result : list V) (eval : nat -> list V), length (eval (source_size s)) = source_size s ->
    convert_values_copy false zero c (eval (source_size s)) = Ok (eval (source_size s)) /\
    (length result < source_size s -> exists work, convert_values_into false zero c rnull result eval [] = Ok (result, [source_size s], work)) /\
    (source_size s <= length result ->
       exists work, convert_values_into false zero c rnull result eval [] = Ok (eval (source_size s) ++ skipn (source_size s) result, [source_size s], work))).
Proof.
  intros s to Hs Hsup Hf Hn Hr Hw.
  destruct (every_converts zero false srt Hsrt s to Hs Hsup Hf Hn Hr Hw) as (c & ws & out & E & C).
  exists c. split; [exact E|]. intros Ip rnull result eval L.
  pose proof C as (H1 & H2 & H3).
  assert (Kc : forall from work : list V, convert_values false zero c from work = Ok (RFrom, work)).
  { intros from work. unfold convert_values. rewrite H1. cbn [bind]. destruct c; try discriminate Ip; unfold assert; now destruct (Nat.eqb _ _). }
  split; [|split].
  - unfold convert_values_copy. rewrite H2. cbn [bind]. now rewrite Kc.
  - intros Lt. unfold convert_values_into. rewrite H1, (in_place_ws c false Ip). cbn [bind]. rewrite Nat.eqb_refl.
    rewrite (proj2 (Nat.leb_gt _ _) Lt). cbn [andb]. rewrite Kc. cbn [bind].
    eexists. unfold assert. destruct (rnull && _); reflexivity.
  - intros Le. unfold convert_values_into. rewrite H1, (in_place_ws c false Ip). cbn [bind]. rewrite Nat.eqb_refl.
    rewrite (proj2 (Nat.leb_le _ _) Le). cbn [andb]. rewrite Kc. cbn [bind assert]. unfold store_first. rewrite L. eexists. reflexivity.
Qed.
End Exact.
Print Assumptions C41_exact.
Print Assumptions C41_release_wrong_size_refuted.

Example C41_exact_nonvacuous :
  let s := SpCsc Int Int (Csc 2 2 Unsymmetric [0; 0; 1]%Z [0; 1; 3]%Z CscUnsorted) in
  let c := CscCoo (Coo 2 2 Unsymmetric [0; 0; 1]%Z [0; 1; 1]%Z SortedByColsOnly 0) in
  construct false isort s (ToCoo Int None) = Ok c /\ in_place c = true /\
  convert_values_into false 0%Z c false [9; 9]%Z (fun n => repeat 5%Z n) [] = Ok ([9; 9]%Z, [3], [5; 5; 5]%Z) /\
  convert_values_into true 0%Z c false [9; 9]%Z (fun n => repeat 5%Z n) [] = Abort.
Proof. vm_compute. repeat split. Qed.
