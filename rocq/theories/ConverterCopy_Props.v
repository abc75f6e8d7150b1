(** C67: copying and moving sparsity converters. *)
From Verif Require Import Base ConverterCopy_Spec ConverterCopy_Model ConverterCopy_Proofs ConverterCopy_Loan.
Local Arguments Nat.eqb : simpl never.

(** Every read yields what the value semantics says. *)
Definition behaves (ext : nat -> list Z) (ops : list op) : Prop :=
  run ext start ops = map (option_map Ok) (spec_run ext (fun _ => Free) ops).

(** ** C67 *)
(** Any history of constructing, moving, move-assigning and destroying converters. *)
Theorem C67_moving_partial (ext : nat -> list Z) (ops : list op) : Forall no_copy ops -> behaves ext ops.
Proof. intros H. apply run_ok; [apply start_inv|right; split; [exact H|apply start_separate]]. Qed.
(** Copies behave like values as long as no converter is destroyed or overwritten. *)
Theorem C67_copies_while_sources_live_partial (ext : nat -> list Z) (ops : list op) : Forall keeps ops -> behaves ext ops.
Proof. intros H. apply run_ok; [apply start_inv|left; exact H]. Qed.
(** In general they do not: the copy points into the destroyed source. *)
Theorem C67_copy_outlives_source_refuted : exists (ops : list op),
  ops = [Make 0 [[0; 1]%Z; [0; 1; 2]%Z] []; CopyTo 1 0; Destroy 0; Read 1] /\
  spec_run (fun _ => []) (fun _ => Free) ops = [None; None; None; Some [[0; 1]%Z; [0; 1; 2]%Z]] /\
  run (fun _ => []) start ops = [None; None; None; Some UB] /\ ~ behaves (fun _ => []) ops.
Proof. eexists. split; [reflexivity|]. split; [reflexivity|]. split; [reflexivity|]. intros H. vm_compute in H. discriminate. Qed.
(** Exactly: in every history, a read gives the arrays of the value semantics if the
    pattern has no arrays of its own or the store that the converter reads still exists,
    and is undefined otherwise. *)
Theorem C67_exact (ext : nat -> list Z) (ops : list op) :
  run ext start ops = map (option_map as_outcome) (loan_run ext no_loans ops).
Proof. exact (loan_run_ok ext ops start no_loans _ _ (start_linv ext)). Qed.
(** The book-keeping only adds the undefined reads: forgetting it gives the value semantics. *)
Definition forget (v : lvar) : var := match v with LFree => Free | LMoved => MovedFrom | LValue a _ _ _ => Value a end.
Definition same_or_undefined (r : option (option (list (list Z)))) (r' : option (list (list Z))) : Prop :=
  match r, r' with Some (Some v), Some v' => v = v' | Some None, Some _ => True | None, None => True | _, _ => False end.
Theorem C67_never_wrong_values (ext : nat -> list Z) (ops : list op) :
  Forall2 same_or_undefined (loan_run ext no_loans ops) (spec_run ext (fun _ => Free) ops).
Proof.
  assert (G : forall ops l m, (forall i, forget (lvars l i) = m i) ->
              Forall2 same_or_undefined (loan_run ext l ops) (spec_run ext m ops)).
  { clear ops. induction ops as [|o ops IH]; intros l m Hm; [constructor|]. cbn [loan_run spec_run].
    assert (K : same_or_undefined (snd (loan_step ext l o)) (snd (spec_step ext m o)) /\
                forall i, forget (lvars (fst (loan_step ext l o)) i) = fst (spec_step ext m o) i).
    { destruct o as [i own e|i j|i j|i j|i|i]; cbn [loan_step spec_step]; rewrite <- ?(Hm i), <- ?(Hm j);
        destruct (lvars l i) eqn:Ei; try destruct (lvars l j) eqn:Ej; cbn [forget]; try destruct (Nat.eqb i j);
        cbn [fst snd same_or_undefined lvars]; (split; [try exact I|try exact Hm; intros k; unfold set; repeat destruct (Nat.eqb k _); try reflexivity; apply Hm]).
      destruct computed; [destruct (alive l reads)|]; reflexivity || exact I. }
    destruct (loan_step ext l o) as [l' r], (spec_step ext m o) as [m' r']. cbn [fst snd] in K. destruct K as [K1 K2].
    constructor; [exact K1|apply IH; exact K2]. }
  apply G. reflexivity.
Qed.
Print Assumptions C67_exact.
Print Assumptions C67_never_wrong_values.
Print Assumptions C67_moving_partial.
Print Assumptions C67_copies_while_sources_live_partial.
Print Assumptions C67_copy_outlives_source_refuted.

(** A converter whose inner indices are new and whose outer pointers are reused,
    moved twice, and read. *)
Example C67_nontrivial :
  let ops := [Make 0 [[2; 0]%Z] [5]; MoveTo 1 0; Make 2 [[7]%Z] []; MoveAssign 2 1; Destroy 0; Destroy 1; Read 2; Destroy 2] in
  Forall no_copy ops /\
  run (fun n => [Z.of_nat n]) start ops = [None; None; None; None; None; None; Some (Ok [[2; 0]; [5]]%Z); None].
Proof. cbn. split; [repeat constructor|reflexivity]. Qed.
(** A copy of a copy reads the first converter's store: fine while that one lives (also
    after it was moved), undefined afterwards. *)
Example C67_loan_example :
  let ops := [Make 0 [[2; 0]%Z] []; CopyTo 1 0; CopyTo 2 1; Destroy 1; MoveTo 3 0; Destroy 0; Read 2; Destroy 3; Read 2] in
  loan_run (fun _ => []) no_loans ops = [None; None; None; None; None; None; Some (Some [[2; 0]%Z]); None; Some None] /\
  run (fun _ => []) start ops = [None; None; None; None; None; None; Some (Ok [[2; 0]%Z]); None; Some UB].
Proof. split; reflexivity. Qed.
