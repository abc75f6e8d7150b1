(** C67: copy assignment of sparsity converters. *)
From Verif Require Import Base ConverterCopy_Spec ConverterAssign_Spec ConverterAssign_Model ConverterAssign_Proofs.

(** Converters are values, copy assignment included, if those that copies are made of are left alone. *)
Theorem C67_assignment_partial : forall (ext : nat -> list Z) (S : nat -> bool) (ops : list aop), Forall (disciplined S) ops ->
  run ext start ops = map (option_map (@Ok _)) (aspec_run ext (fun _ => Free) ops).
Proof. intros ext S ops F. apply (run_inv ext S); [apply start_inv|exact F]. Qed.
Print Assumptions C67_assignment_partial.

(** Otherwise they are not, and while without copy assignment reads could only be undefined (C67_never_wrong_values), now they can be wrong: assigning to the source of
    a copy changes what the copy reads. A shorter pattern leaves a mixture of old and new indices; a longer one takes the storage away. *)
Theorem C67_assignment_mixes_refuted : forall (ext : nat -> list Z) (a b : list Z),
  run ext start [Op (Make 0 [a] []); Op (CopyTo 1 0); Op (Make 2 [b] []); CopyAssign 0 2; Op (Read 1)] =
  [None; None; None; None; Some (if Nat.leb (length b) (length a) then Ok [b ++ skipn (length b) a] else UB)].
Proof.
  intros ext a b. cbn -[firstn skipn Nat.leb]. rewrite !firstn_all. destruct (Nat.leb (length b) (length a)) eqn:E; [|reflexivity].
  cbn -[firstn skipn Nat.leb]. apply Nat.leb_le in E. rewrite app_length, skipn_length. rewrite (proj2 (Nat.leb_le _ _)) by lia. rewrite firstn_all2 by (rewrite app_length, skipn_length; lia). reflexivity.
Qed.
Print Assumptions C67_assignment_mixes_refuted.
(** With a pattern of the same size the copy reads the assigned pattern. *)
Theorem C67_assignment_changes_copies_refuted : forall (ext : nat -> list Z) (a b : list Z), length a = length b ->
  let ops := [Op (Make 0 [a] []); Op (CopyTo 1 0); Op (Make 2 [b] []); CopyAssign 0 2; Op (Read 1)] in
  aspec_run ext (fun _ => Free) ops = [None; None; None; None; Some [a]] /\
  run ext start ops = [None; None; None; None; Some (Ok [b])].
Proof.
  intros ext a b L ops. split; [reflexivity|]. unfold ops. rewrite C67_assignment_mixes_refuted. rewrite L, Nat.leb_refl. rewrite skipn_all2 by lia. now rewrite app_nil_r.
Qed.
Print Assumptions C67_assignment_changes_copies_refuted.
Example C67_assignment_nonvacuous :
  let S := fun i => Nat.eqb i 0 in
  let ops := [Op (Make 0 [[1; 2]%Z] [5]); Op (Make 1 [[3]%Z] [6]); CopyAssign 1 0; Op (Read 1); Op (Destroy 1); Op (Read 0)] in
  Forall (disciplined S) ops /\ aspec_run (fun _ => []) (fun _ => Free) ops = [None; None; None; Some [[1; 2]; []]; None; Some [[1; 2]; []]]%Z.
Proof. cbv zeta. split; [repeat (constructor; [cbn; auto|]); constructor|reflexivity]. Qed.
