(** C58: copyable_unique_ptr. *)
From Verif Require Import Base CopyPtr_Model CopyPtr_Spec CopyPtr_Proofs.
Local Open Scope outcome_scope.

(** The value a program sees through variable [i]: nothing for a dead variable,
    null, or the pointee. *)
Definition observe {V} (w : world V) (i : nat) : outcome (option (option V)) :=
  match live w i with
  | None => Ok None
  | Some None => Ok (Some None)
  | Some (Some a) => v <- deref (heap w) a ;; Ok (Some (Some v))
  end.

(** After every history (including copies that throw) the program has had no
    undefined behaviour (no double delete, no use after delete), every variable
    shows the value it has in the pointer-free semantics [vrun] (so copies are
    equal, independent and self-assignment keeps the value), no two variables
    share a pointee, and a pointee has been deleted (once) exactly when no
    variable owns it (no leaks). *)
Theorem C58_deep_copy :
  forall (V : Type) (os : list (op V)),
  exists w, run os empty_world = Ok w /\
    (forall i, observe w i = Ok (vlive (vrun os) i)) /\
    (forall i j a, live w i = Some (Some a) -> live w j = Some (Some a) -> i = j) /\
    (forall a c, nth_error (heap w) a = Some c -> (deleted c = false <-> exists i, live w i = Some (Some a))).
Proof. exact @copyptr_main. Qed.
Print Assumptions C58_deep_copy.

Example C58_nonvacuous :
  let os := [Make 5; CopyCtor 0 false; SetVal 1 7; CopyAssign 0 0 false; Default; CopyAssign 2 1 true;
             CopyAssign 2 1 false; MoveAssign 0 0; MoveAssign 1 0] in
  vrun os = [Some None; Some (Some 5); Some (Some 7)] /\
  exists w, run os empty_world = Ok w /\ observe w 1 = Ok (Some (Some 5)) /\ observe w 2 = Ok (Some (Some 7)) /\
    length (filter (fun c => negb (deleted c)) (heap w)) = 2.
Proof. cbn zeta. split; [reflexivity|]. eexists; repeat split. Qed.
