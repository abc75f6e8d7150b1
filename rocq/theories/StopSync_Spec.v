(** Synchronisation and data races in the C++ memory model. *)
From Verif Require Import Base StopSync_Model.
From Coq Require Import Relation_Operators.
Section Spec.
Context (x : execution).
Definition program_order (e e' : nat) : Prop :=
  exists t a a', e < e' /\ nth_error (actions x) e = Some (t, a) /\ nth_error (actions x) e' = Some (t, a').
(** A release store synchronises with the acquire loads that read from it. *)
Definition synchronizes (e e' : nat) : Prop :=
  exists a a' o o', act_of x e = Some a /\ act_of x e' = Some a' /\ store_order a = Some o /\ load_order a' = Some o' /\
    reads x e' = Some e /\ releases o = true /\ acquires o' = true.
Definition happens_before : nat -> nat -> Prop := clos_trans nat (fun e e' => program_order e e' \/ synchronizes e e' \/ other x e e').
(** Without the signals *)
Definition ordered_otherwise : nat -> nat -> Prop := clos_trans nat (fun e e' => program_order e e' \/ other x e e').
(** Loads return what they read; a stop() that happened before is seen; nothing is read from the future. *)
Record consistent : Prop := {
  result_true : forall e s b k, act_of x e = Some (Requested s b) -> reads x e = Some k -> b = true /\ act_of x k = Some (Stop s) /\ ~ happens_before e k;
  result_false : forall e s b, act_of x e = Some (Requested s b) -> reads x e = None -> b = false /\ forall k, act_of x k = Some (Stop s) -> ~ happens_before k e;
  acyclic : forall e, ~ happens_before e e;
}.
Definition race (e e' : nat) : Prop :=
  exists d, act_of x e = Some (Write d) /\ (act_of x e' = Some (Read d) \/ act_of x e' = Some (Write d)) /\
    ~ happens_before e e' /\ ~ happens_before e' e.
End Spec.
