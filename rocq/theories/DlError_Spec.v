(** What a user of load_lib and load_func is told. Independent of how the texts are put
    together in dl.cpp. *)
From Verif Require Import Base Bytes DlError_Model.
Local Open Scope Z_scope.

(** No byte of a name or text is null. *)
Definition plain (s : list Z) : Prop := ~ In 0 s.
(** Nothing fails to be allocated. *)
Definition enough_memory (E : env) : Prop := forall p, fails E p = false.
(** The text of the system for an error code. *)
Definition explanation (E : env) (c : Z) : list Z :=
  match sysmsg E c with Some t => t | None => bytes "(failed to get error message)" end.
(** The message buffers that are still allocated. *)
Definition live (s : machine) (i : nat) : Prop := exists t, nth_error (heap s) i = Some (Some t).
(** The same libraries are loaded and the same message buffers are allocated. *)
Definition nothing_leaked (s s' : machine) : Prop :=
  (forall l, refs s' l = refs s l) /\ (forall i, live s' i <-> live s i).
(** One more reference to library l. *)
Definition one_more (l : nat) (s s' : machine) : Prop :=
  (forall k, refs s' k = (refs s k + (if Nat.eqb k l then 1 else 0))%nat) /\ (forall i, live s' i <-> live s i).
(** what() of the exception: a C string. *)
Definition what (e : thrown) : option (list Z) := match e with LoadError t => Some (cstr t) | _ => None end.
