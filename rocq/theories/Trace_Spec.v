(** Vocabulary of C50-C52. *)
From Verif Require Import Base Trace_Model.

(** The call has taken a ticket from the counter, since the last reset. *)
Definition ticketed (s : state) (c : call) : bool :=
  match at_ c with Begin => false | _ => Nat.eqb (era c) (resets s) end.
(** ... and the ticket is a slot of the log array. *)
Definition has_slot (s : state) (c : call) : bool := ticketed s c && Nat.ltb (index c) (length (logs s)).
(** trace() has returned. *)
Definition returned (c : call) : Prop := match at_ c with Open | OpenNull | Closed => True | _ => False end.
(** trace() was called but has not returned. *)
Definition in_progress (c : call) : Prop := match at_ c with Fetched | Write _ => True | _ => False end.

(** An entry completely describes a call: all five fields written by trace(),
    and the duration once the scope ended. *)
Definition describes (l : log) (c : call) : Prop :=
  (forall f, f <> FDuration -> l f = args c f) /\ (at_ c = Closed -> l FDuration = args c FDuration).

(** No scope is open and no trace() call in progress at any reset. *)
Definition quiet (s : state) : Prop :=
  forall i c, nth_error (calls s) i = Some c -> match at_ c with Begin | Closed => True | _ => False end.
Definition quiet_resets (M cap : nat) (as_ : list action) : Prop :=
  forall pre post, as_ = pre ++ Reset :: post -> quiet (run M pre (start cap)).
(** Fewer accesses than the counter has values. *)
Definition no_wrap (M : nat) (as_ : list action) : Prop := length as_ < M.
