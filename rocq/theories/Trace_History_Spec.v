(** Vocabulary of C50 and C51: what the program did, read off the list of actions alone. *)
From Verif Require Import Base Trace_Model. (* for the type action *)

(** The calls of trace(), in order. *)
Definition is_trace (a : action) : bool := match a with Trace _ _ _ _ => true | _ => false end.
Definition nth_trace (as_ : list action) (i : nat) : option action := nth_error (filter is_trace as_) i.
(** The clock at each access made by call [i]. The first is the fetch_add, the second reads
    the start time (line 154), the next five write the fields; the eighth is the end of the
    scope. *)
Fixpoint readings (called : nat) (as_ : list action) (i : nat) : list Z :=
  match as_ with
  | [] => []
  | Trace _ _ _ _ :: r => readings (S called) r i
  | Step j now :: r => if Nat.eqb j i && Nat.ltb i called then now :: readings called r i else readings called r i
  | Reset :: r => readings called r i
  end.
(** Call [i] of the program, with its arguments, took place from [b] to [e]. *)
Definition took_place (as_ : list action) (i : nat) (name instance flops thread b e : Z) : Prop :=
  nth_trace as_ i = Some (Trace name instance flops thread) /\
  nth_error (readings 0 as_ i) 1 = Some b /\ nth_error (readings 0 as_ i) 7 = Some e.
