(** atomic-stop-signal.hpp:16-19 with the memory orders of the accesses: executions
    of the C++ memory model ([intro.races]) with calls of stop() and stop_requested()
    and accesses to plain variables. *)
From Verif Require Import Base.
From Coq Require Import Relation_Operators.

(** std::memory_order (atomic-stop-signal.hpp:16, 18) *)
Inductive order := Relaxed | Acquire | Release | SeqCst.
(** Loads that acquire, stores that release (used by atomic-stop-signal.hpp:16-18) *)
Definition acquires (o : order) : bool := match o with Acquire | SeqCst => true | _ => false end.
(** See [acquires] (atomic-stop-signal.hpp:16-18) *)
Definition releases (o : order) : bool := match o with Release | SeqCst => true | _ => false end.
(** stop_flag.store(true, std::memory_order_seq_cst) (16) *)
Definition stop_order : order := SeqCst.
(** stop_flag.load(std::memory_order_relaxed) (18) *)
Definition requested_order : order := Relaxed.

(** What threads do: stop() and stop_requested() on a signal (16-19), accesses to plain
    variables (not in the code: the callers of atomic-stop-signal.hpp:16-19). *)
Inductive action := Stop (s : nat) | Requested (s : nat) (result : bool) | Write (d : nat) | Read (d : nat).
(** An execution: the actions with their threads (those of one thread in its order), which
    stop() each stop_requested() has read ([None]: the initial value), and other
    synchronisation (mutexes, joins). Callers of atomic-stop-signal.hpp:16-19. *)
Record execution := Exec {
  actions : list (nat * action);
  reads : nat -> option nat;
  other : nat -> nat -> Prop;
}.
(** The action with this number (callers of atomic-stop-signal.hpp:16-19) *)
Definition act_of (x : execution) (e : nat) : option action := option_map snd (nth_error (actions x) e).
(** The memory orders of the accesses to the flag (16, 18) *)
Definition store_order (a : action) : option order := match a with Stop _ => Some stop_order | _ => None end.
(** See [store_order] (atomic-stop-signal.hpp:18) *)
Definition load_order (a : action) : option order := match a with Requested _ _ => Some requested_order | _ => None end.
