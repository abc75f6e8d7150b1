(** trace.hpp:99-168 under the C++ memory model: the memory accesses of the
    operations of TraceLogger in an arbitrary multi-threaded execution.

    Simplifications: the members t0 and logs (the vector itself) are only read after
    construction; construction and destruction of the logger happen before and after
    everything else. A user of get_logs() reads every field of the returned entries.
    ScopedLog objects that own nothing (index >= size) do not access anything. *)
From Verif Require Import Base.
From Verif Require Trace_Model.
Import Trace_Model (field, FName, FInstance, FStart, FDuration, FThread, FFlops).

(** Memory accesses: to a member of an entry (trace.hpp:141, 155-159), or to the atomic counter (149, 164, 168). *)
Inductive access := Write (slot : nat) (f : field) | Read (slot : nat) (f : field) | Atomic.
(** What threads do: trace() (147-161); the destruction of the ScopedLog that
    operation [c] returned (139-142), by whatever thread; get_logs() and reading what it
    returned (163-166); reset() (168). *)
Inductive op := OTrace | OEnd (c : nat) | OGet | OReset.

(** The members of a Log (trace.hpp:101-106) *)
Definition members : list field := [FName; FInstance; FStart; FDuration; FThread; FFlops].
(** trace() with the value its fetch_add returned (trace.hpp:149-160) *)
Definition trace_accesses (cap index : nat) : list access :=
  Atomic :: (if Nat.leb cap index then [] else map (Write index) Trace_Model.write_order).
(** ~ScopedLog (trace.hpp:139-142) *)
Definition end_accesses (cap index : nat) : list access :=
  if Nat.leb cap index then [] else [Write index FDuration].
(** get_logs() with the value it loaded, and reading the entries (trace.hpp:163-166) *)
Definition get_accesses (cap n : nat) : list access :=
  Atomic :: flat_map (fun i => map (Read i) members) (seq 0 (Nat.min cap n)).
(** reset() (trace.hpp:168) *)
Definition reset_accesses : list access := [Atomic].

(** An execution: the operations (those of one thread in the order in which the thread
    executes them), their threads, the happens-before relation, the modification order
    of the counter (the operations trace() and reset(), oldest first), and for
    every get_logs() how many modifications the load at line 164 has seen. Events are numbered by
    operation and position in the operation. Not in the code: an execution of trace.hpp:147-168. *)
Definition event : Type := nat * nat.
(** Executions of trace.hpp:147-168 *)
Record execution := Exec {
  ops : list op;
  thread : nat -> nat;
  hb : event -> event -> Prop;
  mo : list nat;
  seen : nat -> nat;
}.

Section Logger.
(** The number of values of size_t (trace.hpp:124) and logs.size() (144). *)
Context (M cap : nat) (x : execution).
(** What the modifications of the counter do: fetch_add(1) (149), store(0) (168) *)
Definition modify (o : op) (v : nat) : nat := match o with OTrace => (v + 1) mod M | OReset => 0 | _ => v end.
(** The counter after these modifications (trace.hpp:124, 149, 168) *)
Definition run_count (l : list nat) : nat := fold_left (fun v k => match nth_error (ops x) k with Some o => modify o v | None => v end) l 0.
(** The position of an operation in the modification order of the counter (trace.hpp:149, 168) *)
Fixpoint pos (k : nat) (l : list nat) : nat := match l with [] => 0 | a :: l => if Nat.eqb a k then 0 else S (pos k l) end.
(** What fetch_add returned: an atomic read-modify-write operation reads the value just before it in the
    modification order (trace.hpp:149). *)
Definition index (k : nat) : nat := run_count (firstn (pos k (mo x)) (mo x)).
(** What the load in get_logs() returned (trace.hpp:164) *)
Definition loaded (g : nat) : nat := run_count (firstn (seen x g) (mo x)).
(** The accesses of an operation, in program order (trace.hpp:139-168) *)
Definition accesses (k : nat) : list access :=
  match nth_error (ops x) k with
  | Some OTrace => trace_accesses cap (index k)
  | Some (OEnd c) => end_accesses cap (index c)
  | Some OGet => get_accesses cap (loaded k)
  | Some OReset => reset_accesses
  | None => []
  end.
End Logger.
