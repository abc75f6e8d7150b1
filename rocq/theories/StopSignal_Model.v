(** atomic-stop-signal.hpp. Objects live in a relaxed-memory machine: each
    object's flag has a modification order (a list of writes, oldest first) and
    each thread has, per object, a lower bound on the writes it may still read
    (C++ coherence). A relaxed load may read any write not below the thread's
    bound. The only stores are seq_cst, so their modification order is the
    order in which they execute. Synchronisation between threads by other means
    (mutexes, joins, ...) is the operation [Sync]. *)
From Verif Require Import Base.

(** The flags (atomic-stop-signal.hpp:22) and what the threads have seen of them *)
Record machine := Machine {
  flags : list (list bool);            (* modification order of each object's stop_flag *)
  view : nat -> nat -> nat;            (* thread, object -> oldest readable write *)
}.
(** Not in the code: what a thread has seen of a flag (atomic-stop-signal.hpp:22) *)
Definition set_view (v : nat -> nat -> nat) (t o n : nat) : nat -> nat -> nat :=
  fun t' o' => if Nat.eqb t' t && Nat.eqb o' o then n else v t' o'.

(** atomic-stop-signal.hpp 20: std::atomic<bool> stop_flag{false} *)
Definition fresh_flag : list bool := [false].

(** What threads do (atomic-stop-signal.hpp:10-19) *)
Inductive op :=
| New                          (* AtomicStopSignal() *)
| CopyNew (o : nat)            (* AtomicStopSignal(const AtomicStopSignal &) *)
| MoveNew (o : nat)            (* AtomicStopSignal(AtomicStopSignal &&) *)
| MoveAssign (o o' : nat)      (* operator=(AtomicStopSignal &&) *)
| Stop (t o : nat)             (* thread t calls stop() on o *)
| Query (t o pick : nat)       (* thread t calls stop_requested() on o; the load reads write [pick] *)
| Sync (t t' : nat).           (* what t has seen happens before what t' does next *)

(** One step; the observation is the result of a Query. A Query whose [pick]
    is not a write the thread may read, or an operation on a nonexistent
    object, is not a step (None). atomic-stop-signal.hpp:10-19. *)
Definition step (p : op) (m : machine) : option (machine * option bool) :=
  match p with
  | New => (* 10 *) Some (Machine (flags m ++ [fresh_flag]) (view m), None)
  | CopyNew o => (* 11: delegates to the default constructor *)
      if Nat.ltb o (length (flags m)) then Some (Machine (flags m ++ [fresh_flag]) (view m), None) else None
  | MoveNew o => (* 13 *)
      if Nat.ltb o (length (flags m)) then Some (Machine (flags m ++ [fresh_flag]) (view m), None) else None
  | MoveAssign o o' => (* 14: return *this *)
      if Nat.ltb o (length (flags m)) && Nat.ltb o' (length (flags m)) then Some (m, None) else None
  | Stop t o => (* 16: stop_flag.store(true, seq_cst) *)
      match nth_error (flags m) o with
      | Some f => Some (Machine (upd (flags m) o (f ++ [true])) (set_view (view m) t o (length f)), None)
      | None => None
      end
  | Query t o pick => (* 17-19: stop_flag.load(relaxed) *)
      match nth_error (flags m) o with
      | Some f =>
          if Nat.leb (view m t o) pick then
            match nth_error f pick with
            | Some b => Some (Machine (flags m) (set_view (view m) t o pick), Some b)
            | None => None
            end
          else None
      | None => None
      end
  | Sync t t' => Some (Machine (flags m) (fun u o => if Nat.eqb u t' then Nat.max (view m t o) (view m t' o) else view m u o), None)
  end.

(** A history: the operations executed, in order, with their observations. atomic-stop-signal.hpp:10-19. *)
Definition event : Type := op * option bool.
(** Histories (atomic-stop-signal.hpp:10-19) *)
Inductive runs : machine -> list event -> machine -> Prop :=
| runs_nil m : runs m [] m
| runs_snoc m es m' p m'' ob : runs m es m' -> step p m' = Some (m'', ob) -> runs m (es ++ [(p, ob)]) m''.

(** Before the first construction (atomic-stop-signal.hpp:10) *)
Definition init : machine := Machine [] (fun _ _ => 0).
