(** trace.hpp 99-169: TraceLogger, with trace() and ~ScopedLog split into the
    memory accesses that other threads can interleave with. The atomic counter
    is modelled by its value (fetch_add and store act on the newest value; the
    relaxed load of get_logs is taken to read it too, which only weakens what
    can go wrong). Log fields are numbers; [M] is the number of values of
    size_t (the counter wraps). *)
From Verif Require Import Base.

(** trace.hpp 100-106: the fields of a Log. *)
Inductive field := FName | FInstance | FStart | FDuration | FThread | FFlops.
(** The members of trace.hpp:101-106 *)
Definition field_eqb (f g : field) : bool :=
  match f, g with
  | FName, FName | FInstance, FInstance | FStart, FStart | FDuration, FDuration | FThread, FThread | FFlops, FFlops => true
  | _, _ => false
  end.
(** trace.hpp:100-107 *)
Definition log := field -> Z.
(** An assignment to a member (trace.hpp:155-159, 141) *)
Definition set_field (f : field) (v : Z) (l : log) : log := fun g => if field_eqb f g then v else l g.
(** The default member initializers, trace.hpp:101-106 *)
Definition default_log : log := fun _ => 0%Z.

(** Where a call of trace() (and the ScopedLog it returns) is. trace.hpp:147-161, 139-142. *)
Inductive pc :=
| Begin                 (* about to execute line 149 *)
| Fetched               (* line 150 *)
| Write (k : nat)       (* about to do the k-th write of lines 155-159 *)
| Open                  (* returned ScopedLog{&log, t1}, not yet destroyed *)
| OpenNull              (* returned ScopedLog{nullptr, {}} *)
| Closed.               (* ScopedLog destroyed *)

(** A call: its arguments and thread, the counter value it got, its t1, its
    duration, and how many resets preceded its fetch_add. *)
Record call := Call { args : field -> Z; at_ : pc; index : nat; era : nat }.

(** trace.hpp:123-124 and the calls in progress *)
Record state := State { logs : list log; count : nat; calls : list call; resets : nat }.

(** The writes of lines 155-159, in program order. *)
Definition write_order : list field := [FName; FInstance; FFlops; FStart; FThread].

(** What threads do (trace.hpp:147-168) *)
Inductive action :=
| Trace (name instance flops thread : Z)   (* some thread calls trace(...) *)
| Step (c : nat) (now : Z)                 (* call c executes its next access; the clock reads [now] *)
| Reset.                                   (* reset() *)

(** Not in the code: the call moves on (trace.hpp:147-161) *)
Definition with_pc (c : call) (p : pc) : call := Call (args c) p (index c) (era c).

(** trace.hpp:139-168 *)
Definition act (M : nat) (a : action) (s : state) : state :=
  match a with
  | Trace name inst fl th =>
      let arg f := match f with FName => name | FInstance => inst | FFlops => fl | FThread => th | _ => 0%Z end in
      State (logs s) (count s) (calls s ++ [Call arg Begin 0 0]) (resets s)
  | Reset => State (logs s) 0 (calls s) (S (resets s))
  | Step i now =>
      match nth_error (calls s) i with
      | None => s
      | Some c =>
          match at_ c with
          | Begin => (* 149: index = count.fetch_add(1) *)
              State (logs s) (Nat.modulo (S (count s)) M)
                    (upd (calls s) i (Call (args c) Fetched (count s) (resets s))) (resets s)
          | Fetched => (* 150-151 and 154: t1 = clock::now() *)
              if Nat.leb (length (logs s)) (index c)
              then State (logs s) (count s) (upd (calls s) i (with_pc c OpenNull)) (resets s)
              else State (logs s) (count s)
                     (upd (calls s) i (Call (set_field FStart now (args c)) (Write 0) (index c) (era c))) (resets s)
          | Write k => (* 155-159 *)
              match nth_error write_order k, nth_error (logs s) (index c) with
              | Some f, Some l =>
                  State (upd (logs s) (index c) (set_field f (args c f) l)) (count s)
                        (upd (calls s) i (with_pc c (if Nat.eqb (S k) (length write_order) then Open else Write (S k)))) (resets s)
              | _, _ => s
              end
          | Open => (* 139-142: log->duration = now - start *)
              match nth_error (logs s) (index c) with
              | Some l =>
                  let d := (now - args c FStart)%Z in
                  State (upd (logs s) (index c) (set_field FDuration d l)) (count s)
                        (upd (calls s) i (Call (set_field FDuration d (args c)) Closed (index c) (era c))) (resets s)
              | None => s
              end
          | OpenNull => State (logs s) (count s) (upd (calls s) i (with_pc c Closed)) (resets s)
          | Closed => s
          end
      end
  end.

(** A schedule (trace.hpp:139-168) *)
Definition run (M : nat) (as_ : list action) (s : state) : state := fold_left (fun s a => act M a s) as_ s.
(** 145: TraceLogger(capacity) *)
Definition start (capacity : nat) : state := State (repeat default_log capacity) 0 [] 0.

(** 163-166: get_logs() *)
Definition get_logs (s : state) : list log := firstn (Nat.min (length (logs s)) (count s)) (logs s).
