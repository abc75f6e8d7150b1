(** Model of TraceLogger::ScopedLog as an object that is constructed, moved and
    destroyed: src/include/guanaqo/trace.hpp:126-143 (own tracer) and
    trace.hpp:30-84 (ITT branch).
    Variables are numbers (storage locations, which can be reused). A history
    that uses a variable without an object, or constructs one where there is
    one, is not a program ([None]). *)
From Verif Require Import Base.
Local Open Scope Z_scope.

(** What a program does with ScopedLog objects: [Trace v log now]: v is initialised with
    what trace() returns at time now, log being the slot of the vector (or null if the vector is full,
    150-151); [Default v]: ScopedLog v; [Move v w]: ScopedLog w{std::move(v)};
    [Destroy v now]: end of the lifetime of v at time now. *)
Inductive op := Trace (v : nat) (log : option nat) (now : Z) | Default (v : nat) | Move (v w : nat) | Destroy (v : nat) (now : Z).

(** trace.hpp:127-128: log, start_time_point *)
Definition object : Type := option nat * Z.
(** What the variables hold (trace.hpp:126-143) *)
Definition objects := nat -> option object.
(** An object appears (or disappears) in a variable (trace.hpp:126-143). *)
Definition put (v : nat) (x : option object) (st : objects) : objects := fun u => if Nat.eqb u v then x else st u.

(** The objects after an operation, and the assignment to log->duration it makes: slot
    and value. trace.hpp:126-161. *)
Definition step (o : op) (st : objects) : option (objects * option (nat * Z)) :=
  match o with
  | Trace v log now => (* 147-161 and 131-132; ScopedLog{nullptr, {}} without a slot *)
      match st v with None => Some (put v (Some (log, match log with Some _ => now | None => 0 end)) st, None) | Some _ => None end
  | Default v => (* 127-130 *)
      match st v with None => Some (put v (Some (None, 0)) st, None) | Some _ => None end
  | Move v w => (* 135-137: std::exchange(other.log, nullptr), start_time_point *)
      match st v, st w with
      | Some (log, start), None => Some (put v (Some (None, start)) (put w (Some (log, start)) st), None)
      | _, _ => None
      end
  | Destroy v now => (* 139-142 *)
      match st v with
      | Some (Some log, start) => Some (put v None st, Some (log, now - start))
      | Some (None, _) => Some (put v None st, None)
      | None => None
      end
  end.
(** The assignments of a history, one entry for every operation (trace.hpp:126-143). *)
Fixpoint run (h : list op) (st : objects) : option (objects * list (option (nat * Z))) :=
  match h with
  | [] => Some (st, [])
  | o :: h =>
    match step o st with
    | None => None
    | Some (st, e) => match run h st with Some (st', es) => Some (st', e :: es) | None => None end
    end
  end.
(** No object yet (before the operations of trace.hpp:126-143). *)
Definition none : objects := fun _ => None.

(** ** ITT: the domain pointer instead of the log (trace.hpp:54-76) *)
(** trace.hpp:64, 74: the calls of __itt_task_begin (id and name) and __itt_task_end. Simplified: one domain, whose
    handle is the same for all loggers. *)
Inductive event := Begin (id name : Z) | End.
(** trace.hpp:32 *)
Definition max_instance_num : Z := 255.
(** The operations on ScopedLogs (trace.hpp:54-81); domain: whether the logger has one, i.e.
    has not been moved from (31, 42-43). *)
Inductive iop := ITrace (v : nat) (name instance : Z) (domain : bool) | IMove (v w : nat) | IDestroy (v : nat).
(** Whether the object in a variable has a domain (trace.hpp:55). *)
Definition iobjects := nat -> option bool.
(** trace.hpp:54-76 *)
Definition iput (v : nat) (x : option bool) (st : iobjects) : iobjects := fun u => if Nat.eqb u v then x else st u.
(** std::clamp (trace.hpp:61) *)
Definition clamp (x lo hi : Z) : Z := if x <? lo then lo else if hi <? x then hi else x.
(** trace.hpp:54-81: an operation and the call of the ITT library it makes *)
Definition istep (o : iop) (st : iobjects) : option (iobjects * option event) :=
  match o with
  | ITrace v name instance domain => (* 78-81, 56-65 *)
      match st v with
      | None => Some (iput v (Some domain) st, if domain then Some (Begin (clamp instance 0 max_instance_num) name) else None)
      | Some _ => None
      end
  | IMove v w => (* 68-69 *)
      match st v, st w with Some d, None => Some (iput v (Some false) (iput w (Some d) st), None) | _, _ => None end
  | IDestroy v => (* 71-75 *)
      match st v with Some d => Some (iput v None st, if d : bool then Some End else None) | None => None end
  end.
(** A history (trace.hpp:54-81). *)
Fixpoint irun (h : list iop) (st : iobjects) : option (iobjects * list (option event)) :=
  match h with
  | [] => Some (st, [])
  | o :: h =>
    match istep o st with
    | None => None
    | Some (st, e) => match irun h st with Some (st', es) => Some (st', e :: es) | None => None end
    end
  end.
(** trace.hpp:54-81 *)
Definition inone : iobjects := fun _ => None.

(** ** ITT: the loggers themselves *)
(** trace.hpp:35-37, 49-51: __itt_id_create and __itt_id_destroy for the id made of i *)
Inductive id_event := Create (i : Z) | Discard (i : Z).
(** TraceLogger l; TraceLogger m{std::move(l)}; end of the lifetime of l. trace.hpp:33-52. *)
Inductive lop := LNew (l : nat) | LMove (l m : nat) | LDestroy (l : nat).
(** trace.hpp:34, 48: for (i = 0; i <= max_instance_num; ++i) *)
Definition all_ids : list Z := map Z.of_nat (seq 0 (S (Z.to_nat max_instance_num))).
(** trace.hpp:33-52. Simplified: the domain of a new logger is not null. *)
Definition lstep (o : lop) (st : iobjects) : option (iobjects * list id_event) :=
  match o with
  | LNew l => match st l with None => Some (iput l (Some true) st, map Create all_ids) | Some _ => None end
  | LMove l m => match st l, st m with Some d, None => Some (iput l (Some false) (iput m (Some d) st), []) | _, _ => None end
  | LDestroy l => match st l with Some d => Some (iput l None st, if d : bool then map Discard all_ids else []) | None => None end
  end.
(** The calls of a history of loggers (trace.hpp:33-52), concatenated. *)
Fixpoint lrun (h : list lop) (st : iobjects) : option (iobjects * list id_event) :=
  match h with
  | [] => Some (st, [])
  | o :: h =>
    match lstep o st with
    | None => None
    | Some (st, e) => match lrun h st with Some (st', es) => Some (st', e ++ es) | None => None end
    end
  end.
