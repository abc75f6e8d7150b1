(** What C21-C26 talk about: the operations a user performs on TypeErased
    wrappers, the trace of resource events they cause, when such a trace is
    acceptable, and the pointer-free value semantics. Nothing here refers to the
    model of the code. *)
From Verif Require Import Base.

(** Places where an object can live: a heap block, the small buffer of wrapper
    [i], or the program's own variable [e] (outside of all wrappers). *)
Inductive loc := LHeap (b : nat) | LSmall (i : nat) | LExt (e : nat).

(** Observable resource events. Objects, blocks and wrappers are numbered. *)
Inductive event :=
| EBegin (i : nat)                    (* wrapper [i] starts to exist *)
| EEnd (i : nat)                      (* wrapper [i] (and its small buffer) is gone *)
| EAlloc (b n a : nat)                (* allocator [a] returned block [b] of [n] bytes *)
| EFree (b n a : nat)                 (* allocator [a]: deallocate(block b, n) *)
| ECtor (o : nat) (l : loc) (t : nat) (* an object [o] of type [t] is constructed at [l] *)
| ECopy (o : nat)                     (* [o] is the source of a copy construction *)
| EMove (o : nat)                     (* [o] is the source of a move construction *)
| EDtor (o : nat)                     (* [o] is destroyed *)
| ERead (o : nat)                     (* the user reads [o] *)
| EWrite (o : nat).                   (* the user modifies [o] *)

Definition obj_alive (h : list event) (o : nat) (l : loc) (t : nat) : Prop :=
  In (ECtor o l t) h /\ ~ In (EDtor o) h.
Definition block_alive (h : list event) (b n a : nat) : Prop :=
  In (EAlloc b n a) h /\ ~ (exists n' a', In (EFree b n' a') h).
Definition wrapper_alive (h : list event) (i : nat) : Prop := In (EBegin i) h /\ ~ In (EEnd i) h.
(** No living object occupies [l]. *)
Definition vacant (h : list event) (l : loc) : Prop := forall o t, ~ obj_alive h o l t.

Section Trace.
(** Object sizes and the capacity of the small buffer. *)
Context (sizeof : nat -> nat) (sbs : nat).

(** What is allowed to happen next after the history [h]. *)
Definition ok_event (h : list event) (e : event) : Prop :=
  match e with
  | EBegin i => ~ In (EBegin i) h
  | EEnd i => wrapper_alive h i /\ vacant h (LSmall i)       (* the wrapped object was destroyed before *)
  | EAlloc b n a => forall n' a', ~ In (EAlloc b n' a') h     (* a new block *)
  | EFree b n a => block_alive h b n a                        (* not freed yet, its own size and allocator *)
                   /\ vacant h (LHeap b)                      (* no living object inside *)
  | ECtor o l t =>
      (forall l' t', ~ In (ECtor o l' t') h) /\ vacant h l /\
      match l with
      | LHeap b => exists n a, block_alive h b n a /\ sizeof t <= n
      | LSmall i => wrapper_alive h i /\ sizeof t <= sbs
      | LExt _ => True
      end
  | ECopy o | EMove o | EDtor o | ERead o | EWrite o => exists l t, obj_alive h o l t
  end.

(** A trace in which every event was allowed. In particular: no object is
    destroyed twice or used after destruction, no block is freed twice, with a
    wrong size, by a wrong allocator or with an object still alive in it. *)
Inductive wf_trace : list event -> Prop :=
| wf_nil : wf_trace []
| wf_snoc h e : wf_trace h -> ok_event h e -> wf_trace (h ++ [e]).
End Trace.

(** ** Operations *)

(** Where a construction can fail: nowhere, the allocator throws, the object's
    constructor (or copy constructor) throws, the user's VTable constructor throws. *)
Inductive fail := FNone | FAlloc | FCtor | FVtable.

Inductive op (V : Type) :=
| ONew (a : nat)                                        (* TypeErased x{allocator_arg, a} *)
| OVal (via_make : bool) (a t : nat) (v : V) (f : fail) (* by value / in place, or through make() *)
| ORef (a e : nat) (c : bool)                           (* from a pointer to variable e, [c]: pointer to const *)
| OCopy (j : nat) (oa : option nat) (f : fail)          (* TypeErased x{wj} or x{wj, alloc} *)
| OMove (j : nat) (oa : option nat) (f : bool)          (* TypeErased x{move(wj)} or x{move(wj), alloc}; f: the allocator throws *)
| OCopyAssign (i j : nat) (f : fail)                    (* wi = wj *)
| OMoveAssign (i j : nat) (f : bool)                    (* wi = move(wj) *)
| ODestroy (i : nat)                                    (* wi.~TypeErased() *)
| OGet (i t : nat)                                      (* read wi.as<const T>() *)
| OSet (i t : nat) (v : V)                              (* wi.as<T>() = v *)
| OTake (i t : nat) (v : V)                             (* T x = move(wi).as<T>(); leaves [v] behind *)
| OCallConst (i : nat)                                  (* call a const method that reads the object *)
| OCall (i : nat) (v : V).                              (* call a non-const method that stores [v] *)
Arguments ONew {V}. Arguments OVal {V}. Arguments ORef {V}. Arguments OCopy {V}. Arguments OMove {V}.
Arguments OCopyAssign {V}. Arguments OMoveAssign {V}. Arguments ODestroy {V}. Arguments OGet {V}.
Arguments OSet {V}. Arguments OTake {V}. Arguments OCallConst {V}. Arguments OCall {V}.

(** ** Value semantics *)
Section Values.
Context {V : Type}.

(** Abstract content of a wrapper: nothing, its own object, or a reference. *)
Inductive aval := AEmpty | AOwned (t : nat) (v : V) | ARef (e : nat) (c : bool).

(** Abstract state: for every wrapper that exists its content and allocator;
    the program's variables (type, value). *)
Record astate := AState { a_ws : list (option (aval * nat)); a_ext : list (nat * V) }.

Definition a_get (s : astate) (i : nat) : option (aval * nat) :=
  match nth_error (a_ws s) i with Some (Some x) => Some x | _ => None end.
Definition a_put (s : astate) (i : nat) (x : option (aval * nat)) : astate :=
  AState (upd (a_ws s) i x) (a_ext s).
Definition a_push (s : astate) (x : option (aval * nat)) : astate :=
  AState (a_ws s ++ [x]) (a_ext s).

(** The object seen through a wrapper. *)
Definition a_see (s : astate) (x : aval) : option (nat * V) :=
  match x with
  | AEmpty => None
  | AOwned t v => Some (t, v)
  | ARef e _ => nth_error (a_ext s) e
  end.
(** Store through a wrapper. *)
Definition a_store (s : astate) (i : nat) (x : aval) (al : nat) (v : V) : astate :=
  match x with
  | AEmpty => s
  | AOwned t _ => a_put s i (Some (AOwned t v, al))
  | ARef e _ => match nth_error (a_ext s) e with
                | Some (t, _) => AState (a_ws s) (upd (a_ext s) e (t, v))
                | None => s
                end
  end.
Definition is_const_ref (x : aval) : bool := match x with ARef _ c => c | _ => false end.

(** Does this operation need storage from the allocator / run a constructor? *)
Definition copy_throws (sizeof : nat -> nat) (sbs : nat) (x : aval) (f : fail) : bool :=
  match x, f with
  | AOwned t _, FAlloc => Nat.ltb sbs (sizeof t)
  | AOwned _ _, FCtor => true
  | _, _ => false
  end.
Definition val_throws (sizeof : nat -> nat) (sbs : nat) (t : nat) (f : fail) : bool :=
  match f with FNone => false | FAlloc => Nat.ltb sbs (sizeof t) | _ => true end.

(** What a caller gets back. *)
Inductive reply := Done | Value (v : V) | Thrown (e : exn).

Record settings := Settings {
  sizeof : nat -> nat;            (* sizeof(T) *)
  sbs : nat;                      (* SmallBufferSize *)
  pocca : bool;                   (* propagate_on_container_copy_assignment *)
  pocma : bool;                   (* propagate_on_container_move_assignment *)
  select : nat -> nat             (* select_on_container_copy_construction *)
}.
Context (P : settings).

(** An operation that goes to live wrappers, in the value semantics. [None]: the
    operation does not apply (it names a wrapper that does not exist, or accesses
    the content of an empty one). *)
Definition a_step (s : astate) (o : op V) : option (astate * reply) :=
  match o with
  | ONew a => Some (a_push s (Some (AEmpty, a)), Done)
  | OVal _ a t v f =>
      if val_throws (sizeof P) (sbs P) t f then Some (a_push s None, Thrown user_exception)
      else Some (a_push s (Some (AOwned t v, a)), Done)
  | ORef a e c =>
      match nth_error (a_ext s) e with
      | Some _ => Some (a_push s (Some (ARef e c, a)), Done)
      | None => None
      end
  | OCopy j oa f =>
      match a_get s j with
      | Some (x, a) =>
          if copy_throws (sizeof P) (sbs P) x f then Some (a_push s None, Thrown user_exception)
          else Some (a_push s (Some (x, match oa with Some a' => a' | None => select P a end)), Done)
      | None => None
      end
  | OMove j oa _ =>
      match a_get s j with
      | Some (x, a) =>
          Some (a_push (a_put s j (Some (AEmpty, a)))
                       (Some (x, match oa with Some a' => a' | None => a end)), Done)
      | None => None
      end
  | OCopyAssign i j f =>
      match a_get s i, a_get s j with
      | Some (_, ai), Some (x, aj) =>
          if Nat.eqb i j then Some (s, Done)
          else let a := if pocca P then aj else ai in
               if copy_throws (sizeof P) (sbs P) x f
               then Some (a_put s i (Some (AEmpty, a)), Thrown user_exception)
               else Some (a_put s i (Some (x, a)), Done)
      | _, _ => None
      end
  | OMoveAssign i j _ =>
      match a_get s i, a_get s j with
      | Some (_, ai), Some (x, aj) =>
          if Nat.eqb i j then Some (s, Done)
          else Some (a_put (a_put s j (Some (AEmpty, aj))) i (Some (x, if pocma P then aj else ai)), Done)
      | _, _ => None
      end
  | ODestroy i =>
      match a_get s i with Some _ => Some (a_put s i None, Done) | None => None end
  | OGet i t =>
      match a_get s i with
      | Some (x, _) =>
          match a_see s x with
          | Some (t', v) => Some (s, if Nat.eqb t t' then Value v else Thrown bad_type_erased_type)
          | None => None
          end
      | None => None
      end
  | OSet i t v =>
      match a_get s i with
      | Some (x, a) =>
          match a_see s x with
          | Some (t', _) =>
              if negb (Nat.eqb t t') then Some (s, Thrown bad_type_erased_type)
              else if is_const_ref x then Some (s, Thrown bad_type_erased_constness)
              else Some (a_store s i x a v, Done)
          | None => None
          end
      | None => None
      end
  | OTake i t v =>
      match a_get s i with
      | Some (x, a) =>
          match a_see s x with
          | Some (t', v0) =>
              if negb (Nat.eqb t t') then Some (s, Thrown bad_type_erased_type)
              else if is_const_ref x then Some (s, Thrown bad_type_erased_constness)
              else Some (a_store s i x a v, Value v0)
          | None => None
          end
      | None => None
      end
  | OCallConst i =>
      match a_get s i with
      | Some (x, _) =>
          match a_see s x with Some (_, v) => Some (s, Value v) | None => None end
      | None => None
      end
  | OCall i v =>
      match a_get s i with
      | Some (x, a) =>
          match a_see s x with
          | Some _ =>
              if is_const_ref x then Some (s, Thrown bad_type_erased_constness)
              else Some (a_store s i x a v, Done)
          | None => None
          end
      | None => None
      end
  end.

(** Runs of whole histories; operations that do not apply are not performed by
    a well-behaved program, so there is no run with them. *)
Inductive a_run : astate -> list (op V) -> list reply -> astate -> Prop :=
| a_run_nil s : a_run s [] [] s
| a_run_cons s o s1 r os rs s2 :
    a_step s o = Some (s1, r) -> a_run s1 os rs s2 -> a_run s (o :: os) (r :: rs) s2.

(** A move may need memory (unequal allocators); if that fails, the noexcept move
    terminates the program. Histories below are those whose moves get memory. *)
Definition moves_get_memory (o : op V) : Prop :=
  match o with OMove _ _ f | OMoveAssign _ _ f => f = false | _ => True end.
End Values.
Arguments aval : clear implicits.
Arguments astate : clear implicits.
Arguments reply : clear implicits.
