(** The C++ memory model ([intro.races], [atomics.order]) as far as it concerns one
    atomic counter and plain variables, and data races. *)
From Verif Require Import Base TraceRace_Model.
Import Trace_Model (field).

Section Spec.
Context (M cap : nat) (x : execution).
Definition access_at (e : event) : option access := nth_error (accesses M cap x (fst e)) (snd e).
(** Every access of operation [k] happens before every access of operation [k']. *)
Definition before (k k' : nat) : Prop :=
  forall j j', access_at (k, j) <> None -> access_at (k', j') <> None -> hb x (k, j) (k', j').
Definition is_op (k : nat) (o : op) : Prop := nth_error (ops x) k = Some o.
Definition modification (k : nat) : Prop := is_op k OTrace \/ is_op k OReset.

Record consistent : Prop := {
  (* happens-before is a strict partial order that contains program order *)
  hb_trans : forall a b c, hb x a b -> hb x b c -> hb x a c;
  hb_irrefl : forall a, ~ hb x a a;
  hb_program : forall k j j', j < j' -> access_at (k, j) <> None -> access_at (k, j') <> None -> hb x (k, j) (k, j');
  hb_thread : forall k k', k < k' -> k' < length (ops x) -> thread x k = thread x k' -> before k k';
  (* the modification order is a total order of the modifications *)
  mo_once : NoDup (mo x);
  mo_all : forall k, In k (mo x) <-> modification k;
  (* coherence *)
  write_write : forall k k', modification k -> modification k' -> hb x (k, 0) (k', 0) -> pos k (mo x) < pos k' (mo x);
  seen_range : forall g, is_op g OGet -> seen x g <= length (mo x);
  write_read : forall k g, modification k -> is_op g OGet -> hb x (k, 0) (g, 0) -> pos k (mo x) < seen x g;
  read_write : forall g k, is_op g OGet -> modification k -> hb x (g, 0) (k, 0) -> seen x g <= pos k (mo x);
  read_read : forall g g', is_op g OGet -> is_op g' OGet -> hb x (g, 0) (g', 0) -> seen x g <= seen x g';
  (* ScopedLog objects: destroyed at most once, after trace() has returned *)
  end_of : forall e c, is_op e (OEnd c) -> is_op c OTrace /\ before c e;
  end_once : forall e e' c, is_op e (OEnd c) -> is_op e' (OEnd c) -> e = e';
}.

(** Two accesses to one variable, at least one of them a write *)
Inductive conflict : access -> access -> Prop :=
| write_and_write s f : conflict (Write s f) (Write s f)
| write_and_read s f : conflict (Write s f) (Read s f).
Definition race : Prop :=
  exists e e' a a', access_at e = Some a /\ access_at e' = Some a' /\ conflict a a' /\ e <> e' /\ ~ hb x e e' /\ ~ hb x e' e.

(** Every reset is ordered with every trace(): before it, or after it and after the end of its scope. *)
Definition resets_ordered : Prop :=
  forall r c, is_op r OReset -> is_op c OTrace ->
    before r c \/ (before c r /\ forall e, is_op e (OEnd c) -> before e r).
(** Reading logs is ordered with every trace() and end of a scope. *)
Definition reads_ordered : Prop :=
  forall g k, is_op g OGet -> is_op k OTrace \/ (exists c, is_op k (OEnd c)) -> before g k \/ before k g.
Definition is_trace (o : op) : bool := match o with OTrace => true | _ => false end.
Definition number_of_calls : nat := length (filter is_trace (ops x)).
(** The calls that get_logs() [g] reports: those before it and after the resets before it. *)
Definition reported (g c : nat) : Prop :=
  is_op c OTrace /\ before c g /\ forall r, is_op r OReset -> before r g -> before r c.
End Spec.
