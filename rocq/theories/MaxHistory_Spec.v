(** What a sliding-window maximum is; independent of the model. *)
From Verif Require Import Base.

Section Spec.
Context {T : Type} (ltb gtb eqb : T -> T -> bool).

(** The order the class relies on: a strict weak order, with [>] its converse
    and [==] "neither is smaller". *)
Record good_order : Prop := {
  lt_irrefl : forall a, ltb a a = false;
  lt_trans : forall a b c, ltb a b = true -> ltb b c = true -> ltb a c = true;
  lt_weak : forall a b c, ltb a b = false -> ltb b c = false -> ltb a c = false;
  gt_lt : forall a b, gtb a b = ltb b a;
  eq_lt : forall a b, eqb a b = true <-> (ltb a b = false /\ ltb b a = false)
}.

(** The last [n] elements of [l] (all of them if there are fewer). *)
Definition window (n : nat) (l : list T) : list T := skipn (length l - n) l.

Definition is_max (m : T) (l : list T) : Prop :=
  In m l /\ forall y, In y l -> ltb m y = false.

(** Operations on any number of MaxHistory objects, named by creation order.
    [CopyAssign i j] is i = j, [MoveAssign i j] is i = std::move(j). *)
Inductive op := New (memory : nat) | Copy (i : nat) | Move (i : nat) | Add (i : nat) (x : T)
              | CopyAssign (i j : nat) (in_place : bool) | MoveAssign (i j : nat) | Destroy (i : nat).

(** The intended meaning of a history: every object is a capacity and the list
    of the values added to it; copies and moves carry that list along. [a_kind]
    records where the object comes from: the constructor (possibly through
    moves), a copy (possibly moved), "has been moved from" or destroyed. *)
Inductive kind := Original | Copied | MovedFrom | Destroyed.
Definition live (k : kind) : Prop := k = Original \/ k = Copied.
Record absobj := Abs { a_n : nat; a_vals : list T; a_kind : kind }.

(** [None]: the history is not legal (unknown object, capacity 0, use of a
    moved-from object other than assigning to it or destroying it, use of a destroyed object). *)
Definition spec_step (s : list absobj) (o : op) : option (list absobj) :=
  match o with
  | New 0 => None
  | New n => Some (s ++ [Abs n [] Original])
  | Copy i =>
      match nth_error s i with
      | None | Some (Abs _ _ (MovedFrom | Destroyed)) => None
      | Some (Abs n l _) => Some (s ++ [Abs n l Copied])
      end
  | Move i =>
      match nth_error s i with
      | None | Some (Abs _ _ (MovedFrom | Destroyed)) => None
      | Some a => Some (upd s i (Abs (a_n a) (a_vals a) MovedFrom) ++ [a])
      end
  | Add i x =>
      match nth_error s i with
      | None | Some (Abs _ _ (MovedFrom | Destroyed)) => None
      | Some (Abs n l k) => Some (upd s i (Abs n (l ++ [x]) k))
      end
  | CopyAssign i j _ =>
      match nth_error s i, nth_error s j with
      | None, _ | _, None | Some (Abs _ _ Destroyed), _ | _, Some (Abs _ _ (MovedFrom | Destroyed)) => None
      | Some _, Some (Abs n l _) => Some (if Nat.eqb i j then s else upd s i (Abs n l Copied))
      end
  | MoveAssign i j =>
      match nth_error s i, nth_error s j with
      | None, _ | _, None | Some (Abs _ _ Destroyed), _ | _, Some (Abs _ _ (MovedFrom | Destroyed)) => None
      | Some _, Some (Abs n l k) => if Nat.eqb i j then None else Some (upd (upd s j (Abs n l MovedFrom)) i (Abs n l k))
      end
  | Destroy i =>
      match nth_error s i with
      | None | Some (Abs _ _ Destroyed) => None
      | Some (Abs n l _) => Some (upd s i (Abs n l Destroyed))
      end
  end.

Fixpoint spec_run (s : list absobj) (ops : list op) : option (list absobj) :=
  match ops with
  | [] => Some s
  | o :: ops' => match spec_step s o with None => None | Some s' => spec_run s' ops' end
  end.

(** No value is added to an object that is a copy. *)
Fixpoint no_add_to_copy (s : list absobj) (ops : list op) : Prop :=
  match ops with
  | [] => True
  | o :: ops' =>
      match o with
      | Add i _ => forall a, nth_error s i = Some a -> a_kind a <> Copied
      | _ => True
      end /\
      match spec_step s o with None => True | Some s' => no_add_to_copy s' ops' end
  end.
End Spec.
Arguments absobj : clear implicits.
Arguments op : clear implicits.
