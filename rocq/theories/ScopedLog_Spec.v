(** What C78 and C79 talk about: where the object that a call of trace() returned
    ends up. *)
From Verif Require Import Base.
From Verif Require Import ScopedLog_Model. (* for the types op, iop, event *)
Local Open Scope Z_scope.

(** After [h] the region is still held by variable w, or its holder was destroyed by
    operation number j of h, at time t. *)
Inductive fate := Held (w : nat) | Ended (j : nat) (t : Z).
Definition later (f : fate) : fate := match f with Held w => Held w | Ended j t => Ended (S j) t end.
(** The region is held by v before h. *)
Fixpoint follow (v : nat) (h : list op) : fate :=
  match h with
  | [] => Held v
  | Move u w :: h => later (follow (if Nat.eqb u v then w else v) h)
  | Destroy u t :: h => if Nat.eqb u v then Ended 0 t else later (follow v h)
  | _ :: h => later (follow v h)
  end.

(** ** ITT *)
(** The same for the operations of the ITT branch; there is no time. *)
Inductive ifate := IHeld (w : nat) | IEnded (j : nat).
Definition ilater (f : ifate) : ifate := match f with IHeld w => IHeld w | IEnded j => IEnded (S j) end.
Fixpoint ifollow (v : nat) (h : list iop) : ifate :=
  match h with
  | [] => IHeld v
  | IMove u w :: h => ilater (ifollow (if Nat.eqb u v then w else v) h)
  | IDestroy u :: h => if Nat.eqb u v then IEnded 0 else ilater (ifollow v h)
  | _ :: h => ilater (ifollow v h)
  end.
(** What the ITT library does on a thread: __itt_task_end ends the task that was begun
    last and has not ended. [tasks es n open]: for every event, the position of the
    event that began the task it ends. *)
Fixpoint tasks (es : list (option event)) (n : nat) (open : list nat) : list (option nat) :=
  match es with
  | [] => []
  | Some (Begin _ _) :: es => None :: tasks es (S n) (n :: open)
  | Some End :: es => match open with b :: open => Some b :: tasks es (S n) open | [] => None :: tasks es (S n) [] end
  | None :: es => None :: tasks es (S n) open
  end.
(** Regions are closed innermost first. [stack]: the holders of the open
    regions, the last one begun first. Moves are allowed. *)
Fixpoint nested (h : list iop) (stack : list nat) : Prop :=
  match h with
  | [] => True
  | ITrace v _ _ domain :: h => nested h (if domain then v :: stack else stack)
  | IMove u w :: h => nested h (map (fun x => if Nat.eqb x u then w else x) stack)
  | IDestroy v :: h =>
      match stack with
      | [] => nested h []
      | u :: rest => if Nat.eqb u v then nested h rest else ~ In v rest /\ nested h stack
      end
  end.
(** Scoped use (GUANAQO_TRACE): objects are not moved and destroyed in the reverse order of
    construction. [stack]: the variables alive, innermost first. *)
Fixpoint scoped (h : list iop) (stack : list nat) : Prop :=
  match h with
  | [] => True
  | ITrace v _ _ _ :: h => scoped h (v :: stack)
  | IMove _ _ :: _ => False
  | IDestroy v :: h => match stack with u :: stack => u = v /\ scoped h stack | [] => False end
  end.
(** Every region that is closed in h closes its own task: [h2] is what happens after the call of trace(). *)
Definition closes_own_task (h : list iop) (es : list (option event)) : Prop :=
  forall h1 v name instance h2 j, h = h1 ++ ITrace v name instance true :: h2 -> ifollow v h2 = IEnded j ->
    nth_error (tasks es 0 []) (length h1 + 1 + j) = Some (Some (length h1)).
(** How often an id exists after these calls. *)
Fixpoint existing (i : Z) (es : list id_event) : Z :=
  match es with
  | [] => 0
  | Create k :: es => (if k =? i then 1 else 0) + existing i es
  | Discard k :: es => (if k =? i then -1 else 0) + existing i es
  end.
(** The number of loggers that were constructed (not by moving) and whose last owner is alive:
    [l] is followed as in [ifollow]. *)
Fixpoint lfollow (l : nat) (h : list lop) : bool :=
  match h with
  | [] => true
  | LMove a b :: h => lfollow (if Nat.eqb a l then b else l) h
  | LDestroy a :: h => if Nat.eqb a l then false else lfollow l h
  | _ :: h => lfollow l h
  end.
Fixpoint alive (h : list lop) : Z :=
  match h with
  | [] => 0
  | LNew l :: h => (if lfollow l h then 1 else 0) + alive h
  | _ :: h => alive h
  end.
