(** C67: a converter is a value. Nothing here refers to the model. *)
From Verif Require Import Base.
Local Arguments Nat.eqb : simpl never.

(** What can be done with the converters in numbered variables. [Make i own ext]:
    construct a converter whose pattern consists of freshly computed index arrays
    [own] and of arrays [ext] of the source that are reused. *)
Inductive op :=
| Make (i : nat) (own : list (list Z)) (ext : list nat)
| CopyTo (i j : nat)      (* variable i is copy-constructed from j *)
| MoveTo (i j : nat)      (* variable i is move-constructed from j *)
| MoveAssign (i j : nat)  (* i = std::move(j) *)
| Destroy (i : nat)
| Read (i : nat).         (* get_sparsity(), read all indices *)
Definition set {A} (m : nat -> A) (i : nat) (x : A) : nat -> A := fun j => if Nat.eqb j i then x else m j.

(** State of a variable in the value semantics. *)
Inductive var := Free | MovedFrom | Value (arrays : list (list Z)).
Section Spec.
Context (ext : nat -> list Z). (* the index arrays of the sources; the caller keeps them alive *)
(** Result of a [Read]: the arrays, if the variable has a value. Operations on
    variables in the wrong state do nothing. *)
Definition spec_step (m : nat -> var) (o : op) : (nat -> var) * option (list (list Z)) :=
  match o with
  | Make i own e => match m i with Free => (set m i (Value (own ++ map ext e)), None) | _ => (m, None) end
  | CopyTo i j => match m i, m j with Free, Value v => (set m i (Value v), None) | _, _ => (m, None) end
  | MoveTo i j => match m i, m j with Free, Value v => (set (set m i (Value v)) j MovedFrom, None) | _, _ => (m, None) end
  | MoveAssign i j => match m i, m j with
      | Free, _ => (m, None)
      | _, Value v => if Nat.eqb i j then (m, None) else (set (set m i (Value v)) j MovedFrom, None)
      | _, _ => (m, None) end
  | Destroy i => match m i with Free => (m, None) | _ => (set m i Free, None) end
  | Read i => match m i with Value v => (m, Some v) | _ => (m, None) end
  end.
End Spec.

Fixpoint spec_run (ext : nat -> list Z) (m : nat -> var) (ops : list op) : list (option (list (list Z))) :=
  match ops with [] => [] | o :: os => let '(m', r) := spec_step ext m o in r :: spec_run ext m' os end.

(** ** Who lends *)
(** The value semantics with book-keeping: every converter that is made or copied gets a
    store of its own for the arrays it computes (a number, never used twice). [holds]: the
    store that the variable owns; [reads]: the store its pattern refers to. A copy gets a
    new store but reads the one that its source reads. *)
Inductive lvar := LFree | LMoved | LValue (arrays : list (list Z)) (computed : bool) (holds reads : nat).
Record lstate := LState { lvars : nat -> lvar; alive : nat -> bool; stores : nat }.
Section Loan.
Context (ext : nat -> list Z).
(** The store of a variable that is destroyed or overwritten is given up. *)
Definition give_up (v : lvar) (a : nat -> bool) : nat -> bool :=
  match v with LValue _ _ h _ => set a h false | _ => a end.
(** A [Read]: the arrays, or undefined behaviour ([None]) if the pattern has computed
    arrays and the store it reads is gone. *)
Definition loan_step (l : lstate) (o : op) : lstate * option (option (list (list Z))) :=
  match o with
  | Make i own e =>
      match lvars l i with
      | LFree => (LState (set (lvars l) i (LValue (own ++ map ext e) (match own with [] => false | _ => true end) (stores l) (stores l)))
                         (set (alive l) (stores l) true) (S (stores l)), None)
      | _ => (l, None) end
  | CopyTo i j =>
      match lvars l i, lvars l j with
      | LFree, LValue v c _ r => (LState (set (lvars l) i (LValue v c (stores l) r)) (set (alive l) (stores l) true) (S (stores l)), None)
      | _, _ => (l, None) end
  | MoveTo i j =>
      match lvars l i, lvars l j with
      | LFree, LValue v c h r => (LState (set (set (lvars l) i (LValue v c h r)) j LMoved) (alive l) (stores l), None)
      | _, _ => (l, None) end
  | MoveAssign i j =>
      match lvars l i, lvars l j with
      | LFree, _ => (l, None)
      | old, LValue v c h r =>
          if Nat.eqb i j then (l, None)
          else (LState (set (set (lvars l) i (LValue v c h r)) j LMoved) (give_up old (alive l)) (stores l), None)
      | _, _ => (l, None) end
  | Destroy i => match lvars l i with LFree => (l, None) | old => (LState (set (lvars l) i LFree) (give_up old (alive l)) (stores l), None) end
  | Read i => match lvars l i with
              | LValue v c _ r => (l, Some (if c then if alive l r then Some v else None else Some v))
              | _ => (l, None) end
  end.
Fixpoint loan_run (l : lstate) (ops : list op) : list (option (option (list (list Z)))) :=
  match ops with [] => [] | o :: os => let '(l', r) := loan_step l o in r :: loan_run l' os end.
Definition no_loans : lstate := LState (fun _ => LFree) (fun _ => false) 0.
End Loan.
