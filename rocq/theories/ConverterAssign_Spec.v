(** C67 with copy assignment: converters as values. Nothing here refers to the model. *)
From Verif Require Import Base ConverterCopy_Spec.
Local Arguments Nat.eqb : simpl never.

Inductive aop := Op (o : op) | CopyAssign (i j : nat). (* i = j *)
Section Spec.
Context (ext : nat -> list Z).
Definition aspec_step (m : nat -> var) (o : aop) : (nat -> var) * option (list (list Z)) :=
  match o with
  | Op o => spec_step ext m o
  | CopyAssign i j => match m i, m j with
                      | Free, _ => (m, None)
                      | _, Value v => (set m i (Value v), None)
                      | _, _ => (m, None) end
  end.
Fixpoint aspec_run (m : nat -> var) (ops : list aop) : list (option (list (list Z))) :=
  match ops with [] => [] | o :: os => let '(m', r) := aspec_step m o in r :: aspec_run m' os end.
End Spec.
(** A discipline: copies are only made of the converters in [S], and these are never destroyed, moved from or assigned to. *)
Definition disciplined (S : nat -> bool) (o : aop) : Prop :=
  match o with
  | Op (Make _ _ _) | Op (Read _) => True
  | Op (CopyTo i j) => S j = true
  | Op (MoveTo i j) => S j = false
  | Op (MoveAssign i j) => S i = false /\ S j = false
  | Op (Destroy i) => S i = false
  | CopyAssign i j => S i = false /\ S j = true
  end.
