(** Vocabulary for the string properties, independent of the model. *)
From Verif Require Import Base.

(** [tok] occurs in [s] at position [p]. *)
Definition occurs_at (tok s : list Z) (p : nat) : Prop :=
  exists a b, s = a ++ tok ++ b /\ length a = p.
Definition occurs (tok s : list Z) : Prop := exists p, occurs_at tok s p.

(** No proper nonempty prefix of [s] is also a suffix of [s]. *)
Definition unbordered (s : list Z) : Prop :=
  forall a b c, s = a ++ b -> s = c ++ a -> a <> [] -> a = s.

(** s0 sep s1 sep ... *)
Fixpoint interspersed (sep : list Z) (l : list (list Z)) : list Z :=
  match l with
  | [] => []
  | [s] => s
  | s :: l' => s ++ sep ++ interspersed sep l'
  end.

(** [a] is lexicographically before [b]: it is a proper prefix, or it is smaller at
    the first difference. *)
Definition lex_before (a b : list Z) : Prop :=
  (exists c r, b = a ++ c :: r) \/
  (exists p x y r s, a = p ++ x :: r /\ b = p ++ y :: s /\ (x < y)%Z).
