From Verif Require Import Base RingIndex_Model.
Local Open Scope Z_scope.

(** An integer type: contains 0, and as many values as a power of two does not matter here. *)
Definition integer_type (T : itype) : Prop := tmin T <= 0 < tmax T.
Definition fits (T : itype) (x : Z) : Prop := tmin T <= x <= tmax T.
(** The entries a range of [size] elements that starts at [idx1] should give. *)
Definition entries (size idx1 max : Z) : list (Z * Z) :=
  map (fun k => (Z.of_nat k, (idx1 + Z.of_nat k) mod max)) (seq 0 (Z.to_nat size)).
(** How far a sequence of ++ and -- goes. *)
Fixpoint displacement (l : list bool) : Z :=
  match l with [] => 0 | b :: l' => (if b then 1 else -1) + displacement l' end.
(** Every position on the way satisfies [P]. *)
Definition on_the_way (P : Z -> Prop) (z : Z) (l : list bool) : Prop :=
  forall k, (k <= length l)%nat -> P (z + displacement (firstn k l)).
