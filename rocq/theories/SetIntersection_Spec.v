(** What the (multi)set intersection of two sorted ranges is. *)
From Verif Require Import Base.

Section Spec.
Context {A B K : Type} (comp : K -> K -> bool) (proj1 : A -> K) (proj2 : B -> K).

Record strict_weak_order : Prop := {
  swo_irrefl : forall a, comp a a = false;
  swo_trans : forall a b c, comp a b = true -> comp b c = true -> comp a c = true;
  swo_weak : forall a b c, comp a b = false -> comp b c = false -> comp a c = false
}.

Definition equiv (k1 k2 : K) : bool := negb (comp k1 k2) && negb (comp k2 k1).

(** A range is sorted if no later key is smaller than an earlier one. *)
Definition sorted_by {X} (proj : X -> K) (l : list X) : Prop :=
  forall i j x y, i < j -> nth_error l i = Some x -> nth_error l j = Some y ->
    comp (proj y) (proj x) = false.

(** How many of the first [n] elements of [l] have a key equivalent to [k]. *)
Definition occurrences {X} (proj : X -> K) (l : list X) (n : nat) (k : K) : nat :=
  length (filter (fun x => equiv k (proj x)) (firstn n l)).

(** Positions [i] and [j] are partners: their keys are equivalent and they are
    the same-numbered occurrence of that key in their ranges. *)
Definition partners (l1 : list A) (l2 : list B) (i j : nat) : Prop :=
  exists a b, nth_error l1 i = Some a /\ nth_error l2 j = Some b /\
    equiv (proj1 a) (proj2 b) = true /\
    occurrences proj1 l1 i (proj1 a) = occurrences proj2 l2 j (proj2 b).
End Spec.
