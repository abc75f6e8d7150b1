(** C71: what the helpers of linalg/sparse-ops.hpp promise when they are called on
    their own, on any arrays. *)
From Verif Require Import Base Sparsity_Spec.

(** Number of elements of [l] below [v]. *)
Definition below (l : list Z) (v : Z) : nat := length (filter (fun x => (x <? v)%Z) l).
(** [outer] cuts arrays of length [n] into consecutive ranges (it need not start at
    0 nor end at [n]). *)
Definition cuts (outer : list Z) (n : nat) : Prop :=
  (forall c, S c < length outer -> (nth c outer 0 <= nth (S c) outer 0)%Z) /\
  Forall (fun z => (0 <= z <= Z.of_nat n)%Z) outer.
(** Two arrays read in lock step. *)
Definition pairs {A B} (a : list A) (b : list B) : list (A * B) := combine a b.
