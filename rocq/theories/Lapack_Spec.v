(** Factorizations and inverses of matrices, see HlBlas_Spec for the matrices. *)
From Verif Require Import Base MatView_Model MatView_Spec HlBlas_Spec.
From Coq Require Import Reals.
Local Open Scope Z_scope.

Section Spec.
Context {V : Type} (zero one : V) (add mul : V -> V -> V).
Definition identity : matrix (V := V) := fun i j => if i =? j then one else zero.
(** The symmetric matrix of which [f] gives the lower triangle. *)
Definition symmetrized (f : matrix (V := V)) : matrix (V := V) := fun i j => if j <=? i then f i j else f j i.
(** f and g agree as n x n matrices. *)
Definition agree (n : Z) (f g : matrix (V := V)) : Prop :=
  forall i j, 0 <= i < n -> 0 <= j < n -> f i j = g i j.
End Spec.

(** x^T f x > 0 for all x <> 0, over the reals. *)
Definition positive_definite (n : Z) (f : matrix (V := R)) : Prop :=
  forall x : Z -> R, (exists i, 0 <= i < n /\ x i <> 0%R) ->
    (0 < Sum 0 Rplus n (fun i => Sum 0 Rplus n (fun j => x i * f i j * x j)))%R.

Section Frame.
Context {V : Type}.
(** Only elements of [v] at positions in [P] differ between [m] and [m']. *)
Definition changes_only (m m' : mem V) (v : view) (P : Z -> Z -> Prop) : Prop :=
  forall a, (forall i j, in_range v i j -> P i j -> a <> elem v i j) -> m' a = m a.
End Frame.
