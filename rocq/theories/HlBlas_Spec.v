(** Matrix algebra on the elements of views; from the model only the memory and
    the record of view parameters are used. *)
From Verif Require Import Base MatView_Model MatView_Spec.
Local Open Scope Z_scope.

Section Spec.
Context {V : Type} (zero : V) (add mul : V -> V -> V).

(** The matrix that a view shows of the memory. *)
Definition shown (m : mem V) (v : view) (i j : Z) : V :=
  match m (elem v i j) with Some x => x | None => zero end.

(** f 0 + (f 1 + (... + (f (n-1) + 0))) *)
Fixpoint sum_from (n : nat) (k : Z) (f : Z -> V) : V :=
  match n with O => zero | S n' => add (f k) (sum_from n' (k + 1) f) end.
Definition Sum (n : Z) (f : Z -> V) : V := sum_from (Z.to_nat n) 0 f.

Definition matrix := Z -> Z -> V.
(** Product of matrices with inner dimension [n]. *)
Definition product (n : Z) (f g : matrix) : matrix := fun i j => Sum n (fun k => mul (f i k) (g k j)).
Definition transposed (f : matrix) : matrix := fun i j => f j i.
Definition scaled (a : V) (f : matrix) : matrix := fun i j => mul a (f i j).
Definition plus (f g : matrix) : matrix := fun i j => add (f i j) (g i j).
(** The lower triangle of f, zero above the diagonal. *)
Definition lower_part (f : matrix) : matrix := fun i j => if j <=? i then f i j else zero.

Definition all_positions (i j : Z) : Prop := True.
Definition lower_positions (i j : Z) : Prop := j <= i.

(** [m'] is [m] with the elements of [v] at the positions in [P] replaced by
    those of [f], and nothing else changed. *)
Definition updated (m m' : mem V) (v : view) (P : Z -> Z -> Prop) (f : matrix) : Prop :=
  (forall i j, in_range v i j -> P i j -> m' (elem v i j) = Some (f i j)) /\
  (forall a, (forall i j, in_range v i j -> P i j -> a <> elem v i j) -> m' a = m a).

(** A MatrixView<T, I> (inner stride 1) with room for its columns that BLAS
    accepts; the positions in [P] are allocated. *)
Definition usable (P : Z -> Z -> Prop) (v : view) (m : mem V) : Prop :=
  inner_stride v = 1 /\ 0 <= rows v /\ 0 <= cols v /\ 1 <= outer_stride v /\ rows v <= outer_stride v /\
  forall i j, in_range v i j -> P i j -> m (elem v i j) <> None.
(** A column vector: the outer stride does not matter. *)
Definition usable_vector (v : view) (m : mem V) : Prop :=
  inner_stride v = 1 /\ 0 <= rows v /\ cols v = 1 /\
  forall i, 0 <= i < rows v -> m (elem v i 0) <> None.
(** No element of [v] in [P] is stored where one of [w] in [Q] is. *)
Definition apart (v : view) (P : Z -> Z -> Prop) (w : view) (Q : Z -> Z -> Prop) : Prop :=
  forall i j k l, in_range v i j -> P i j -> in_range w k l -> Q k l -> elem v i j <> elem w k l.

(** The two matrices agree at all positions of [v]. *)
Definition agree_on (v : view) (f g : matrix) : Prop := forall i j, in_range v i j -> f i j = g i j.
(** No zero on the diagonal. *)
Definition nonsingular (v : view) (m : mem V) : Prop := forall i, 0 <= i < rows v -> shown m v i i <> zero.
End Spec.
