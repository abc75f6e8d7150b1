(** What the matrices of a strided batch are, and matrix formulas for them. Only
    the memory and the BLAS enumerations are taken from the model. *)
From Verif Require Import Base MatView_Model HlBlas_Model HlBlas_Spec.
Local Open Scope Z_scope.

(** Where element (r, c) of a matrix stored at [p] with leading dimension [ld] lives. *)
Definition place (l : layout) (p ld r c : Z) : Z :=
  match l with ColMajor => p + r + ld * c | RowMajor => p + ld * r + c end.
(** The leading dimension leaves room for a column (row-major: a row). *)
Definition fits (l : layout) (rows cols ld : Z) : Prop :=
  0 <= rows /\ 0 <= cols /\ 1 <= ld /\ match l with ColMajor => rows <= ld | RowMajor => cols <= ld end.

(** Positions of one triangle, with or without diagonal. *)
Definition in_triangle (u : uplo) (d : diag) (r c : Z) : Prop :=
  match u with Lower_ => c <= r | Upper_ => r <= c end /\ match d with NonUnit => True | Unit => r <> c end.
Definition whole (r c : Z) : Prop := True.

(** A batch: matrix i of [n] is [rows] x [cols], at [p + i * stride]; its elements at
    positions in [P] are what an operation accesses. *)
Record batch := Batch {
  b_layout : layout; b_ptr : Z; b_ld : Z; b_stride : Z;
  b_rows : Z; b_cols : Z; b_part : Z -> Z -> Prop }.
(** A batch of matrices X, read as a whole, for which op(X) is rows x cols. *)
Definition stored_batch (t : transpose) (l : layout) (p ld stride rows cols : Z) : batch :=
  match t with
  | NoTrans => Batch l p ld stride rows cols whole
  | Trans => Batch l p ld stride cols rows whole
  end.
(** A batch of vectors of [n] elements that are [inc] apart, as 1 x n matrices. *)
Definition vector_batch (p inc stride n : Z) : batch := Batch ColMajor p inc stride 1 n whole.
Definition accessed (b : batch) (r c : Z) : Prop := 0 <= r < b_rows b /\ 0 <= c < b_cols b /\ b_part b r c.
Definition cell (b : batch) (i r c : Z) : Z := place (b_layout b) (b_ptr b + i * b_stride b) (b_ld b) r c.

Section Spec.
Context {V : Type} (zero one : V) (add mul : V -> V -> V).

Definition allocated (n : Z) (b : batch) (m : mem V) : Prop :=
  fits (b_layout b) (b_rows b) (b_cols b) (b_ld b) /\
  forall i r c, 0 <= i < n -> accessed b r c -> m (cell b i r c) <> None.
(** No accessed element of a matrix of [b] is one of a matrix of [b']. *)
Definition separate (n : Z) (b b' : batch) : Prop :=
  forall i j r c r' c', 0 <= i < n -> 0 <= j < n -> accessed b r c -> accessed b' r' c' ->
    cell b i r c <> cell b' j r' c'.
(** The matrices of [b] do not overlap each other. *)
Definition spread_out (n : Z) (b : batch) : Prop :=
  forall i j r c r' c', 0 <= i < n -> 0 <= j < n -> i <> j -> accessed b r c -> accessed b r' c' ->
    cell b i r c <> cell b j r' c'.

(** Matrix i of the batch. *)
Definition matrix_of (m : mem V) (b : batch) (i : Z) : matrix :=
  fun r c => match m (cell b i r c) with Some x => x | None => zero end.
Definition maybe_transposed (t : transpose) (f : matrix (V := V)) : matrix :=
  match t with NoTrans => f | Trans => transposed f end.
(** The triangular matrix of which [f] holds one triangle (of a unit triangular
    matrix, the elements off the diagonal). *)
Definition triangular (u : uplo) (d : diag) (f : matrix (V := V)) : matrix :=
  fun r c =>
    if r =? c then match d with Unit => one | NonUnit => f r c end
    else if match u with Lower_ => c <? r | Upper_ => r <? c end then f r c else zero.

(** [m'] is [m] with matrix i of batch [b] replaced, where accessed, by [f i], for
    every i < n; nothing else changes. *)
Definition batch_updated (n : Z) (b : batch) (f : Z -> matrix (V := V)) (m m' : mem V) : Prop :=
  (forall i r c, 0 <= i < n -> accessed b r c -> m' (cell b i r c) = Some (f i r c)) /\
  (forall a, (forall i r c, 0 <= i < n -> accessed b r c -> a <> cell b i r c) -> m' a = m a).
End Spec.
