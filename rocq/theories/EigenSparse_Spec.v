(** C72: column-major Eigen sparse matrices and the entries they stand for. *)
From Verif Require Import Base Sparsity_Spec.

(** What Eigen's SparseCompressedBase exposes: outerIndexPtr (cols + 1 numbers),
    innerNonZeroPtr (null for a compressed matrix), the innerIndexPtr buffer. *)
Record eigen_sparse := EigenSparse { e_rows : nat; e_cols : nat; e_outer : list Z; e_nonzeros : option (list Z); e_inner : list Z }.
(** Number of entries of column [c]. *)
Definition column_count (M : eigen_sparse) (c : nat) : nat :=
  match e_nonzeros M with Some k => at_ k c | None => at_ (e_outer M) (S c) - at_ (e_outer M) c end.
Definition eigen_column (M : eigen_sparse) (c : nat) : list Z :=
  slice (e_inner M) (at_ (e_outer M) c) (at_ (e_outer M) c + column_count M c).
(** The stored (row, column) pairs in storage order. *)
Definition eigen_entries (M : eigen_sparse) : list (Z * Z) :=
  flat_map (fun c => map (fun r => (r, Z.of_nat c)) (eigen_column M c)) (seq 0 (e_cols M)).
(** Eigen's invariants (also of column blocks, whose first offset need not be 0). *)
Definition eigen_ok (M : eigen_sparse) : Prop :=
  length (e_outer M) = S (e_cols M) /\
  (forall c, c < e_cols M -> (nth c (e_outer M) 0 <= nth (S c) (e_outer M) 0)%Z) /\
  (0 <= nth 0 (e_outer M) 0)%Z /\ (nth (e_cols M) (e_outer M) 0 <= Z.of_nat (length (e_inner M)))%Z /\
  (forall k, e_nonzeros M = Some k -> length k = e_cols M /\
     forall c, c < e_cols M -> (0 <= nth c k 0 <= nth (S c) (e_outer M) 0 - nth c (e_outer M) 0)%Z) /\
  (forall c, c < e_cols M -> Forall (in_bounds (e_rows M)) (eigen_column M c)).
Definition eigen_sorted (M : eigen_sparse) : Prop := forall c, c < e_cols M -> StronglySorted Z.le (eigen_column M c).
(** A compressed matrix that owns its storage (or a map): no gaps, first offset 0. *)
Definition compressed (M : eigen_sparse) : Prop := e_nonzeros M = None /\ nth 0 (e_outer M) 0%Z = 0%Z.
