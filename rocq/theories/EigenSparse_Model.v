(** Model of linalg/eigen/sparse.hpp (src/include/guanaqo/linalg/eigen/sparse.hpp).
    Simplifications: values are not looked at by this code (only their pointer is
    passed on) and not modelled; sizes are natural numbers. Eigen's own
    nonZeros() is modelled after its documentation. *)
From Verif Require Import Base Sparsity_Spec Sparsity_Model EigenSparse_Spec.
Local Open Scope outcome_scope.

(** Eigen: M.nonZeros() of a compressed matrix / of one with per-column counts. used at linalg/eigen/sparse.hpp:33. *)
Definition non_zeros (M : eigen_sparse) : nat :=
  match e_nonzeros M with
  | None => at_ (e_outer M) (e_cols M) - at_ (e_outer M) 0
  | Some k => list_sum (map (fun c => at_ k c) (seq 0 (e_cols M)))
  end.
(** as_sparsity (28-46); lines 34-37: the two spans. *)
Definition as_sparsity (M : eigen_sparse) (sy : symmetry) : csc :=
  Csc (e_rows M) (e_cols M) sy (firstn (non_zeros M) (e_inner M)) (firstn (e_cols M + 1) (e_outer M)) SortedRows.
(** as_eigen (11-24) *)
Definition as_eigen (dbg : bool) (p : csc) : outcome eigen_sparse :=
  _ <- csc_nnz dbg p ;;
  Ok (EigenSparse (c_rows p) (c_cols p) (c_outer p) None (c_inner p)).
