(** Model of the visitors of src/include/guanaqo/linalg/sparsity.hpp (126-160):
    std::visit with detail::overloaded picks the alternative that is stored; of
    two applicable overloads the non-template one (const Dense &) is preferred. *)
From Verif Require Import Base Sparsity_Spec Sparsity_Model.
Local Open Scope outcome_scope.

(** is_dense (126-133) *)
Definition is_dense (s : sparsity) : bool :=
  match s with SpDense _ => true | SpCsc _ _ _ | SpCoo _ _ => false end.
(** get_nnz (135-142); length_t is std::ptrdiff_t (config.hpp:8), the product of
    two lengths can overflow. SparseCSC::nnz() and SparseCOO::nnz(): Sparsity_Model. *)
Definition get_nnz (dbg : bool) (s : sparsity) : outcome Z :=
  match s with
  | SpDense d => chk Long (Z.of_nat (d_rows d) * Z.of_nat (d_cols d))%Z
  | SpCsc _ _ p => n <- csc_nnz dbg p ;; Ok (Z.of_nat n)
  | SpCoo _ p => n <- coo_nnz dbg p ;; Ok (Z.of_nat n)
  end.
(** get_symmetry (144-147) *)
Definition get_symmetry (s : sparsity) : symmetry :=
  match s with SpDense d => d_sym d | SpCsc _ _ p => c_sym p | SpCoo _ p => o_sym p end.
(** num_rows (149-152) *)
Definition num_rows (s : sparsity) : nat :=
  match s with SpDense d => d_rows d | SpCsc _ _ p => c_rows p | SpCoo _ p => o_rows p end.
(** num_cols (154-157) *)
Definition num_cols (s : sparsity) : nat :=
  match s with SpDense d => d_cols d | SpCsc _ _ p => c_cols p | SpCoo _ p => o_cols p end.

(** Sparsity{converter.get_sparsity()} (111-116; sparsity-conversions.hpp:54, 88,
    158, 266, 344, 397, 511, 620, 700) for a converter to the given target. *)
Definition result_sparsity (to : target) (c : conv) : option sparsity :=
  match to with
  | ToDense => option_map SpDense (result_dense c)
  | ToCoo ti _ => option_map (SpCoo ti) (result_coo c)
  | ToCsc ti ts _ => option_map (SpCsc ti ts) (result_csc c)
  end.
