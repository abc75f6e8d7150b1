(** src/include/guanaqo/mat-view.hpp with the range of index_type: arithmetic on
    signed indices that leaves the range is [UB]. MatView_Model computes with
    unbounded integers. Functions without index arithmetic other than the loop
    counters (top_rows, left_cols, copy_values, operator=, operator+=, reassign) are the
    same as there. Simplification: index_type is a signed type that is not
    narrower than int (narrower types are promoted to int by the arithmetic). *)
From Verif Require Import Base MatView_Model.
Local Open Scope outcome_scope.
Local Open Scope Z_scope.

(** std::numeric_limits of index_type (mat-view.hpp:36) *)
Record index_type := Index { imin : Z; imax : Z }.
(** The result of an operation on two indices (mat-view.hpp:64) *)
Definition ix (I : index_type) (x : Z) : outcome Z :=
  if (imin I <=? x) && (x <=? imax I) then Ok x else UB.
(** static_cast of an unsigned number to index_type (mat-view.hpp:142): modulo 2^N *)
Definition cast (I : index_type) (x : Z) : Z :=
  (x - imin I) mod (imax I - imin I + 1) + imin I.

Section Ix.
Variable I : index_type.

(** PlainMatrixView with the default outer stride, mat-view.hpp:46-53 *)
Definition plain_ix (d r c is : Z) : outcome view :=
  os <- ix I (is * r) ;; Ok (View d r c is os).

(** operator(), mat-view.hpp:61-65 *)
Definition at_ix (v : view) (r c : Z) : outcome Z :=
  if (0 <=? r) && (r <? rows v) then
    if (0 <=? c) && (c <? cols v) then
      a <- ix I (r * inner_stride v) ;;
      b <- ix I (c * outer_stride v) ;;
      s <- ix I (a + b) ;;
      Ok (data v + s)
    else Abort
  else Abort.

(** mat-view.hpp:96-105 *)
Definition bottom_rows_ix (v : view) (n : Z) : outcome view :=
  if (0 <=? n) && (n <=? rows v) then
    k <- ix I (rows v - n) ;; o <- ix I (inner_stride v * k) ;;
    Ok (View (data v + o) n (cols v) (inner_stride v) (outer_stride v))
  else Abort.
(** mat-view.hpp:106-115 *)
Definition right_cols_ix (v : view) (n : Z) : outcome view :=
  if (0 <=? n) && (n <=? cols v) then
    k <- ix I (cols v - n) ;; o <- ix I (outer_stride v * k) ;;
    Ok (View (data v + o) (rows v) n (inner_stride v) (outer_stride v))
  else Abort.
(** mat-view.hpp:116-118 *)
Definition middle_rows_ix (v : view) (r n : Z) : outcome view :=
  k <- ix I (rows v - r) ;; w <- bottom_rows_ix v k ;; top_rows w n.
(** mat-view.hpp:119-121 *)
Definition middle_cols_ix (v : view) (c n : Z) : outcome view :=
  k <- ix I (cols v - c) ;; w <- right_cols_ix v k ;; left_cols w n.
(** mat-view.hpp:134-137 *)
Definition block_ix (v : view) (r c nr nc : Z) : outcome view :=
  w <- middle_rows_ix v r nr ;; middle_cols_ix w c nc.
(** as_column, mat-view.hpp:139-145, for a span of [n] elements *)
Definition as_column_ix (d n : Z) : outcome view := plain_ix d (cast I n) 1 1.

(** diagonal, mat-view.hpp:191-199 *)
Definition diagonal_ix (v : view) : outcome view :=
  let n := Z.max (rows v) (cols v) in
  s <- ix I (outer_stride v + inner_stride v) ;; plain_ix (data v) n 1 s.

Context {V : Type}.
(** set_constant, mat-view.hpp:157-165 *)
Definition set_constant_ix (v : view) (t : V) (m : mem V) : outcome (mem V) :=
  if inner_stride v =? 1 then
    for_ 0 (cols v) (fun c m =>
      o <- ix I (c * outer_stride v) ;; fill_n (data v + o) (rows v) t m) m
  else
    for_ 0 (cols v) (fun c m =>
      for_ 0 (rows v) (fun r m => a <- at_ix v r c ;; store m a t) m) m.

(** set_diagonal, mat-view.hpp:200-207 *)
Definition set_diagonal_ix (v : view) (t : V) (m : mem V) : outcome (mem V) :=
  let n := Z.max (rows v) (cols v) in
  '(m', _) <- for_ 0 n (fun _ '(m, p) =>
      m' <- store m p t ;;
      s <- ix I (outer_stride v + inner_stride v) ;; Ok (m', p + s)) (m, data v) ;;
  Ok m'.

(** generate, mat-view.hpp:288-293 *)
Definition generate_ix (gen : nat -> V) (v : view) (m : mem V) : outcome (mem V * nat) :=
  for_ 0 (cols v) (fun c s =>
    for_ 0 (rows v) (fun r '(m, k) =>
      a <- at_ix v r c ;; m' <- store m a (gen k) ;; Ok (m', Datatypes.S k)) s) (m, O).
End Ix.
