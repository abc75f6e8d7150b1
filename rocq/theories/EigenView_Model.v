(** eigen/view.hpp and eigen/span.hpp. Eigen objects are described by what
    Eigen documents about them (trusted): data(), rows(), cols(), the strides,
    and the storage order, which decides which stride belongs to which index.
    Index type conversions are not modelled. *)
From Verif Require Import Base MatView_Model.
Local Open Scope Z_scope.

(** An Eigen object with direct access. [ct_inner]: InnerStrideAtCompileTime
    (None is Eigen::Dynamic); if it is known at compile time it equals the
    run-time value. the argument of eigen/view.hpp:17-44 and eigen/span.hpp:18-50. *)
Record eigen := Eigen {
  e_data : Z; e_rows : Z; e_cols : Z;
  e_inner : Z; e_outer : Z; e_rowmajor : bool; ct_inner : option Z }.

(** Address of coefficient (r, c) in Eigen. what eigen/view.hpp:17-44 has to agree with. *)
Definition coeff (M : eigen) (r c : Z) : Z :=
  if e_rowmajor M then e_data M + r * e_outer M + c * e_inner M
  else e_data M + c * e_outer M + r * e_inner M.

(** eigen/view.hpp 17-44: as_view_impl. The two branches (inner stride known at
    compile time, 38-42, or not, 29-34) give the same view parameters. *)
Definition as_view (M : eigen) : view :=
  match ct_inner M with
  | None => View (e_data M) (e_rows M) (e_cols M) (e_inner M) (e_outer M)
  | Some s => View (e_data M) (e_rows M) (e_cols M) s (e_outer M)
  end.

(** Eigen::Map<MatrixX, 0, Stride<Outer, Inner>>{data, rows, cols, stride}: a
    column-major object; a compile-time Inner of 0 means the default (1), any
    other compile-time value is used as such, Dynamic takes the run-time value.
    [inner_ct]: Stride's compile-time inner parameter (None: Dynamic). *)
Definition eigen_map (d r c outer inner : Z) (inner_ct : option Z) : eigen :=
  match inner_ct with
  | None => Eigen d r c inner outer false None
  | Some s => if s =? 0 then Eigen d r c 1 outer false (Some 1)
              else Eigen d r c s outer false (Some s)
  end.

(** eigen/view.hpp 98-138: as_eigen(MatrixView). [static_inner]: the view's
    inner stride is a compile-time constant. Eigen::Dynamic is -1. *)
Definition as_eigen (V : view) (static_inner : bool) : eigen :=
  if static_inner then
    if (inner_stride V =? 0) || (inner_stride V =? -1) then
      eigen_map (data V) (rows V) (cols V) (outer_stride V) (inner_stride V) None
    else if inner_stride V =? 1 then
      (* Eigen::OuterStride<> = Stride<Dynamic, 0> *)
      eigen_map (data V) (rows V) (cols V) (outer_stride V) 1 (Some 0)
    else eigen_map (data V) (rows V) (cols V) (outer_stride V) (inner_stride V) (Some (inner_stride V))
  else eigen_map (data V) (rows V) (cols V) (outer_stride V) (inner_stride V) None.

(** std::span<T>: data and size. the result of eigen/span.hpp:18-50. *)
Record span := Span { s_data : Z; s_size : Z }.
(** span[i] of the result of eigen/span.hpp:18-50 *)
Definition span_at (s : span) (i : Z) : Z := s_data s + i.
(** eigen/span.hpp 18-50: as_span (requires one column and unit inner stride at
    compile time; then the object is stored column-major). *)
Definition as_span (v : eigen) : span := Span (e_data v) (e_rows v * e_cols v).
(** eigen/span.hpp 52-64: as_eigen(span), a column vector. *)
Definition span_as_eigen (s : span) : eigen := Eigen (s_data s) (s_size s) 1 1 (s_size s) false (Some 1).
