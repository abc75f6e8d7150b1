(** eigen/view.hpp with its conversions between index types: as_view(M, with_index_type<I>)
    and as_eigen for a view with index type I. EigenView_Model leaves them out. *)
From Verif Require Import Base MatView_Model MatViewIndex_Model EigenView_Model.
Local Open Scope Z_scope.

(** eigen/view.hpp:17-44: as_view_impl. The static_casts of 22-24 and 29 are modulo 2^N
    (C++20). A compile-time inner stride (38) that I cannot represent does not compile
    (a narrowing template argument): [None]. *)
Definition as_view_ix (I : index_type) (M : eigen) : option view :=
  match ct_inner M with
  | None => Some (View (e_data M) (cast I (e_rows M)) (cast I (e_cols M)) (cast I (e_inner M)) (cast I (e_outer M)))
  | Some s => if (imin I <=? s) && (s <=? imax I)
              then Some (View (e_data M) (cast I (e_rows M)) (cast I (e_cols M)) s (cast I (e_outer M)))
              else None
  end.

(** eigen/view.hpp:98-138: as_eigen casts to Eigen::Index, [J] (103-105, 108, 132). *)
Definition as_eigen_ix (J : index_type) (V : view) (static_inner : bool) : eigen :=
  as_eigen (View (data V) (cast J (rows V)) (cast J (cols V)) (cast J (inner_stride V)) (cast J (outer_stride V))) static_inner.
