(** Which outer strides BLAS accepts for a column-major matrix. *)
From Verif Require Import Base MatView_Model.
Local Open Scope Z_scope.
Definition shaped (v : view) : Prop := 0 <= rows v /\ 0 <= cols v.
Definition stride_ok (v : view) : Prop := 1 <= outer_stride v /\ rows v <= outer_stride v.
