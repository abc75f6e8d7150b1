(** What a strided view denotes; only the record of view parameters is shared
    with the model. *)
From Verif Require Import Base MatView_Model.
Local Open Scope Z_scope.

(** Element (r, c) is stored at this address. *)
Definition elem (v : view) (r c : Z) : Z := data v + r * inner_stride v + c * outer_stride v.
Definition in_range (v : view) (r c : Z) : Prop := 0 <= r < rows v /\ 0 <= c < cols v.
(** [a] is the address of an element of the view. *)
Definition is_elem (v : view) (a : Z) : Prop := exists r c, in_range v r c /\ a = elem v r c.
(** All elements are allocated. *)
Definition allocated {V} (v : view) (m : mem V) : Prop := forall a, is_elem v a -> m a <> None.
(** Different positions are different addresses. *)
Definition no_self_overlap (v : view) : Prop :=
  forall r c r' c', in_range v r c -> in_range v r' c' -> elem v r c = elem v r' c' -> r = r' /\ c = c'.
Definition disjoint (v w : view) : Prop := forall a, is_elem v a -> ~ is_elem w a.

(** Position (r, c) belongs to the triangle. *)
Definition in_triangle (tr : triangular) (r c : Z) : Prop :=
  match tr with
  | Lower => c <= r
  | StrictlyLower => c < r
  | Upper => r <= c
  | StrictlyUpper => r < c
  end.

(** [w] is the [nr] x [nc] part of [v] that starts at (r0, c0): accessing element
    (i, j) of [w] is a legal access to element (r0+i, c0+j) of [v]. *)
Definition subview (v w : view) (r0 c0 nr nc : Z) : Prop :=
  rows w = nr /\ cols w = nc /\
  forall i j, 0 <= i < nr -> 0 <= j < nc ->
    exists a, at_ v (r0 + i) (c0 + j) = Ok a /\ at_ w i j = Ok a.

(** The part at (r0, c0) of size nr x nc lies inside [v]. *)
Definition inside (v : view) (r0 c0 nr nc : Z) : Prop :=
  0 <= r0 /\ 0 <= nr /\ r0 + nr <= rows v /\ 0 <= c0 /\ 0 <= nc /\ c0 + nc <= cols v.

(** A request answered by [res] is correct: inside the view it gives the sub-view,
    otherwise it trips an assertion. *)
Definition answers (v : view) (res : outcome view) (r0 c0 nr nc : Z) : Prop :=
  (inside v r0 c0 nr nc -> exists w, res = Ok w /\ subview v w r0 c0 nr nc) /\
  (~ inside v r0 c0 nr nc -> res = Abort).
