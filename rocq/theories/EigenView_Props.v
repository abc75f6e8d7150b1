(** C61: Eigen and guanaqo views. *)
From Verif Require Import Base MatView_Model MatView_Spec EigenView_Model.
Local Open Scope Z_scope.

(** The compile-time inner stride, when known, is the inner stride. *)
Definition consistent (M : eigen) : Prop := forall s, ct_inner M = Some s -> e_inner M = s.

(** C61 is false for row-major objects, row vectors included: as_view uses the
    strides as if they were column-major. The 1 x 3 row vector at address 0
    (addresses 0, 1, 2) becomes a view whose element (0, 2) is at address 6,
    outside the vector. *)
Theorem C61_as_view_refuted :
  let M := Eigen 0 1 3 1 3 true (Some 1) in
  consistent M /\ in_range (as_view M) 0 2 /\
  (forall r c, in_range (as_view M) r c -> 0 <= coeff M r c < 3) /\
  coeff M 0 2 = 2 /\ elem (as_view M) 0 2 = 6 /\ at_ (as_view M) 0 2 = Ok 6.
Proof.
  cbn zeta. split; [intros s [= <-]; reflexivity|]. split; [unfold in_range; cbn; lia|].
  split; [|repeat split]. intros r c [Hr Hc]. unfold coeff; cbn in *. lia.
Qed.
Print Assumptions C61_as_view_refuted.

(** What holds: for column-major objects of every shape and strides, as_view
    gives a view of the same shape with the same elements. *)
Theorem C61_as_view_partial :
  forall M, consistent M -> e_rowmajor M = false ->
    rows (as_view M) = e_rows M /\ cols (as_view M) = e_cols M /\
    forall r c, elem (as_view M) r c = coeff M r c.
Proof.
  intros [d nr nc i o rm ct] H Hr. cbn in Hr; subst rm. unfold as_view, elem, coeff; cbn [ct_inner e_data e_rows e_cols e_inner e_outer e_rowmajor].
  destruct ct as [s|]; cbn [data rows cols inner_stride outer_stride].
  - pose proof (H s eq_refl) as E. cbn in E; subst. repeat split; intros; lia.
  - repeat split; intros; lia.
Qed.
Print Assumptions C61_as_view_partial.

(** as_eigen(V)(r, c) is V(r, c), for all shapes and strides, including the
    compile-time inner strides 0 and -1 that Eigen reserves. *)
Theorem C61_as_eigen :
  forall V st, consistent (as_eigen V st) /\
    e_rows (as_eigen V st) = rows V /\ e_cols (as_eigen V st) = cols V /\
    forall r c, coeff (as_eigen V st) r c = elem V r c.
Proof.
  intros [d nr nc i o] st. unfold as_eigen, elem, consistent; cbn [data rows cols inner_stride outer_stride].
  destruct st.
  - destruct ((i =? 0) || (i =? -1)) eqn:E.
    + cbn. repeat split; intros; [discriminate|unfold coeff; cbn; lia].
    + destruct (i =? 1) eqn:E1; cbn.
      * repeat split; intros; [congruence|unfold coeff; cbn; lia].
      * apply orb_false_iff in E as [E0 _]. rewrite E0. cbn. repeat split; intros; [congruence|unfold coeff; cbn; lia].
  - cbn. repeat split; intros; [discriminate|unfold coeff; cbn; lia].
Qed.
Print Assumptions C61_as_eigen.

(** View to Eigen and back is the identity. *)
Theorem C61_round_trip :
  forall V st, as_view (as_eigen V st) = V.
Proof.
  intros [d nr nc i o] st. unfold as_eigen, as_view; cbn [data rows cols inner_stride outer_stride].
  destruct st; [|reflexivity].
  destruct ((i =? 0) || (i =? -1)) eqn:E; [reflexivity|].
  destruct (i =? 1) eqn:E1; [apply Z.eqb_eq in E1; subst; reflexivity|].
  apply orb_false_iff in E as [E0 _]. unfold eigen_map. rewrite E0. reflexivity.
Qed.
Print Assumptions C61_round_trip.

(** Vectors: a column vector with unit stride and its span have the same size
    and elements, and a span survives the round trip. *)
Theorem C61_span :
  (forall v i, e_cols v = 1 -> e_inner v = 1 -> e_rowmajor v = false ->
     s_size (as_span v) = e_rows v /\ span_at (as_span v) i = coeff v i 0) /\
  (forall s i, coeff (span_as_eigen s) i 0 = span_at s i /\ e_rows (span_as_eigen s) = s_size s /\ e_cols (span_as_eigen s) = 1) /\
  (forall s, as_span (span_as_eigen s) = s).
Proof.
  split; [|split].
  - intros [d nr nc i o rm ct] k; cbn. intros -> -> ->. unfold span_at, coeff; cbn. split; lia.
  - intros [d n] i. unfold span_at, coeff; cbn. repeat split; lia.
  - intros [d n]. unfold as_span; cbn. f_equal. lia.
Qed.
Print Assumptions C61_span.

(** A span seen as an Eigen vector and then as a view: one column with the elements of the span. *)
Theorem C61_span_view :
  forall s, consistent (span_as_eigen s) /\ rows (as_view (span_as_eigen s)) = s_size s /\ cols (as_view (span_as_eigen s)) = 1 /\ forall i, elem (as_view (span_as_eigen s)) i 0 = span_at s i.
Proof.
  intros [d n]. unfold consistent, as_view, elem, span_at; cbn.
  split; [intros s [= <-]; reflexivity|]. split; [reflexivity|]. split; [reflexivity|]. intros; lia.
Qed.
Print Assumptions C61_span_view.

Example C61_nonvacuous :
  let M := Eigen 10 2 3 2 7 false (Some 2) in
  consistent M /\ at_ (as_view M) 1 2 = Ok (coeff M 1 2) /\ coeff M 1 2 = 26 /\
  coeff (as_eigen (View 10 2 3 0 7) true) 1 2 = 24.
Proof. cbn zeta. split; [intros s [= <-]; reflexivity|repeat split]. Qed.

(** Exactly when as_view agrees with the Eigen object. *)
Theorem C61_exact :
  forall M, consistent M ->
    ((forall r c, in_range (as_view M) r c -> elem (as_view M) r c = coeff M r c) <->
     (e_rowmajor M = false \/ e_inner M = e_outer M \/ e_rows M <= 0 \/ e_cols M <= 0 \/ (e_rows M = 1 /\ e_cols M = 1))).
Proof.
  intros [d nr nc i o rm ct] H. unfold as_view, elem, coeff, in_range; cbn [ct_inner e_data e_rows e_cols e_inner e_outer e_rowmajor].
  assert (W : match ct with Some s => View d nr nc s o | None => View d nr nc i o end = View d nr nc i o).
  { destruct ct as [s|]; [|reflexivity]. specialize (H s eq_refl). cbn in H. now subst. }
  rewrite W; cbn [data rows cols inner_stride outer_stride]. clear W H.
  destruct rm; [|split; [auto|intros _ r c _; lia]]. split.
  - intros A. destruct (Z_le_dec nr 0); [auto|]. destruct (Z_le_dec nc 0); [auto|].
    destruct (Z.eq_dec i o) as [|N]; [auto|].
    destruct (Z.eq_dec nr 1) as [R|R].
    + destruct (Z.eq_dec nc 1) as [C|C]; [auto 6|]. specialize (A 0 1 ltac:(lia)). lia.
    + specialize (A 1 0 ltac:(lia)). lia.
  - intros [A|[A|[A|[A|A]]]] r c [Hr Hc].
    + discriminate A.
    + rewrite A. lia.
    + lia.
    + lia.
    + assert (r = 0 /\ c = 0) as [-> ->] by lia. lia.
Qed.
Print Assumptions C61_exact.

(** Row-major matrices of every larger shape with distinct strides are wrong. *)
Example C61_exact_nonvacuous :
  ~ (forall r c, in_range (as_view (Eigen 0 2 3 1 3 true (Some 1))) r c ->
       elem (as_view (Eigen 0 2 3 1 3 true (Some 1))) r c = coeff (Eigen 0 2 3 1 3 true (Some 1)) r c).
Proof.
  intros H. apply C61_exact in H; [|intros s [= <-]; reflexivity].
  cbn in H. destruct H as [H|[H|[H|[H|[H H']]]]]; try discriminate H; lia.
Qed.
