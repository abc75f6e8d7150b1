(** C61 with index types other than Eigen::Index. *)
From Verif Require Import Base MatView_Model MatView_Spec MatViewIndex_Model MatViewIndex_Props EigenView_Model EigenView_Props
  EigenViewIndex_Model.
Local Open Scope Z_scope.

Definition representable (I : index_type) (x : Z) : Prop := imin I <= x <= imax I.

Lemma cast_exact I x : imin I <= imax I -> (cast I x = x <-> representable I x).
Proof.
  intros H. unfold cast, representable. pose proof (Z.mod_pos_bound (x - imin I) (imax I - imin I + 1) ltac:(lia)) as B.
  split; [lia|]. intros R. rewrite Z.mod_small by lia. lia.
Qed.

(** as_view with another index type describes the same matrix exactly if the sizes and
    strides are representable; otherwise they are silently reduced modulo 2^N. *)
Theorem C61_index_type_exact :
  forall bits M, 2 <= bits -> consistent M ->
    let I := signed bits in
    (forall v, as_view_ix I M = Some v ->
       (v = as_view M <-> representable I (e_rows M) /\ representable I (e_cols M) /\
                          representable I (e_inner M) /\ representable I (e_outer M)) /\
       (rows v = e_rows M <-> representable I (e_rows M)) /\ (cols v = e_cols M <-> representable I (e_cols M)) /\
       (rows v - e_rows M) mod 2 ^ bits = 0 /\ (cols v - e_cols M) mod 2 ^ bits = 0 /\
       representable I (rows v) /\ representable I (cols v)) /\
    (as_view_ix I M = None <-> ct_inner M <> None /\ ~ representable I (e_inner M)).
Proof.
  intros bits M Hb Hc I.
  set (h := 2 ^ (bits - 1)).
  assert (H2 : 2 ^ bits = 2 * h) by (unfold h; replace bits with (Z.succ (bits - 1)) at 1 by lia; rewrite Z.pow_succ_r by lia; reflexivity).
  assert (Hh : 0 < h) by (unfold h; apply Z.pow_pos_nonneg; lia).
  assert (HI : imin I <= imax I) by (unfold I, signed; cbn [imin imax]; fold h; lia).
  assert (Md : forall x, (cast I x - x) mod 2 ^ bits = 0).
  { intros x. rewrite H2. unfold cast, I, signed. cbn [imin imax]. fold h.
    replace (h - 1 - - h + 1) with (2 * h) by lia. pose proof (Z.div_mod (x - - h) (2 * h) ltac:(lia)) as E.
    replace ((x - - h) mod (2 * h) + - h - x) with (- ((x - - h) / (2 * h)) * (2 * h)) by lia. apply Z.mod_mul. lia. }
  assert (Rg : forall x, representable I (cast I x)).
  { intros x. unfold representable, cast. pose proof (Z.mod_pos_bound (x - imin I) (imax I - imin I + 1) ltac:(lia)). lia. }
  destruct M as [d nr nc i o rm ct]. unfold as_view_ix, as_view. cbn [ct_inner e_data e_rows e_cols e_inner e_outer].
  pose proof (cast_exact I nr HI) as E1. pose proof (cast_exact I nc HI) as E2. pose proof (cast_exact I i HI) as E3.
  pose proof (cast_exact I o HI) as E4.
  destruct ct as [s|].
  - pose proof (Hc s eq_refl) as Es. cbn in Es. subst s.
    destruct ((imin I <=? i) && (i <=? imax I)) eqn:E.
    + assert (Ri : representable I i) by (unfold representable; lia).
      split; [|split; [discriminate|intros [_ N]; contradiction]].
      intros v Ev. injection Ev as <-. cbn [rows cols].
      split; [|split; [exact E1|split; [exact E2|split; [apply Md|split; [apply Md|split; apply Rg]]]]].
      split.
      * intros Eq. injection Eq. intros Q1 Q2 Q3. split; [now apply E1|]. split; [now apply E2|]. split; [exact Ri|now apply E4].
      * intros (A & B & _ & D). apply E1 in A. apply E2 in B. apply E4 in D. now rewrite A, B, D.
    + split; [discriminate|]. split; [|reflexivity]. intros _. split; [discriminate|]. unfold representable. lia.
  - split; [|split; [discriminate|intros [N _]; congruence]].
    intros v Ev. injection Ev as <-. cbn [rows cols].
    split; [|split; [exact E1|split; [exact E2|split; [apply Md|split; [apply Md|split; apply Rg]]]]].
    split.
    + intros Eq. injection Eq. intros Q1 Q2 Q3 Q4. split; [now apply E1|]. split; [now apply E2|]. split; [now apply E3|now apply E4].
    + intros (A & B & C & D). apply E1 in A. apply E2 in B. apply E3 in C. apply E4 in D. now rewrite A, B, C, D.
Qed.
Print Assumptions C61_index_type_exact.

(** as_eigen of a view whose index type is not wider than Eigen's loses nothing, and
    the way back gives the same view. *)
Theorem C61_index_type_round_trip :
  forall bits bits' V st, 2 <= bits <= bits' ->
    let I := signed bits in let J := signed bits' in
    representable I (rows V) -> representable I (cols V) -> representable I (inner_stride V) -> representable I (outer_stride V) ->
    as_eigen_ix J V st = as_eigen V st /\ as_view_ix I (as_eigen_ix J V st) = Some V.
Proof.
  intros bits bits' V st Hb I J R1 R2 R3 R4.
  assert (Hh : 2 ^ (bits - 1) <= 2 ^ (bits' - 1)) by (apply Z.pow_le_mono_r; lia).
  assert (H0 : 0 < 2 ^ (bits - 1)) by (apply Z.pow_pos_nonneg; lia).
  assert (HI : imin I <= imax I) by (unfold I, signed; cbn [imin imax]; lia).
  assert (HJ : imin J <= imax J) by (unfold J, signed; cbn [imin imax]; lia).
  assert (Up : forall x, representable I x -> cast J x = x).
  { intros x Hx. apply cast_exact; [exact HJ|]. unfold representable, I, J, signed in *. cbn [imin imax] in *. lia. }
  assert (E : as_eigen_ix J V st = as_eigen V st).
  { unfold as_eigen_ix. rewrite !Up by assumption. destruct V. reflexivity. }
  split; [exact E|]. rewrite E.
  assert (Same : forall x, representable I x -> cast I x = x) by (intros x Hx; now apply cast_exact).
  destruct V as [d nr nc i o]. cbn [data rows cols inner_stride outer_stride] in *.
  pose proof (C61_round_trip (View d nr nc i o) st) as RT.
  assert (F : e_rows (as_eigen (View d nr nc i o) st) = nr /\ e_cols (as_eigen (View d nr nc i o) st) = nc /\
    e_outer (as_eigen (View d nr nc i o) st) = o /\ e_data (as_eigen (View d nr nc i o) st) = d).
  { unfold as_eigen, eigen_map. cbn [data rows cols inner_stride outer_stride].
    destruct st; [destruct ((i =? 0) || (i =? -1)); [repeat split|]; destruct (i =? 1); [repeat split|]; destruct (i =? 0); repeat split|repeat split]. }
  destruct F as (F1 & F2 & F3 & F4). unfold as_view_ix. unfold as_view in RT.
  destruct (ct_inner (as_eigen (View d nr nc i o) st)) as [s|]; injection RT as _ _ _ RT _; rewrite F1, F2, F3, F4.
  - subst s. unfold representable in R3. replace ((imin I <=? i) && (i <=? imax I)) with true by lia.
    rewrite !Same by assumption. reflexivity.
  - rewrite RT, !Same by assumption. reflexivity.
Qed.
Print Assumptions C61_index_type_round_trip.

(** A column of 2^32 + 3 numbers seen with int indices has 3 rows. *)
Example C61_index_nonvacuous :
  let M := Eigen 0 (2 ^ 32 + 3) 1 1 (2 ^ 32 + 3) false (Some 1) in
  consistent M /\ as_view_ix int32 M = Some (View 0 3 1 1 3) /\
  as_view_ix int64 M = Some (as_view M) /\ as_eigen_ix int64 (View 5 2 3 (-1) 7) true = Eigen 5 2 3 (-1) 7 false None.
Proof. cbn zeta. split; [intros s [= <-]; reflexivity|]. repeat split. Qed.
