(** C82: Timed with floating-point durations. *)
From Flocq Require Import Core Relative Plus_error.
From Coq Require Import Reals Lra.
From Verif Require Import Base TimersFloat_Model.
Local Open Scope R_scope.

(** The value of a clock reading in units of the duration. *)
Definition units (den n : Z) : R := IZR n / IZR den.
(** float and double. *)
Definition float32 : flt := Flt 24 (-149).
Definition float64 : flt := Flt 53 (-1074).
(** Half a unit in the last place of 1. *)
Definition unit_roundoff (f : flt) : R := bpow radix2 (- prec f).
Definition is_F (f : flt) (x : R) : Prop := generic_format radix2 (FLT_exp (emin f) (prec f)) x.
(** The formats and periods under consideration: precision at least 5, a period of at most an hour, exactly
    representable. *)
Definition good (f : flt) (den : Z) : Prop :=
  (5 <= prec f)%Z /\ (emin f + prec f - 1 <= -42)%Z /\ (1 <= den <= 3600000000000)%Z /\ is_F f (IZR den).

Section S.
Variables (f : flt) (den : Z).
Hypothesis G : good f den.
Local Notation u := (unit_roundoff f).

Lemma prec_pos : Prec_gt_0 (prec f).
Proof. destruct G as [H _]. unfold Prec_gt_0. lia. Qed.
Local Existing Instance prec_pos.
Lemma u_pos : 0 < u. Proof. apply bpow_gt_0. Qed.
Lemma u_small : u <= / 32.
Proof.
  unfold unit_roundoff. replace (/ 32) with (bpow radix2 (-5)) by (cbn; lra). apply bpow_le. destruct G. lia.
Qed.
Lemma half_u : / 2 * bpow radix2 (- prec f + 1) = u.
Proof. unfold unit_roundoff. rewrite bpow_plus. cbn. lra. Qed.
Lemma rnd_F x : is_F f (rnd f x).
Proof. apply generic_format_round; [apply FLT_exp_valid, prec_pos|apply valid_rnd_N]. Qed.

(** Relative error above the subnormal numbers. *)
Lemma rnd_rel x : bpow radix2 (emin f + prec f - 1) <= Rabs x -> Rabs (rnd f x - x) <= u * Rabs x.
Proof.
  intros H. rewrite <- half_u. exact (relative_error_N_FLT radix2 (emin f) (prec f) prec_pos (fun n => negb (Z.even n)) x H).
Qed.
(** Sums have no underflow. *)
Lemma rnd_plus x y : is_F f x -> is_F f y -> Rabs (rnd f (x + y) - (x + y)) <= u * Rabs (x + y).
Proof.
  intros Fx Fy. destruct (Rle_or_lt (bpow radix2 (emin f + prec f - 1)) (Rabs (x + y))) as [H|H]; [now apply rnd_rel|].
  replace (rnd f (x + y)) with (x + y).
  - replace (x + y - (x + y)) with 0 by ring. rewrite Rabs_R0. apply Rmult_le_pos; [apply Rlt_le, u_pos|apply Rabs_pos].
  - symmetry. apply round_generic; [apply valid_rnd_N|]. apply FLT_format_plus_small; auto; [apply prec_pos|].
    apply Rlt_le. eapply Rlt_le_trans; [exact H|]. apply bpow_le. lia.
Qed.
Lemma F_opp x : is_F f x -> is_F f (- x). Proof. apply generic_format_opp. Qed.

Lemma den_pos : 1 <= IZR den <= IZR (2 ^ 42).
Proof. destruct G as (_ & _ & D & _). split; apply IZR_le; [lia|]. change (2 ^ 42)%Z with 4398046511104%Z. lia. Qed.
Lemma rnd_den : rnd f (IZR den) = IZR den.
Proof. apply round_generic; [apply valid_rnd_N|apply G]. Qed.
Lemma bpow42 : bpow radix2 (-42) = / IZR (2 ^ 42).
Proof. reflexivity. Qed.

Lemma conv_err n : (0 <= n)%Z -> Rabs (conv f den n - units den n) <= (2 * u + u * u) * units den n.
Proof.
  intros Hn. unfold conv, units. rewrite rnd_den. pose proof u_pos as U. pose proof u_small as Us. pose proof den_pos as D.
  destruct (Z.eq_dec n 0) as [->|N0].
  { unfold rnd, Rdiv. rewrite round_0 by apply valid_rnd_N. rewrite !Rmult_0_l, round_0 by apply valid_rnd_N. rewrite Rminus_0_r, Rabs_R0, Rmult_0_r. lra. }
  assert (Hn1 : 1 <= IZR n) by (apply IZR_le; lia).
  assert (E1 : Rabs (rnd f (IZR n) - IZR n) <= u * IZR n).
  { rewrite <- (Rabs_pos_eq (IZR n)) at 3 by lra. apply rnd_rel. rewrite Rabs_pos_eq by lra.
    apply Rle_trans with (bpow radix2 0); [apply bpow_le; destruct G; lia|exact Hn1]. }
  set (r := rnd f (IZR n)) in *.
  assert (R1 : 31 / 32 <= r). { apply Rabs_le_inv in E1. nra. }
  assert (R2 : r <= IZR n + u * IZR n). { apply Rabs_le_inv in E1. lra. }
  assert (Id : 0 < / IZR den) by (apply Rinv_0_lt_compat; lra).
  assert (Hr1 : 1 <= r).
  { subst r. unfold rnd. apply round_ge_generic; [apply FLT_exp_valid, prec_pos|apply valid_rnd_N| |exact Hn1].
    apply generic_format_FLT_bpow with (e := 0%Z); [apply prec_pos|destruct G; lia]. }
  assert (Q : bpow radix2 (-42) <= r / IZR den).
  { rewrite bpow42. unfold Rdiv. apply Rle_trans with (1 * / IZR den).
    - rewrite Rmult_1_l. apply Rinv_le; lra.
    - apply Rmult_le_compat_r; lra. }
  assert (E2 : Rabs (rnd f (r / IZR den) - r / IZR den) <= u * (r / IZR den)).
  { rewrite <- (Rabs_pos_eq (r / IZR den)) at 3 by (pose proof (bpow_gt_0 radix2 (-42)); lra). apply rnd_rel.
    rewrite Rabs_pos_eq by (pose proof (bpow_gt_0 radix2 (-42)); lra).
    eapply Rle_trans; [|exact Q]. apply bpow_le. destruct G; lia. }
  assert (E3 : Rabs (r / IZR den - IZR n / IZR den) <= u * (IZR n / IZR den)).
  { replace (r / IZR den - IZR n / IZR den) with ((r - IZR n) * / IZR den) by (unfold Rdiv; ring).
    rewrite Rabs_mult, (Rabs_pos_eq (/ IZR den)) by lra. replace (u * (IZR n / IZR den)) with (u * IZR n * / IZR den) by (unfold Rdiv; ring).
    apply Rmult_le_compat_r; lra. }
  assert (E4 : r / IZR den <= (1 + u) * (IZR n / IZR den)).
  { replace ((1 + u) * (IZR n / IZR den)) with ((IZR n + u * IZR n) * / IZR den) by (unfold Rdiv; ring).
    unfold Rdiv. apply Rmult_le_compat_r; lra. }
  set (T := IZR n / IZR den) in *. set (q := r / IZR den) in *.
  replace (rnd f q - T) with ((rnd f q - q) + (q - T)) by ring.
  eapply Rle_trans; [apply Rabs_triang|]. replace ((2 * u + u * u) * T) with (u * ((1 + u) * T) + u * T) by ring.
  apply Rplus_le_compat; [|exact E3]. eapply Rle_trans; [exact E2|]. apply Rmult_le_compat_l; lra.
Qed.
Lemma conv_F n : is_F f (conv f den n). Proof. apply rnd_F. Qed.
Lemma units_pos n : (0 <= n)%Z -> 0 <= units den n.
Proof. intros H. unfold units, Rdiv. apply Rmult_le_pos; [now apply IZR_le|]. pose proof den_pos. apply Rlt_le, Rinv_0_lt_compat. lra. Qed.

Lemma measure_err time t0 t1 : is_F f time -> (0 <= t0)%Z -> (0 <= t1)%Z ->
  Rabs (measure f den time t0 t1 - (time + units den t1 - units den t0)) <= 5 * u * (Rabs time + units den t0 + units den t1).
Proof.
  intros Ft H0 H1. pose proof u_pos as U. pose proof u_small as Us.
  pose proof (conv_err t0 H0) as C0. pose proof (conv_err t1 H1) as C1.
  pose proof (units_pos t0 H0) as P0. pose proof (units_pos t1 H1) as P1.
  unfold measure, timed_end, timed_start. set (c0 := conv f den t0) in *. set (c1 := conv f den t1) in *.
  set (T0 := units den t0) in *. set (T1 := units den t1) in *.
  assert (F0 : is_F f (- c0)) by (apply F_opp, conv_F). assert (F1 : is_F f c1) by apply conv_F.
  pose proof (rnd_plus time (- c0) Ft F0) as A. change (time + - c0) with (time - c0) in A.
  set (a := rnd f (time - c0)) in *. assert (Fa : is_F f a) by apply rnd_F.
  pose proof (rnd_plus a c1 Fa F1) as B. set (b := rnd f (a + c1)) in *.
  assert (B0 : Rabs c0 <= (1 + 2 * u + u * u) * T0).
  { replace c0 with (T0 + (c0 - T0)) by ring. eapply Rle_trans; [apply Rabs_triang|]. rewrite (Rabs_pos_eq T0) by lra. lra. }
  assert (B1 : Rabs c1 <= (1 + 2 * u + u * u) * T1).
  { replace c1 with (T1 + (c1 - T1)) by ring. eapply Rle_trans; [apply Rabs_triang|]. rewrite (Rabs_pos_eq T1) by lra. lra. }
  set (t := Rabs time) in *. assert (Pt : 0 <= t) by apply Rabs_pos.
  assert (A1 : Rabs (time - c0) <= t + Rabs c0).
  { unfold Rminus. eapply Rle_trans; [apply Rabs_triang|]. rewrite Rabs_Ropp. fold t. lra. }
  assert (A2 : Rabs a <= (1 + u) * (t + Rabs c0)).
  { replace a with ((time - c0) + (a - (time - c0))) by ring. eapply Rle_trans; [apply Rabs_triang|]. nra. }
  assert (A3 : Rabs (a + c1) <= (1 + u) * (t + Rabs c0) + Rabs c1).
  { eapply Rle_trans; [apply Rabs_triang|]. lra. }
  replace (b - (time + T1 - T0)) with ((b - (a + c1)) + (a - (time - c0)) + (c1 - T1) - (c0 - T0)) by ring.
  apply Rle_trans with (u * ((1 + u) * (t + Rabs c0) + Rabs c1) + u * (t + Rabs c0) + (2 * u + u * u) * T1 + (2 * u + u * u) * T0).
  { unfold Rminus at 1. eapply Rle_trans; [apply Rabs_triang|]. rewrite Rabs_Ropp. apply Rplus_le_compat; [|exact C0].
    eapply Rle_trans; [apply Rabs_triang|]. apply Rplus_le_compat; [|exact C1].
    eapply Rle_trans; [apply Rabs_triang|]. apply Rplus_le_compat.
    - eapply Rle_trans; [exact B|]. apply Rmult_le_compat_l; lra.
    - eapply Rle_trans; [exact A|]. apply Rmult_le_compat_l; lra. }
  assert (Q : u * u <= / 32 * u) by nra.
  set (d0 := Rabs c0) in *. set (d1 := Rabs c1) in *.
  assert (W : 1 + 2 * u + u * u <= 1 + 3 * / 32) by lra.
  assert (D0 : d0 <= (1 + 3 * / 32) * T0) by (eapply Rle_trans; [exact B0|]; apply Rmult_le_compat_r; lra).
  assert (D1 : d1 <= (1 + 3 * / 32) * T1) by (eapply Rle_trans; [exact B1|]; apply Rmult_le_compat_r; lra).
  assert (L : (1 + u) * (t + d0) + d1 + (t + d0) + (2 + u) * T1 + (2 + u) * T0 <= 5 * (t + T0 + T1)).
  { assert (P : 0 <= d0) by apply Rabs_pos. assert ((1 + u) * (t + d0) <= (1 + / 32) * (t + d0)) by (apply Rmult_le_compat_r; lra).
    assert ((2 + u) * T1 <= (2 + / 32) * T1) by (apply Rmult_le_compat_r; lra).
    assert ((2 + u) * T0 <= (2 + / 32) * T0) by (apply Rmult_le_compat_r; lra). lra. }
  apply Rle_trans with (u * ((1 + u) * (t + d0) + d1 + (t + d0) + (2 + u) * T1 + (2 + u) * T0)); [right; ring|].
  replace (5 * u * (t + T0 + T1)) with (u * (5 * (t + T0 + T1))) by ring. apply Rmult_le_compat_l; lra.
Qed.
Lemma pow2_F k : (emin f <= k)%Z -> is_F f (bpow radix2 k).
Proof. intros H. apply generic_format_FLT_bpow; [apply prec_pos|exact H]. Qed.
Lemma rnd_pow2 k : (emin f <= k)%Z -> rnd f (bpow radix2 k) = bpow radix2 k.
Proof. intros H. apply round_generic; [apply valid_rnd_N|now apply pow2_F]. Qed.
(** Just above a power of two. *)
Lemma rnd_above k e : (emin f + prec f <= k)%Z -> 0 <= e < bpow radix2 (k - prec f) -> rnd f (bpow radix2 k + e) = bpow radix2 k.
Proof.
  intros Hk He. assert (P : (5 <= prec f)%Z) by apply G.
  pose proof (bpow_gt_0 radix2 k) as K.
  assert (E : e < bpow radix2 k). { eapply Rlt_le_trans; [apply He|]. apply bpow_le. lia. }
  assert (M : mag radix2 (bpow radix2 k + e) = (k + 1)%Z :> Z).
  { apply mag_unique_pos. replace (k + 1 - 1)%Z with k by ring. split; [lra|]. rewrite bpow_plus. cbn. lra. }
  unfold rnd, round, F2R, scaled_mantissa, cexp. cbn [Fnum Fexp]. rewrite M. unfold FLT_exp. rewrite Z.max_l by lia.
  rewrite (Znearest_imp _ _ (2 ^ (prec f - 1))).
  - rewrite (IZR_Zpower radix2) by lia. rewrite <- bpow_plus. f_equal. ring.
  - rewrite (IZR_Zpower radix2) by lia. replace ((bpow radix2 k + e) * bpow radix2 (- (k + 1 - prec f)) - bpow radix2 (prec f - 1))
      with (e * bpow radix2 (- (k + 1 - prec f))).
    2:{ rewrite Rmult_plus_distr_r, <- bpow_plus. replace (k + - (k + 1 - prec f))%Z with (prec f - 1)%Z by ring. ring. }
    pose proof (bpow_gt_0 radix2 (- (k + 1 - prec f))) as Q. rewrite Rabs_pos_eq by (apply Rmult_le_pos; lra).
    apply Rlt_le_trans with (bpow radix2 (k - prec f) * bpow radix2 (- (k + 1 - prec f))); [apply Rmult_lt_compat_r; lra|].
    rewrite <- bpow_plus. replace (k - prec f + - (k + 1 - prec f))%Z with (-1)%Z by ring. cbn. lra.
Qed.
(** Just below. *)
Lemma rnd_below k e : (emin f + prec f <= k)%Z -> 0 <= e < bpow radix2 (k - prec f - 1) -> rnd f (bpow radix2 k - e) = bpow radix2 k.
Proof.
  intros Hk He. assert (P : (5 <= prec f)%Z) by apply G.
  destruct (Req_dec e 0) as [->|Ne]. { rewrite Rminus_0_r. apply rnd_pow2. lia. }
  pose proof (bpow_gt_0 radix2 k) as K.
  assert (E : e < bpow radix2 (k - 1)). { eapply Rlt_le_trans; [apply He|]. apply bpow_le. lia. }
  assert (M : mag radix2 (bpow radix2 k - e) = k :> Z).
  { apply mag_unique_pos. split; [|lra]. assert (D : bpow radix2 k = 2 * bpow radix2 (k - 1)); [|lra]. replace k with (1 + (k - 1))%Z at 1 by ring. now rewrite bpow_plus. }
  unfold rnd, round, F2R, scaled_mantissa, cexp. cbn [Fnum Fexp]. rewrite M. unfold FLT_exp. rewrite Z.max_l by lia.
  rewrite (Znearest_imp _ _ (2 ^ prec f)).
  - rewrite (IZR_Zpower radix2) by lia. rewrite <- bpow_plus. f_equal. ring.
  - rewrite (IZR_Zpower radix2) by lia. replace ((bpow radix2 k - e) * bpow radix2 (- (k - prec f)) - bpow radix2 (prec f))
      with (- (e * bpow radix2 (- (k - prec f)))).
    2:{ unfold Rminus. rewrite Rmult_plus_distr_r, <- bpow_plus. replace (k + - (k - prec f))%Z with (prec f) by ring. ring. }
    pose proof (bpow_gt_0 radix2 (- (k - prec f))) as Q. rewrite Rabs_Ropp, Rabs_pos_eq by (apply Rmult_le_pos; lra).
    apply Rlt_le_trans with (bpow radix2 (k - prec f - 1) * bpow radix2 (- (k - prec f))); [apply Rmult_lt_compat_r; lra|].
    rewrite <- bpow_plus. replace (k - prec f - 1 + - (k - prec f))%Z with (-1)%Z by ring. cbn. lra.
Qed.
Lemma same_reading t0 t1 : rnd f (IZR t0) = rnd f (IZR t1) -> measure f den 0 t0 t1 = 0.
Proof.
  intros E. unfold measure, timed_end, timed_start, conv. rewrite E. set (c := rnd f (rnd f (IZR t1) / rnd f (IZR den))).
  rewrite Rminus_0_l. assert (Fc : is_F f (- c)) by (apply F_opp, rnd_F). unfold rnd at 2.
  rewrite round_generic by (auto; apply valid_rnd_N). replace (- c + c) with 0 by ring. apply round_0, valid_rnd_N.
Qed.
Lemma lost k e : (prec f <= k)%Z -> (0 <= e < 2 ^ (k - prec f))%Z -> measure f den 0 (2 ^ k) (2 ^ k + e) = 0.
Proof.
  intros Hk He. destruct G as (P1 & P2 & _). apply same_reading. rewrite plus_IZR, !(IZR_Zpower radix2) by lia.
  rewrite rnd_pow2 by lia. symmetry. apply rnd_above; [lia|]. rewrite <- (IZR_Zpower radix2) by lia.
  split; [now apply IZR_le|now apply IZR_lt].
Qed.
Lemma conv_pow2 k : (0 <= k)%Z -> conv f den (den * 2 ^ k) = bpow radix2 k.
Proof.
  intros Hk. destruct G as (P1 & P2 & P3 & FD). unfold conv. rewrite rnd_den.
  assert (E : rnd f (IZR (den * 2 ^ k)) = IZR den * bpow radix2 k).
  { rewrite mult_IZR, (IZR_Zpower radix2) by lia. apply round_generic; [apply valid_rnd_N|].
    apply FLT_format_generic in FD; [|apply prec_pos]. destruct FD as [[mm ee] E1 E2 E3]. cbn [Fnum Fexp] in *.
    apply generic_format_FLT. exists (Float radix2 mm (ee + k)); cbn [Fnum Fexp]; [|assumption|lia].
    rewrite E1. unfold F2R; cbn [Fnum Fexp]. rewrite bpow_plus. ring. }
  rewrite E. replace (IZR den * bpow radix2 k / IZR den) with (bpow radix2 k).
  - apply rnd_pow2. lia.
  - field. assert (1 <= IZR den) by (apply IZR_le; lia). lra.
Qed.
Lemma erased k time : (0 <= k)%Z -> is_F f time -> 0 <= time < bpow radix2 (k - prec f - 1) ->
  measure f den time (den * 2 ^ k) (den * 2 ^ k) = 0.
Proof.
  intros Hk Ft Ht. destruct G as (P1 & P2 & _). unfold measure, timed_end, timed_start. rewrite conv_pow2 by exact Hk.
  replace (time - bpow radix2 k) with (- (bpow radix2 k - time)) by ring.
  unfold rnd at 2. rewrite round_NE_opp. fold (rnd f (bpow radix2 k - time)). rewrite rnd_below by (auto; lia).
  replace (- bpow radix2 k + bpow radix2 k) with 0 by ring. apply round_0, valid_rnd_N.
Qed.
End S.

(** float and double with seconds, milliseconds, microseconds and nanoseconds; minutes and hours in double. *)
Lemma float_good f den : f = float32 \/ f = float64 -> In den [1; 1000; 1000000; 1000000000]%Z -> good f den.
Proof.
  intros Hf Hd. assert (P : (5 <= prec f)%Z /\ (emin f + prec f - 1 <= -42)%Z) by (destruct Hf as [->| ->]; cbn; lia).
  split; [apply P|]. split; [apply P|]. split; [cbn in Hd; intuition lia|].
  assert (Q : Prec_gt_0 (prec f)) by (unfold Prec_gt_0; lia).
  assert (X : forall m e, (0 <= e)%Z -> (Z.abs m < 2 ^ 24)%Z -> (24 <= prec f)%Z -> is_F f (IZR (m * 2 ^ e))).
  { intros m e He Hm Hp. apply generic_format_FLT. exists (Float radix2 m e); cbn [Fnum Fexp].
    - unfold F2R; cbn [Fnum Fexp]. rewrite mult_IZR. f_equal. now rewrite (IZR_Zpower radix2).
    - eapply Z.lt_le_trans; [exact Hm|]. apply (Z.pow_le_mono_r 2); lia.
    - destruct Hf as [->| ->]; cbn; lia. }
  assert (P24 : (24 <= prec f)%Z) by (destruct Hf as [->| ->]; cbn; lia).
  cbn in Hd. destruct Hd as [<-|[<-|[<-|[<-|[]]]]].
  - apply (X 1%Z 0%Z); lia.
  - apply (X 125%Z 3%Z); lia.
  - apply (X 15625%Z 6%Z); lia.
  - apply (X 1953125%Z 9%Z); lia.
Qed.

(** C82, what holds: one timer changes the duration by the elapsed time up to five roundings — of the clock
    readings, not of the elapsed time. *)
Theorem C82_absolute_error_partial :
  forall f den time t0 t1, good f den -> is_F f time -> (0 <= t0)%Z -> (0 <= t1)%Z ->
    Rabs (measure f den time t0 t1 - (time + (units den t1 - units den t0)))
      <= 5 * unit_roundoff f * (Rabs time + units den t0 + units den t1).
Proof.
  intros f den time t0 t1 G Ft H0 H1.
  replace (time + (units den t1 - units den t0)) with (time + units den t1 - units den t0) by ring.
  now apply measure_err.
Qed.
Print Assumptions C82_absolute_error_partial.

(** C82 refuted: the error cannot be bounded by the elapsed time. In every format, with every period, for clock
    readings as large as one likes, an elapsed time up to the reading over 2^prec is measured as 0 ... *)
Theorem C82_elapsed_time_lost_refuted :
  forall f den, good f den -> forall k, (prec f <= k)%Z ->
  forall elapsed, (0 <= elapsed < 2 ^ (k - prec f))%Z -> measure f den 0 (2 ^ k) (2 ^ k + elapsed) = 0.
Proof. intros f den G k Hk e He. now apply lost. Qed.
Print Assumptions C82_elapsed_time_lost_refuted.

(** ... and what has been accumulated before vanishes if it is smaller than the reading over 2^(prec + 1). *)
Theorem C82_accumulated_time_erased_refuted :
  forall f den, good f den -> forall k, (0 <= k)%Z ->
  forall time, is_F f time -> 0 <= time < bpow radix2 (k - prec f - 1) ->
    measure f den time (den * 2 ^ k) (den * 2 ^ k) = 0.
Proof. intros f den G k Hk time Ft Ht. now apply erased. Qed.
Print Assumptions C82_accumulated_time_erased_refuted.

(** duration<float> in seconds, 2^47 ns (39 hours) after boot: 8 ms are measured as 0. 2^20 s (12 days) after boot:
    1/64 s of measured time disappears when another timer is started and stopped. *)
Example C82_nonvacuous :
  good float32 1000000000 /\ measure float32 1000000000 0 (2 ^ 47) (2 ^ 47 + 8000000) = 0 /\
  measure float32 1000000000 (/ 64) (1000000000 * 2 ^ 20) (1000000000 * 2 ^ 20) = 0.
Proof.
  assert (G : good float32 1000000000) by (apply float_good; [now left|cbn; auto]).
  split; [exact G|]. split.
  - apply C82_elapsed_time_lost_refuted; [exact G|cbn; lia|]. cbn [prec float32]. lia.
  - apply C82_accumulated_time_erased_refuted; [exact G|lia| |].
    + replace (/ 64) with (bpow radix2 (-6)) by (cbn; lra). apply generic_format_FLT_bpow; [reflexivity|cbn; lia].
    + cbn [prec float32]. cbn. lra.
Qed.
(** duration<double> in seconds, one hour after boot, one millisecond: correct up to 4.1 picoseconds. *)
Example C82_double :
  Rabs (measure float64 1000000000 0 3600000000000 3600001000000 - / 1000) <= 41 / 10 * / 1000000000000.
Proof.
  assert (G : good float64 1000000000) by (apply float_good; [now right|cbn; auto]).
  assert (F0 : is_F float64 0) by (apply generic_format_0).
  pose proof (C82_absolute_error_partial float64 1000000000 0 3600000000000 3600001000000 G F0 ltac:(lia) ltac:(lia)) as H.
  unfold units in H. replace (0 + (3600001000000 / 1000000000 - 3600000000000 / 1000000000)) with (/ 1000) in H by lra.
  eapply Rle_trans; [exact H|]. rewrite Rabs_R0. unfold unit_roundoff; cbn [prec float64].
  change (bpow radix2 (- (53))) with (/ 9007199254740992). lra.
Qed.
