(** C17 for every decimal and every value in the range of the duration, also
    above 2^53 ticks, where doubles are sparser than integers. *)
From Flocq Require Import Core Relative.
From Coq Require Import Reals Lra.
From Verif Require Import Base Bytes Duration_Model Duration_Spec Duration_Proofs Duration_Round Duration_Props DurationError_Props.
Local Open Scope Z_scope.
#[local] Existing Instance prec64.

Lemma Rabs_bounds x y : (Rabs x <= y -> - y <= x <= y)%R.
Proof. unfold Rabs. destruct Rcase_abs; lra. Qed.
Lemma Rabs_intro x y : (- y <= x <= y -> Rabs x <= y)%R.
Proof. unfold Rabs. destruct Rcase_abs; lra. Qed.

(** chrono_round of a double D of common ticks, without an upper bound on D. *)
Lemma chrono_round_near num den lo hi v :
  let D := rnd (v * IZR num) in let q := (D / IZR den)%R in
  let dl := (16 * bpow radix2 (-53) * (Rabs q + 1))%R in
  0 < den <= 2 ^ 64 -> (IZR lo <= q - 3 - dl)%R -> (q + 3 + dl <= IZR hi)%R ->
  exists k, chrono_round num den lo hi v = Ok k /\ (Rabs (IZR k - q) <= / 2 + dl)%R.
Proof.
  intros D q dl Hd Hlo Hhi. unfold chrono_round. cbv zeta. fold D.
  assert (Pd : (1 <= IZR den)%R) by (apply (IZR_le 1); lia).
  assert (Dq : D = (q * IZR den)%R) by (unfold q; field; lra). fold q.
  pose proof (rnd_error q) as Ec. set (c := rnd q) in *.
  set (u := bpow radix2 (-53)) in *. set (h := bpow radix2 (-1075)) in *. set (H := bpow radix2 (-1000)).
  assert (U0 : (0 < u)%R) by apply bpow_gt_0.
  assert (U1 : (u <= / 1024)%R) by (apply (bpow_le radix2 (-53) (-10)); lia).
  assert (h0 : (0 < h)%R) by apply bpow_gt_0.
  assert (H0 : (0 < H)%R) by apply bpow_gt_0.
  assert (h1 : (h <= / 8 * u)%R).
  { replace (/ 8)%R with (bpow radix2 (-3)) by reflexivity. unfold u. rewrite <- bpow_plus. apply bpow_le. lia. }
  assert (H1 : (H <= / 8 * u)%R).
  { replace (/ 8)%R with (bpow radix2 (-3)) by reflexivity. unfold u. rewrite <- bpow_plus. apply bpow_le. lia. }
  set (A := (Rabs q)) in *. assert (A0 : (0 <= A)%R) by apply Rabs_pos.
  assert (QA : (- A <= q <= A)%R) by (apply Rabs_bounds; apply Rle_refl).
  assert (UA : (0 <= u * A)%R) by (apply Rmult_le_pos; lra).
  assert (UA2 : (u * A <= / 1024 * A)%R) by (apply Rmult_le_compat_r; lra).
  apply Rabs_bounds in Ec.
  (* the integers that occur *)
  set (to := Ztrunc c).
  assert (TO : (if Rle_dec 0 c then IZR to <= c < IZR to + 1 else IZR to - 1 < c <= IZR to)%R).
  { unfold to. destruct (Rle_dec 0 c) as [P|P].
    - rewrite Ztrunc_floor by exact P. split; [apply Zfloor_lb|apply Zfloor_ub].
    - rewrite Ztrunc_ceil by lra. split; [|apply Zceil_ub].
      destruct (Req_dec (IZR (Zfloor c)) c) as [I|N].
      + rewrite <- I, Zceil_IZR. lra.
      + rewrite Zceil_floor_neq by exact N. rewrite plus_IZR. pose proof (Zfloor_lb c). lra. }
  clearbody c to.
  (* k ticks in the common type, relative to den *)
  assert (T : forall k, (Rabs (IZR k) <= 2 * A + 2)%R ->
     let t := (rnd (rnd (IZR k) * IZR den) / IZR den)%R in (Rabs (t - IZR k) <= 8 * u * (A + 1) + / 8 * u)%R).
  { intros k Hk t. pose proof (product_error (IZR k) den Hd) as PE. fold H in PE.
    replace (bpow radix2 (-51)) with (4 * u)%R in PE by (unfold u; change (-51) with (2 + -53); rewrite bpow_plus; cbn; lra).
    rewrite Rabs_mult, (Rabs_pos_eq (IZR den)) in PE by lra.
    assert (E : (t - IZR k = (rnd (rnd (IZR k) * IZR den) - IZR k * IZR den) * / IZR den)%R) by (unfold t; field; lra).
    rewrite E, Rabs_mult, (Rabs_pos_eq (/ IZR den)) by (left; apply Rinv_0_lt_compat; lra).
    apply Rmult_le_reg_r with (IZR den); [lra|]. rewrite Rmult_assoc, Rinv_l, Rmult_1_r by lra.
    eapply Rle_trans; [exact PE|]. rewrite Rmult_plus_distr_r. apply Rplus_le_compat.
    - rewrite <- Rmult_assoc. apply Rmult_le_compat_r; [lra|]. replace (8 * u * (A + 1))%R with (4 * u * (2 * A + 2))%R by ring. apply Rmult_le_compat_l; lra.
    - apply Rle_trans with (/ 8 * u * 1)%R; [lra|]. apply Rmult_le_compat_l; lra. }
  assert (TD : forall k, rnd (rnd (IZR k) * IZR den) = (rnd (rnd (IZR k) * IZR den) / IZR den * IZR den)%R) by (intros; field; lra).
  assert (Kto : (- (A + u * A + h) - 1 <= IZR to <= A + u * A + h + 1)%R) by (destruct (Rle_dec 0 c); lra).
  assert (Rp : forall k, (q - 3 - dl <= IZR k <= q + 3 + dl)%R -> represent lo hi k = Ok k).
  { intros k K. unfold represent. assert (lo <= k) by (apply le_IZR; lra). assert (k <= hi) by (apply le_IZR; lra).
    now rewrite (proj2 (Z.leb_le _ _)), (proj2 (Z.leb_le _ _)) by lia. }
  assert (DL : (dl = 16 * (u * A) + 16 * u)%R) by (unfold dl; ring).
  assert (Cto : (q - 1 - u * A - h <= IZR to <= q + 1 + u * A + h)%R) by (destruct (Rle_dec 0 c); lra).
  rewrite (Rp to) by lra. cbn [bind].
  set (X := rnd (rnd (IZR to) * IZR den)).
  assert (TTo := T to ltac:(apply Rabs_intro; lra)). cbv zeta in TTo. fold X in TTo. apply Rabs_bounds in TTo.
  (* floor *)
  assert (FL : exists t0, (if Rlt_dec D X then represent lo hi (to - 1) else Ok to) = Ok t0 /\
      (q - 2 - u * A - h <= IZR t0 <= q + 1 + u * A + h)%R /\
      (q <= IZR t0 + 1 + (9 * (u * A) + 9 * u) /\ IZR t0 - (9 * (u * A) + 9 * u) <= q)%R).
  { destruct (Rlt_dec D X) as [L|L].
    - exists (to - 1). rewrite Rp by (rewrite minus_IZR; lra). rewrite minus_IZR. split; [reflexivity|]. split; [lra|].
      assert (L' : (q < X / IZR den)%R) by (apply Rmult_lt_reg_r with (IZR den); [lra|]; rewrite <- Dq; unfold X; rewrite <- TD; fold X; lra).
      split; [lra|]. destruct (Rle_dec 0 c); lra.
    - exists to. split; [reflexivity|]. split; [lra|].
      assert (L' : (X / IZR den <= q)%R).
      { apply Rmult_le_reg_r with (IZR den); [lra|]. rewrite <- Dq. unfold X. rewrite <- TD. fold X. lra. }
      split; [|lra]. destruct (Rle_dec 0 c); lra. }
  destruct FL as (t0 & -> & B0 & B1 & B2). cbn [bind].
  rewrite (Rp (t0 + 1)) by (rewrite plus_IZR; lra). cbn [bind].
  set (X0 := rnd (rnd (IZR t0) * IZR den)). set (X1 := rnd (rnd (IZR (t0 + 1)) * IZR den)).
  assert (T0 := T t0 ltac:(apply Rabs_intro; lra)). assert (T1 := T (t0 + 1) ltac:(apply Rabs_intro; rewrite plus_IZR; lra)).
  cbv zeta in T0, T1. fold X0 in T0. fold X1 in T1. apply Rabs_bounds in T0, T1. rewrite plus_IZR in T1.
  set (x0 := (X0 / IZR den)%R) in *. set (x1 := (X1 / IZR den)%R) in *.
  assert (E0 : (D - X0 = (q - x0) * IZR den)%R) by (unfold x0; rewrite Dq; field; lra).
  assert (E1 : (X1 - D = (x1 - q) * IZR den)%R) by (unfold x1; rewrite Dq; field; lra).
  (* the differences, relative to den *)
  assert (RE : forall y, (Rabs y <= 4 + 20 * (u * A) + 20 * u)%R -> (Rabs (rnd (y * IZR den) / IZR den - y) <= u * (u * A) * 20 + 5 * u)%R).
  { intros y Y. pose proof (rnd_error (y * IZR den)) as R. fold u h in R. rewrite Rabs_mult, (Rabs_pos_eq (IZR den)) in R by lra.
    replace (rnd (y * IZR den) / IZR den - y)%R with ((rnd (y * IZR den) - y * IZR den) * / IZR den)%R by (field; lra).
    rewrite Rabs_mult, (Rabs_pos_eq (/ IZR den)) by (left; apply Rinv_0_lt_compat; lra).
    apply Rmult_le_reg_r with (IZR den); [lra|]. rewrite Rmult_assoc, Rinv_l, Rmult_1_r by lra.
    eapply Rle_trans; [exact R|]. rewrite <- Rmult_assoc.
    apply Rle_trans with ((u * (4 + 20 * (u * A) + 20 * u) + h) * IZR den)%R.
    - rewrite Rmult_plus_distr_r. apply Rplus_le_compat; [|rewrite <- (Rmult_1_r h) at 1; apply Rmult_le_compat_l; lra]. apply Rmult_le_compat_r; [lra|]. apply Rmult_le_compat_l; lra.
    - apply Rmult_le_compat_r; [lra|]. assert (UU : (u * u <= / 1024 * u)%R) by (apply Rmult_le_compat_r; lra).
      replace (u * (4 + 20 * (u * A) + 20 * u))%R with (4 * u + u * (u * A) * 20 + 20 * (u * u))%R by ring. lra. }
  assert (S0 := RE (q - x0)%R ltac:(apply Rabs_intro; lra)). assert (S1 := RE (x1 - q)%R ltac:(apply Rabs_intro; lra)).
  rewrite <- E0 in S0. rewrite <- E1 in S1. apply Rabs_bounds in S0, S1.
  set (d0 := rnd (D - X0)) in *. set (d1 := rnd (X1 - D)) in *.
  assert (UU : (u * (u * A) <= / 1024 * (u * A))%R) by (apply Rmult_le_compat_r; lra).
  assert (ID : (0 < / IZR den)%R) by (apply Rinv_0_lt_compat; lra).
  assert (C0 : (d0 <= d1 -> Rabs (IZR t0 - q) <= / 2 + dl)%R).
  { intros L. apply Rmult_le_compat_r with (r := (/ IZR den)%R) in L; [|lra]. change (d0 * / IZR den)%R with (d0 / IZR den)%R in L. change (d1 * / IZR den)%R with (d1 / IZR den)%R in L.
    apply Rabs_intro. split; lra. }
  assert (C1 : (d1 <= d0 -> Rabs (IZR (t0 + 1) - q) <= / 2 + dl)%R).
  { intros L. apply Rmult_le_compat_r with (r := (/ IZR den)%R) in L; [|lra]. change (d0 * / IZR den)%R with (d0 / IZR den)%R in L. change (d1 * / IZR den)%R with (d1 / IZR den)%R in L.
    rewrite plus_IZR. apply Rabs_intro. split; lra. }
  destruct (Req_EM_T d0 d1) as [E|N].
  - destruct (Z.odd t0); eexists; (split; [reflexivity|]); [apply C1|apply C0]; lra.
  - destruct (Rlt_dec d0 d1) as [L|L]; eexists; (split; [reflexivity|]); [apply C0|apply C1]; lra.
Qed.

(** The distance the arithmetic in double can cause (in ticks). *)
Definition slack_any (exact : R) : R := (bpow radix2 (-48) * (Rabs exact + 1))%R.

(** For every decimal x, units un/ud and target period pn/pd for which the exact
    number of ticks is in the range of the duration (with a margin): some k is
    added with |k - exact| <= 1/2 + 2^-48 (|exact| + 1), the rounding of [exact]
    to nearest unless [exact] is that close to a tie. *)
Theorem C17_every_value_partial :
  forall tg un ud neg m e num den,
  let x := ((if neg : bool then -1 else 1) * IZR m * powerRZ 10 e)%R in
  let exact := (x * (IZR un * IZR (pd tg)) / (IZR ud * IZR (pn tg)))%R in
  0 < num <= 2 ^ 64 -> 0 < den <= 2 ^ 64 -> Z.gcd num den = 1 -> un * pd tg * den = num * (ud * pn tg) -> 0 < ud * pn tg ->
  (IZR (lo tg) <= exact - 4 - slack_any exact)%R -> (exact + 4 + slack_any exact <= IZR (hi tg))%R ->
  exists k, cast tg un ud (Dec neg m e) = Ok k /\
    (Rabs (IZR k - exact) <= / 2 + slack_any exact)%R /\
    ((forall i, slack_any exact < Rabs (exact - (IZR i + / 2)))%R -> k = ZnearestE exact).
Proof.
  intros tg un ud neg m e num den x exact Hn Hd G E P Lo Hi.
  assert (EX : dec_value neg m e = x) by (unfold dec_value, x; destruct neg; cbn; lra).
  cbn [cast].
  assert (EN : un * pd tg / Z.gcd (un * pd tg) (ud * pn tg) = num /\ ud * pn tg / Z.gcd (un * pd tg) (ud * pn tg) = den).
  { set (a := un * pd tg) in *. set (b := ud * pn tg) in *.
    assert (Da : (den | b)).
    { apply (Z.gauss den num b); [|now rewrite Z.gcd_comm]. exists a. lia. }
    destruct Da as (g & Eb). assert (g > 0) by nia. assert (Ea : a = g * num) by nia.
    rewrite Ea, Eb, Z.gcd_mul_mono_l_nonneg, G, Z.mul_1_r by lia.
    split; rewrite Z.mul_comm; apply Z.div_mul; lia. }
  destruct EN as [-> ->]. rewrite EX.
  assert (Pd : (1 <= IZR den)%R) by (apply (IZR_le 1); lia).
  assert (EE : exact = (x * IZR num / IZR den)%R).
  { unfold exact. apply (f_equal IZR) in E. rewrite !mult_IZR in E.
    assert (Pu : (IZR ud * IZR (pn tg) <> 0)%R) by (rewrite <- mult_IZR; apply not_0_IZR; lia).
    apply Rmult_eq_reg_r with (IZR den); [|lra]. apply Rmult_eq_reg_r with (IZR ud * IZR (pn tg))%R; [|exact Pu].
    transitivity (x * (IZR un * IZR (pd tg) * IZR den) * (/ (IZR ud * IZR (pn tg)) * (IZR ud * IZR (pn tg))))%R; [unfold Rdiv; ring|].
    rewrite Rinv_l, Rmult_1_r by exact Pu. rewrite E. field. lra. }
  pose proof (product_error x num Hn) as PE. set (D := rnd (rnd x * IZR num)) in *.
  assert (XN : (x * IZR num = exact * IZR den)%R) by (rewrite EE; field; lra).
  rewrite XN, Rabs_mult, (Rabs_pos_eq (IZR den)) in PE by lra.
  set (q := (D / IZR den)%R).
  assert (SL : (Rabs (q - exact) <= slack exact)%R).
  { unfold q. replace (D / IZR den - exact)%R with ((D - exact * IZR den) * / IZR den)%R by (field; lra).
    rewrite Rabs_mult, (Rabs_pos_eq (/ IZR den)) by (left; apply Rinv_0_lt_compat; lra).
    apply Rmult_le_reg_r with (IZR den); [lra|]. rewrite Rmult_assoc, Rinv_l, Rmult_1_r by lra.
    eapply Rle_trans; [exact PE|]. unfold slack. rewrite Rmult_plus_distr_r, Rmult_assoc. apply Rplus_le_compat_l.
    rewrite <- (Rmult_1_r (bpow radix2 (-1000))) at 1. apply Rmult_le_compat_l; [apply bpow_ge_0|lra]. }
  set (u := bpow radix2 (-53)).
  assert (U0 : (0 < u)%R) by apply bpow_gt_0.
  assert (U1 : (u <= / 1024)%R) by (apply (bpow_le radix2 (-53) (-10)); lia).
  assert (S1 : (slack exact <= 4 * u * Rabs exact + u)%R).
  { unfold slack. apply Rplus_le_compat; [|apply bpow_le; lia]. apply Req_le. f_equal. unfold u. change (-51) with (2 + -53). rewrite bpow_plus. cbn. lra. }
  assert (S2 : slack_any exact = (32 * u * (Rabs exact + 1))%R).
  { unfold slack_any, u. change (-48) with (5 + -53). rewrite bpow_plus. cbn. lra. }
  assert (A0 : (0 <= Rabs exact)%R) by apply Rabs_pos.
  assert (QA : (Rabs q <= Rabs exact + (4 * u * Rabs exact + u))%R).
  { replace q with (exact + (q - exact))%R by ring. eapply Rle_trans; [apply Rabs_triang|]. lra. }
  set (dl := (16 * bpow radix2 (-53) * (Rabs q + 1))%R).
  assert (UE : (0 <= u * Rabs exact)%R) by (apply Rmult_le_pos; lra).
  assert (DL : (dl <= 17 * (u * (Rabs exact + 1)))%R).
  { unfold dl. fold u. assert (u * (u * Rabs exact) <= / 1024 * (u * Rabs exact))%R by (apply Rmult_le_compat_r; lra).
    assert (u * u <= / 1024 * u)%R by (apply Rmult_le_compat_r; lra).
    assert (16 * u * (Rabs q + 1) <= 16 * u * (Rabs exact + (4 * u * Rabs exact + u) + 1))%R by (apply Rmult_le_compat_l; lra).
    replace (16 * u * (Rabs exact + (4 * u * Rabs exact + u) + 1))%R with (16 * (u * Rabs exact) + 64 * (u * (u * Rabs exact)) + 16 * (u * u) + 16 * u)%R in H1 by ring.
    replace (17 * (u * (Rabs exact + 1)))%R with (17 * (u * Rabs exact) + 17 * u)%R by ring. lra. }
  assert (QE := Rabs_bounds _ _ (Rle_trans _ _ _ SL S1)).
  destruct (chrono_round_near num den (lo tg) (hi tg) (rnd x)) as (k & C & K).
  - exact Hd.
  - fold D q dl. lra.
  - fold D q dl. lra.
  - fold D q dl in K. exists k. split; [exact C|].
    assert (KE : (Rabs (IZR k - exact) <= / 2 + slack_any exact)%R).
    { replace (IZR k - exact)%R with ((IZR k - q) + (q - exact))%R by ring. eapply Rle_trans; [apply Rabs_triang|]. lra. }
    split; [exact KE|]. intros A. symmetry. apply Znearest_imp.
    pose proof (A k) as A1. pose proof (A (k - 1)) as A2. rewrite minus_IZR in A2.
    apply Rabs_bounds in KE. revert A1 A2. unfold Rabs. repeat destruct Rcase_abs; lra.
Qed.
Print Assumptions C17_every_value_partial.

(** The hypotheses for 292 years in nanoseconds. *)
Example C17_every_value_nonvacuous :
  exists k, cast (Target 1 1000000000 (- 2 ^ 63) (2 ^ 63 - 1)) 3600 1 (Dec false 2559920 0) = Ok k /\ Z.abs (k - 9215712000000000000) <= 40000.
Proof.
  destruct (C17_every_value_partial (Target 1 1000000000 (- 2 ^ 63) (2 ^ 63 - 1)) 3600 1 false 2559920 0 3600000000000 1) as (k & C & K & _);
    cbn [pn pd lo hi]; try lia; try reflexivity.
  - change (powerRZ 10 0) with 1%R. unfold slack_any. change (bpow radix2 (-48)) with (/ 281474976710656)%R. change (IZR (- 2 ^ 63)) with (-9223372036854775808)%R.
    rewrite Rabs_pos_eq by lra. lra.
  - change (powerRZ 10 0) with 1%R. unfold slack_any. change (bpow radix2 (-48)) with (/ 281474976710656)%R. change (IZR (2 ^ 63 - 1)) with (9223372036854775807)%R.
    rewrite Rabs_pos_eq by lra. lra.
  - cbn [pn pd lo hi] in K. change (powerRZ 10 0) with 1%R in K. unfold slack_any in K. change (bpow radix2 (-48)) with (/ 281474976710656)%R in K.
    rewrite (Rabs_pos_eq (1 * _ * 1 * _ / _)) in K by lra. exists k. split; [exact C|]. apply le_IZR. rewrite abs_IZR, minus_IZR.
    eapply Rle_trans; [|eapply Rle_trans; [exact K|]]; [|lra]. apply Req_le. f_equal. f_equal. lra.
Qed.
