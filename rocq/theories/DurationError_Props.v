(** C17 for every decimal, also those that are not doubles: how far the ticks
    added are from the exact number of ticks. *)
From Flocq Require Import Core Relative.
From Coq Require Import Reals Lra.
From Verif Require Import Base Bytes Duration_Model Duration_Spec Duration_Proofs Duration_Round Duration_Props.
Local Open Scope Z_scope.
#[local] Existing Instance prec64.

Lemma rnd_error x : (Rabs (rnd x - x) <= bpow radix2 (-53) * Rabs x + bpow radix2 (-1075))%R.
Proof.
  destruct (error_N_FLT radix2 (-1074) 53 eq_refl (fun x => negb (Z.even x)) x) as (eps & eta & He & Ht & _ & E).
  unfold rnd. rewrite E. replace (x * (1 + eps) + eta - x)%R with (eps * x + eta)%R by ring.
  change (-53 + 1) with (-52) in He.
  replace (bpow radix2 (-53)) with (/ 2 * bpow radix2 (-52))%R by (change (-53) with (-1 + -52); rewrite bpow_plus; reflexivity).
  replace (bpow radix2 (-1075)) with (/ 2 * bpow radix2 (-1074))%R by (change (-1075) with (-1 + -1074); rewrite bpow_plus; reflexivity).
  eapply Rle_trans; [apply Rabs_triang|]. rewrite Rabs_mult. apply Rplus_le_compat; [|exact Ht].
  apply Rmult_le_compat_r; [apply Rabs_pos|exact He].
Qed.

(** The double computed for x * num (x rounded, multiplied, rounded). *)
Lemma product_error x n : 0 < n <= 2 ^ 64 ->
  (Rabs (rnd (rnd x * IZR n) - x * IZR n) <= bpow radix2 (-51) * Rabs (x * IZR n) + bpow radix2 (-1000))%R.
Proof.
  intros N. pose proof (rnd_error x) as E1. pose proof (rnd_error (rnd x * IZR n)) as E2.
  set (v := rnd x) in *. set (D := rnd (v * IZR n)) in *. clearbody v D.
  replace (bpow radix2 (-51)) with (4 * bpow radix2 (-53))%R by (change (-51) with (2 + -53); rewrite bpow_plus; cbn; lra).
  assert (U0 : (0 < bpow radix2 (-53))%R) by apply bpow_gt_0.
  assert (U1 : (bpow radix2 (-53) <= / 2)%R) by (apply (bpow_le radix2 (-53) (-1)); lia).
  assert (H0 : (0 < bpow radix2 (-1075))%R) by apply bpow_gt_0.
  assert (H1 : (bpow radix2 (-1075) * (4 * IZR (2 ^ 64)) <= bpow radix2 (-1000))%R).
  { replace (4 * IZR (2 ^ 64))%R with (bpow radix2 66) by (cbn; lra).
    rewrite <- bpow_plus. apply bpow_le. lia. }
  assert (N1 : (1 <= IZR n)%R) by (apply (IZR_le 1); lia).
  assert (N2 : (IZR n <= IZR (2 ^ 64))%R) by (apply IZR_le; lia).
  set (u := bpow radix2 (-53)) in *. set (h := bpow radix2 (-1075)) in *. set (H := bpow radix2 (-1000)) in *.
  set (nn := IZR n) in *. set (B := IZR (2 ^ 64)) in *. clearbody u h H nn B.
  rewrite Rabs_mult in *. rewrite (Rabs_pos_eq nn) in * by lra.
  assert (V : (Rabs v <= Rabs x + (u * Rabs x + h))%R).
  { replace v with (x + (v - x))%R by ring. eapply Rle_trans; [apply Rabs_triang|]. lra. }
  assert (P : (Rabs (v * nn - x * nn) <= (u * Rabs x + h) * nn)%R).
  { replace (v * nn - x * nn)%R with ((v - x) * nn)%R by ring. rewrite Rabs_mult, (Rabs_pos_eq nn) by lra.
    apply Rmult_le_compat_r; lra. }
  replace (D - x * nn)%R with ((D - v * nn) + (v * nn - x * nn))%R by ring.
  eapply Rle_trans; [apply Rabs_triang|].
  assert (X0 : (0 <= Rabs x)%R) by apply Rabs_pos.
  set (a := Rabs x) in *. set (b := Rabs v) in *.
  assert (Q : (u * (b * nn) <= u * ((a + (u * a + h)) * nn))%R).
  { apply Rmult_le_compat_l; [lra|]. apply Rmult_le_compat_r; lra. }
  assert (Q2 : (u * ((a + (u * a + h)) * nn) <= 2 * u * (a * nn) + h * nn)%R).
  { assert (u * (a * nn) <= a * nn)%R by (assert (0 <= a * nn)%R by (apply Rmult_le_pos; lra); nra).
    assert (u * (h * nn) <= h * nn)%R by (assert (0 <= h * nn)%R by (apply Rmult_le_pos; lra); nra).
    assert (u * (u * (a * nn)) <= u * (a * nn))%R by (apply Rmult_le_compat_l; lra).
    nra. }
  assert (Q3 : (h * nn <= h * B)%R) by (apply Rmult_le_compat_l; lra).
  assert (Q4 : (h <= h * nn)%R) by nra.
  assert (Q5 : (0 <= u * (a * nn))%R) by (apply Rmult_le_pos; [lra|apply Rmult_le_pos; lra]).
  nra.
Qed.

(** The distance the arithmetic in double can cause (in ticks). *)
Definition slack (exact : R) : R := (bpow radix2 (-51) * Rabs exact + bpow radix2 (-1000))%R.

(** For every decimal x and units whose number of ticks, [exact], is at most
    2^52 / den in magnitude: what is added is within slack(exact) of half a
    tick of [exact], and if [exact] is further than that from every tie (k + 1/2)
    it is [exact] rounded to the nearest integer. *)
Theorem C17_every_decimal_partial :
  forall tg un ud neg m e num den,
  let x := ((if neg : bool then -1 else 1) * IZR m * powerRZ 10 e)%R in
  let exact := (x * (IZR un * IZR (pd tg)) / (IZR ud * IZR (pn tg)))%R in
  0 < num <= 2 ^ 64 -> 0 < den <= 2 ^ 51 -> Z.gcd num den = 1 -> un * pd tg * den = num * (ud * pn tg) -> 0 < ud * pn tg ->
  (Rabs exact * IZR den <= IZR (2 ^ 52))%R ->
  (IZR (lo tg) <= exact - 4)%R -> (exact + 4 <= IZR (hi tg))%R ->
  exists k, cast tg un ud (Dec neg m e) = Ok k /\
    (Rabs (IZR k - exact) <= / 2 + slack exact)%R /\
    ((forall i, slack exact < Rabs (exact - (IZR i + / 2)))%R -> k = ZnearestE exact).
Proof.
  intros tg un ud neg m e num den x exact Hn Hd G E P B Lo Hi.
  assert (EX : dec_value neg m e = x) by (unfold dec_value, x; destruct neg; cbn; lra).
  cbn [cast].
  assert (EN : un * pd tg / Z.gcd (un * pd tg) (ud * pn tg) = num /\ ud * pn tg / Z.gcd (un * pd tg) (ud * pn tg) = den).
  { set (a := un * pd tg) in *. set (b := ud * pn tg) in *.
    assert (Da : (den | b)).
    { apply (Z.gauss den num b); [|now rewrite Z.gcd_comm]. exists a. lia. }
    destruct Da as (g & Eb). assert (g > 0) by nia. assert (Ea : a = g * num) by nia.
    rewrite Ea, Eb, Z.gcd_mul_mono_l_nonneg, G, Z.mul_1_r by lia.
    split; rewrite Z.mul_comm; apply Z.div_mul; lia. }
  destruct EN as [-> ->]. rewrite EX.
  assert (Pd : (1 <= IZR den)%R) by (apply (IZR_le 1); lia).
  assert (Pd2 : (IZR den <= IZR (2 ^ 51))%R) by (apply IZR_le; lia).
  assert (EE : exact = (x * IZR num / IZR den)%R).
  { unfold exact. apply (f_equal IZR) in E. rewrite !mult_IZR in E.
    assert (Pu : (IZR ud * IZR (pn tg) <> 0)%R) by (rewrite <- mult_IZR; apply not_0_IZR; lia).
    apply Rmult_eq_reg_r with (IZR den); [|lra]. apply Rmult_eq_reg_r with (IZR ud * IZR (pn tg))%R; [|exact Pu].
    transitivity (x * (IZR un * IZR (pd tg) * IZR den) * (/ (IZR ud * IZR (pn tg)) * (IZR ud * IZR (pn tg))))%R; [unfold Rdiv; ring|].
    rewrite Rinv_l, Rmult_1_r by exact Pu. rewrite E. field. lra. }
  pose proof (product_error x num Hn) as PE. set (D := rnd (rnd x * IZR num)) in *.
  assert (XN : (x * IZR num = exact * IZR den)%R) by (rewrite EE; field; lra).
  rewrite XN, Rabs_mult, (Rabs_pos_eq (IZR den)) in PE by lra.
  assert (SL : (Rabs (D / IZR den - exact) <= slack exact)%R).
  { replace (D / IZR den - exact)%R with ((D - exact * IZR den) * / IZR den)%R by (field; lra).
    rewrite Rabs_mult, (Rabs_pos_eq (/ IZR den)) by (left; apply Rinv_0_lt_compat; lra).
    apply Rmult_le_reg_r with (IZR den); [lra|]. rewrite Rmult_assoc, Rinv_l, Rmult_1_r by lra.
    eapply Rle_trans; [exact PE|]. unfold slack.
    assert (0 < bpow radix2 (-1000))%R by apply bpow_gt_0. nra. }
  assert (S2 : (slack exact <= 3)%R).
  { unfold slack. assert (Rabs exact <= IZR (2 ^ 52))%R by (pose proof (Rabs_pos exact); nra).
    assert (bpow radix2 (-51) * Rabs exact <= bpow radix2 (-51) * IZR (2 ^ 52))%R by (apply Rmult_le_compat_l; [apply bpow_ge_0|exact H]).
    replace (IZR (2 ^ 52)) with (bpow radix2 52) in H0 by reflexivity. rewrite <- bpow_plus in H0. change (bpow radix2 (-51 + 52)) with 2%R in H0.
    assert (bpow radix2 (-1000) <= 1)%R by (apply (bpow_le radix2 (-1000) 0); lia). lra. }
  assert (BD : (Rabs D + IZR den <= IZR (2 ^ 53))%R).
  { assert (Rabs D <= Rabs (exact * IZR den) + Rabs (D - exact * IZR den))%R.
    { replace D with (exact * IZR den + (D - exact * IZR den))%R at 1 by ring. apply Rabs_triang. }
    rewrite Rabs_mult, (Rabs_pos_eq (IZR den)) in H by lra.
    assert (bpow radix2 (-51) * (Rabs exact * IZR den) <= bpow radix2 (-51) * IZR (2 ^ 52))%R by (apply Rmult_le_compat_l; [apply bpow_ge_0|exact B]).
    replace (IZR (2 ^ 52)) with (bpow radix2 52) in H0 by reflexivity. rewrite <- bpow_plus in H0. change (bpow radix2 (-51 + 52)) with 2%R in H0.
    assert (bpow radix2 (-1000) <= 1)%R by (apply (bpow_le radix2 (-1000) 0); lia).
    change (IZR (2 ^ 53)) with 9007199254740992%R. change (IZR (2 ^ 52)) with 4503599627370496%R in B. change (IZR (2 ^ 51)) with 2251799813685248%R in Pd2. lra. }
  assert (QB : (exact - 3 <= D / IZR den <= exact + 3)%R) by (revert SL; unfold Rabs; destruct Rcase_abs; lra).
  exists (ZnearestE (D / IZR den)). split; [|split].
  - apply chrono_round_correct; fold D; try lia; try lra; exact BD.
  - pose proof (Znearest_half (fun x => negb (Z.even x)) (D / IZR den)) as H.
    replace (IZR (ZnearestE (D / IZR den)) - exact)%R with (- (D / IZR den - IZR (ZnearestE (D / IZR den))) + (D / IZR den - exact))%R by ring.
    eapply Rle_trans; [apply Rabs_triang|]. rewrite Rabs_Ropp. apply Rplus_le_compat; assumption.
  - intros A. set (q := (D / IZR den)%R) in *. symmetry. apply Znearest_imp.
    pose proof (Znearest_half (fun x => negb (Z.even x)) q) as H. set (k := ZnearestE q) in *.
    pose proof (A k) as A1. pose proof (A (k - 1)) as A2. rewrite minus_IZR in A2.
    revert H SL A1 A2. unfold Rabs. repeat destruct Rcase_abs; lra.
Qed.
Print Assumptions C17_every_decimal_partial.

(** 0.3 s is 300 ms although 0.3 is not a double; 1.1 min is 66 s; and a third
    of a second, 16 digits, in nanoseconds. *)
Example C17_every_decimal_nonvacuous :
  cast milliseconds 1 1 (Dec false 3 (-1)) = Ok 300 /\ cast seconds 60 1 (Dec true 11 (-1)) = Ok (-66) /\
  cast (Target 1 1000000000 (- 2 ^ 63) (2 ^ 63 - 1)) 1 1 (Dec false 3333333333333333 (-16)) = Ok 333333333.
Proof.
  assert (SL : forall y, (Rabs y <= 1000000000)%R -> (slack y < / 8)%R).
  { intros y Y. unfold slack. assert (E51 : (bpow radix2 (-51) = / 2251799813685248)%R) by reflexivity. rewrite E51.
    assert (bpow radix2 (-1000) <= / 1024)%R by (apply (bpow_le radix2 (-1000) (-10)); lia).
    assert (/ 2251799813685248 * Rabs y <= / 2251799813685248 * 1000000000)%R by (apply Rmult_le_compat_l; lra). lra. }
  assert (X : forall n k y, (Rabs y <= 1000000000)%R -> (exists k', Ok n = Ok k' /\ (Rabs (IZR k' - y) <= / 2 + slack y)%R) ->
    (Rabs (y - IZR k) <= / 3)%R -> n = k).
  { intros n k y Y (k' & E & H) K. injection E as <-. pose proof (SL y Y).
    assert (Rabs (IZR (n - k)) < 1)%R; [|rewrite <- abs_IZR in H1; apply (lt_IZR _ 1) in H1; lia].
    rewrite minus_IZR. replace (IZR n - IZR k)%R with ((IZR n - y) + (y - IZR k))%R by ring.
    eapply Rle_lt_trans; [apply Rabs_triang|]. lra. }
  assert (P1 : powerRZ 10 (-1) = (/ 10)%R) by (rewrite powerRZ_neg' by lia; reflexivity).
  assert (P16 : powerRZ 10 (-16) = (/ 10000000000000000)%R) by (rewrite powerRZ_neg' by lia; reflexivity).
  assert (Q : forall tg un ud neg m e num den k, let y := ((if neg : bool then -1 else 1) * IZR m * powerRZ 10 e * (IZR un * IZR (pd tg)) / (IZR ud * IZR (pn tg)))%R in
    0 < num <= 2 ^ 64 -> 0 < den <= 2 ^ 51 -> Z.gcd num den = 1 -> un * pd tg * den = num * (ud * pn tg) -> 0 < ud * pn tg ->
    den = 1 -> lo tg = - 2 ^ 63 -> hi tg = 2 ^ 63 - 1 -> (Rabs y <= 1000000000)%R -> (Rabs (y - IZR k) <= / 3)%R ->
    cast tg un ud (Dec neg m e) = Ok k).
  { intros tg un ud neg m e num den k y H1 H2 H3 H4 H5 H6 H7 H8 H9 H10.
    destruct (C17_every_decimal_partial tg un ud neg m e num den H1 H2 H3 H4 H5) as (k' & E & H & _).
    - fold y. rewrite H6. change (IZR (2 ^ 52)) with 4503599627370496%R. lra.
    - fold y. rewrite H7. change (IZR (- 2 ^ 63)) with (-9223372036854775808)%R. revert H9. unfold Rabs. destruct Rcase_abs; lra.
    - fold y. rewrite H8. change (IZR (2 ^ 63 - 1)) with (9223372036854775807)%R. revert H9. unfold Rabs. destruct Rcase_abs; lra.
    - fold y in H. rewrite E. f_equal. apply (X k' k y H9); [|exact H10]. now exists k'. }
  split; [|split].
  - apply (Q milliseconds 1 1 false 3 (-1) 1000 1); try lia; try reflexivity; rewrite P1; cbn [pn pd milliseconds]; rewrite Rabs_pos_eq; lra.
  - apply (Q seconds 60 1 true 11 (-1) 60 1); try lia; try reflexivity; rewrite P1; cbn [pn pd seconds].
    + rewrite Rabs_left; lra.
    + unfold Rabs; destruct Rcase_abs; lra.
  - apply (Q _ 1 1 false 3333333333333333 (-16) 1000000000 1); try lia; try reflexivity; rewrite P16; cbn [pn pd].
    + rewrite Rabs_pos_eq; lra.
    + unfold Rabs; destruct Rcase_abs; lra.
Qed.

(** On strings: a term of any decimal adds such a k. *)
Theorem C17_every_term_partial :
  forall tg t s neg m e units rest un ud num den,
  let x := ((if neg : bool then -1 else 1) * IZR m * powerRZ 10 e)%R in
  let exact := (x * (IZR un * IZR (pd tg)) / (IZR ud * IZR (pn tg)))%R in
  first_term s (Dec neg m e) units rest -> unit_period units un ud ->
  0 < num <= 2 ^ 64 -> 0 < den <= 2 ^ 51 -> Z.gcd num den = 1 -> un * pd tg * den = num * (ud * pn tg) -> 0 < ud * pn tg ->
  (Rabs exact * IZR den <= IZR (2 ^ 52))%R ->
  (IZR (lo tg) <= exact - 4)%R -> (exact + 4 <= IZR (hi tg))%R ->
  exists k, (Rabs (IZR k - exact) <= / 2 + slack exact)%R /\
    ((forall i, slack exact < Rabs (exact - (IZR i + / 2)))%R -> k = ZnearestE exact) /\
    (lo tg <= t + k <= hi tg -> parse_duration tg t s = parse_duration tg (t + k) rest).
Proof.
  intros tg t s neg m e units rest un ud num den x exact FT U H1 H2 H3 H4 H5 H6 H7 H8.
  destruct (C17_every_decimal_partial tg un ud neg m e num den H1 H2 H3 H4 H5 H6 H7 H8) as (k & C & K1 & K2).
  exists k. split; [exact K1|]. split; [exact K2|]. intros R.
  rewrite (parse_step tg t s _ _ _ _ _ _ FT U C).
  rewrite (proj2 (Z.leb_le _ _)), (proj2 (Z.leb_le _ _)) by lia. reflexivity.
Qed.
Print Assumptions C17_every_term_partial.
