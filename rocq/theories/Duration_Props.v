(** C16, C17, C18: parse_duration. *)
From Flocq Require Import Core.
From Coq Require Import Reals Lra.
From Verif Require Import Base Bytes Duration_Model Duration_Spec Duration_Proofs Duration_Round Duration_WF.
Local Open Scope Z_scope.
Local Notation concat := List.concat.
#[local] Existing Instance prec64.

(** C16. The loop terminates on every string: however many rounds are allowed,
    [length s] of them are enough. *)
Theorem C16_terminates :
  forall tg t s, snd (parse_duration tg t s) <> Abort /\
  forall fuel, (length s <= fuel)%nat -> parse_loop fuel tg t s = parse_duration tg t s.
Proof.
  intros tg t s. split.
  - pose proof (loop_spec tg (length s) t s (le_n _)) as H. unfold parse_duration.
    destruct (parse_loop _ tg t s) as [t' [[]|e| |]]; cbn; try discriminate. destruct H.
  - intros fuel L. apply loop_fuel; lia.
Qed.
Print Assumptions C16_terminates.

(** If it succeeds, the string is a sequence of terms (blanks, number, units) and
    t has increased by the sum of the terms, each converted with its own units. *)
Theorem C16_sum :
  forall tg t s t', parse_duration tg t s = (t', Ok tt) ->
  exists total, sums (fun un ud x k => cast tg un ud x = Ok k) s total /\ t' = t + total.
Proof.
  intros tg t s t' H. pose proof (loop_spec tg (length s) t s (le_n _)) as L. unfold parse_duration in H. rewrite H in L. exact L.
Qed.
Print Assumptions C16_sum.

(** Conversely every sequence of terms is accepted and summed (or the sum is
    out of the range of the duration, which is undefined). *)
Theorem C16_every_sequence :
  forall tg s total t, sums (fun un ud x k => cast tg un ud x = Ok k) s total ->
  parse_duration tg t s = (t + total, Ok tt) \/ snd (parse_duration tg t s) = UB.
Proof. intros tg s total t H. exact (sums_accepted tg s total H t). Qed.
Print Assumptions C16_every_sequence.

Definition milliseconds : target := Target 1 1000 (- 2 ^ 63) (2 ^ 63 - 1).
Definition seconds : target := Target 1 1 (- 2 ^ 63) (2 ^ 63 - 1).

(** C17. For every decimal x, units un/ud and target period pn/pd, with
    num/den = (un/ud)/(pn/pd) in lowest terms: if x and x*num are doubles and
    the result is below 2^53 (in units of the common period), the ticks added
    are x*num/den rounded to the nearest integer, ties to even. *)
Theorem C17_round_half_even_partial :
  forall tg un ud neg m e num den, let x := dec_value neg m e in
  0 < num -> 0 < den -> Z.gcd num den = 1 -> un * pd tg * den = num * (ud * pn tg) -> 0 < ud * pn tg ->
  F64 x -> F64 (x * IZR num) ->
  (Rabs (x * IZR num) + IZR den <= IZR (2 ^ 53))%R ->
  (IZR (lo tg) <= x * IZR num / IZR den - 1)%R -> (x * IZR num / IZR den + 1 <= IZR (hi tg))%R ->
  cast tg un ud (Dec neg m e) = Ok (ZnearestE (x * (IZR un * IZR (pd tg)) / (IZR ud * IZR (pn tg)))).
Proof.
  intros tg un ud neg m e num den x Hn Hd G E P Fx Fxn B Lo Hi. cbn [cast].
  assert (EN : un * pd tg / Z.gcd (un * pd tg) (ud * pn tg) = num /\ ud * pn tg / Z.gcd (un * pd tg) (ud * pn tg) = den).
  { set (a := un * pd tg) in *. set (b := ud * pn tg) in *.
    assert (Da : (den | b)).
    { apply (Z.gauss den num b); [|now rewrite Z.gcd_comm]. exists a. lia. }
    destruct Da as (g & Eb). assert (g > 0) by nia. assert (Ea : a = g * num) by nia.
    rewrite Ea, Eb, Z.gcd_mul_mono_l_nonneg, G, Z.mul_1_r by lia.
    split; rewrite Z.mul_comm; apply Z.div_mul; lia. }
  destruct EN as [-> ->].
  assert (Ex : rnd x = x) by now apply rnd_exact. fold x. rewrite Ex.
  assert (En : rnd (x * IZR num) = (x * IZR num)%R) by now apply rnd_exact.
  rewrite chrono_round_correct; rewrite ?En; auto.
  do 2 f_equal. apply (f_equal IZR) in E. rewrite !mult_IZR in E.
  assert (Pd : (IZR den <> 0)%R) by (apply not_0_IZR; lia).
  assert (Pu : (IZR ud * IZR (pn tg) <> 0)%R) by (rewrite <- mult_IZR; apply not_0_IZR; lia).
  apply Rmult_eq_reg_r with (IZR den); [|exact Pd]. unfold Rdiv. rewrite Rmult_assoc, Rinv_l, Rmult_1_r by exact Pd.
  apply Rmult_eq_reg_r with (IZR ud * IZR (pn tg))%R; [|exact Pu].
  transitivity (x * (IZR num * (IZR ud * IZR (pn tg))))%R; [ring|]. rewrite <- E.
  transitivity (x * (IZR un * IZR (pd tg)) * IZR den * (/ (IZR ud * IZR (pn tg)) * (IZR ud * IZR (pn tg))))%R; [|ring].
  rewrite Rinv_l by exact Pu. ring.
Qed.
Print Assumptions C17_round_half_even_partial.

(** Whatever the decimal, what is added is the rounding (half to even) of the
    double the code computes: x rounded to double, times num, rounded to
    double, divided by den exactly. *)
Theorem C17_any_decimal_partial :
  forall num den lo hi neg m e,
  let D := rnd (rnd (dec_value neg m e) * IZR num) in
  0 < den -> (Rabs D + IZR den <= IZR (2 ^ 53))%R ->
  (IZR lo <= D / IZR den - 1)%R -> (D / IZR den + 1 <= IZR hi)%R ->
  chrono_round num den lo hi (rnd (dec_value neg m e)) = Ok (ZnearestE (D / IZR den)).
Proof. intros num den lo hi neg m e. apply chrono_round_correct. Qed.
Print Assumptions C17_any_decimal_partial.

(** An integer number n of units that is an integer number of ticks is added
    exactly, below 2^53. *)
Theorem C17_integers_partial :
  forall tg un ud neg n num,
  0 <= n -> 0 < num -> 0 < ud * pn tg -> un * pd tg = num * (ud * pn tg) ->
  n * num + 1 <= 2 ^ 53 -> lo tg <= - (n * num) - 1 -> n * num + 1 <= hi tg ->
  cast tg un ud (Dec neg n 0) = Ok ((if neg : bool then -1 else 1) * n * num).
Proof.
  intros tg un ud neg n num Hn Hnum P E B Lo Hi. set (sg := if neg then -1 else 1).
  assert (X : dec_value neg n 0 = IZR (sg * n)).
  { unfold dec_value, sg. cbn [powerRZ]. rewrite mult_IZR. destruct neg; cbn; lra. }
  assert (Asg : Z.abs (sg * n * num) = n * num) by (unfold sg; destruct neg; lia).
  assert (A1 : Z.abs (sg * n) = n) by (unfold sg; destruct neg; lia).
  assert (B0 : n <= n * num) by nia.
  pose proof (C17_round_half_even_partial tg un ud neg n 0 num 1 Hnum eq_refl (Z.gcd_1_r num) ltac:(lia) P) as C.
  cbv zeta in C. rewrite X, <- mult_IZR in C. rewrite C.
  - f_equal. apply (f_equal IZR) in E. rewrite !mult_IZR in E. rewrite E.
    assert (Pu : (IZR ud * IZR (pn tg) <> 0)%R) by (rewrite <- mult_IZR; apply not_0_IZR; lia).
    set (C0 := (IZR ud * IZR (pn tg))%R) in *.
    replace (IZR (sg * n) * (IZR num * C0) / C0)%R with (IZR (sg * n) * IZR num)%R by (field; exact Pu).
    rewrite <- mult_IZR. apply Znearest_imp. rewrite Rminus_diag_eq, Rabs_R0 by reflexivity. lra.
  - apply F64_int. lia.
  - apply F64_int. lia.
  - rewrite <- abs_IZR, <- plus_IZR. apply IZR_le. lia.
  - unfold Rdiv. rewrite Rinv_1, Rmult_1_r. change 1%R with (IZR 1). rewrite <- minus_IZR. apply IZR_le. unfold sg. destruct neg; lia.
  - unfold Rdiv. rewrite Rinv_1, Rmult_1_r. rewrite <- plus_IZR. apply IZR_le. unfold sg. destruct neg; lia.
Qed.
Print Assumptions C17_integers_partial.

Ltac m64 := change (2 ^ 53) with 9007199254740992; change (2 ^ 63) with 9223372036854775808.

(** 1500 ms are 2 s (1.5 rounds to the even neighbour), 2500 ms are 2 s, 2 min are 120 s. *)
Example C17_nonvacuous :
  cast seconds 1 1000 (Dec false 1500 0) = Ok 2 /\ cast seconds 1 1000 (Dec false 2500 0) = Ok 2 /\
  cast seconds 60 1 (Dec true 2 0) = Ok (-120).
Proof.
  assert (H : forall n, 0 <= n <= 10000 -> cast seconds 1 1000 (Dec false n 0) = Ok (ZnearestE (IZR n / 1000))).
  { intros n N. rewrite (C17_round_half_even_partial seconds 1 1000 false n 0 1 1000); try lia; try reflexivity.
    - do 2 f_equal. unfold dec_value. cbn. field.
    - replace (dec_value false n 0) with (IZR n) by (unfold dec_value; cbn; lra). apply F64_int. lia.
    - replace (dec_value false n 0 * 1)%R with (IZR n) by (unfold dec_value; cbn; lra). apply F64_int. lia.
    - replace (dec_value false n 0 * 1)%R with (IZR n) by (unfold dec_value; cbn; lra).
      rewrite <- abs_IZR, <- plus_IZR. apply IZR_le. lia.
    - replace (dec_value false n 0 * 1)%R with (IZR n) by (unfold dec_value; cbn; lra).
      assert (0 <= IZR n)%R by (apply (IZR_le 0); lia). assert (IZR (lo seconds) <= -1)%R by (apply (IZR_le _ (-1)); cbn; lia). lra.
    - replace (dec_value false n 0 * 1)%R with (IZR n) by (unfold dec_value; cbn; lra).
      assert (IZR n <= 10000)%R by (apply (IZR_le _ 10000); lia). assert (100 <= IZR (hi seconds))%R by (apply (IZR_le 100); cbn; lia). lra. }
  assert (Hf : forall f x, (IZR f <= x < IZR (f + 1))%R -> Zfloor x = f) by (intros; apply Zfloor_imp; auto).
  assert (Hc : forall f x, (IZR (f - 1) < x <= IZR f)%R -> Zceil x = f) by (intros; apply Zceil_imp; auto).
  split; [|split].
  - rewrite H by lia. f_equal. unfold Znearest. rewrite (Hf 1), (Hc 2) by (rewrite ?plus_IZR, ?minus_IZR; lra). rewrite Rcompare_Eq by lra. reflexivity.
  - rewrite H by lia. f_equal. unfold Znearest. rewrite (Hf 2), (Hc 3) by (rewrite ?plus_IZR, ?minus_IZR; lra). rewrite Rcompare_Eq by lra. reflexivity.
  - rewrite (C17_integers_partial seconds 60 1 true 2 60); cbn; try lia; reflexivity.
Qed.

(** C17 is false beyond that: the arithmetic is in double. 0.50000000000000000001 ms
    is more than half a millisecond, yet 0 is added: the decimal rounds to the
    double 0.5, a tie. *)
Theorem C17_decimal_refuted :
  let x := dec_value false 50000000000000000001 (-20) in
  cast milliseconds 1 1000 (Dec false 50000000000000000001 (-20)) = Ok 0 /\ ZnearestE x = 1.
Proof.
  cbv zeta. set (x := dec_value false 50000000000000000001 (-20)).
  assert (Ex : x = (1 / 2 + / 100000000000000000000)%R).
  { unfold x, dec_value. rewrite powerRZ_neg' by lia. replace (10 ^ (- (-20))) with 100000000000000000000 by reflexivity. field. }
  assert (Hx : rnd x = (1 / 2)%R).
  { set (y := rnd x). assert (Fy : F64 y) by apply rnd_format.
    assert (Fh : F64 (1 / 2)).
    { replace (1 / 2)%R with (IZR 1 * bpow radix2 (-1))%R by (cbn; lra). apply F64_scaled; lia. }
    assert (L : (1 / 2 <= y)%R).
    { unfold y. rewrite <- (rnd_exact (1 / 2)) at 1 by exact Fh. apply rnd_le. lra. }
    assert (N : (Rabs (y - x) <= Rabs (1 / 2 - x))%R).
    { destruct (round_N_pt radix2 binary64 (fun x => negb (Z.even x)) x) as [_ NN]. exact (NN _ Fh). }
    assert (U : (y <= 1 / 2 + 2 / 100000000000000000000)%R).
    { revert N. unfold Rabs. destruct (Rcase_abs (y - x)), (Rcase_abs (1 / 2 - x)); lra. }
    assert (M : mag radix2 y = 0 :> Z).
    { apply mag_unique. rewrite Rabs_pos_eq by lra. cbn. lra. }
    unfold generic_format in Fy. unfold cexp in Fy. rewrite M in Fy.
    change (binary64 0) with (-53) in Fy. set (k := Ztrunc _) in Fy.
    unfold F2R in Fy. cbn [Fnum Fexp] in Fy.
    assert (Eb : (bpow radix2 (-53) = / 9007199254740992)%R) by reflexivity. rewrite Eb in Fy.
    assert (K : k = 4503599627370496).
    { clearbody k y. assert (4503599627370495 < k < 4503599627370497); [|lia]. split; apply lt_IZR; lra. }
    rewrite Fy, K. lra. }
  split.
  - cbn [cast]. fold x. change (1 * pd milliseconds) with 1000. change (1000 * pn milliseconds) with 1000.
    change (1000 / Z.gcd 1000 1000) with 1. rewrite Hx.
    assert (D : rnd (1 / 2 * 1) = (1 / 2)%R).
    { rewrite Rmult_1_r. rewrite <- Hx. apply rnd_exact, rnd_format. }
    rewrite chrono_round_correct; rewrite ?D; try lia.
    + f_equal. unfold Rdiv at 1. rewrite Rinv_1, Rmult_1_r. unfold Znearest.
      rewrite (Zfloor_imp 0) by (rewrite ?plus_IZR; lra). rewrite Rcompare_Eq by lra. reflexivity.
    + rewrite Rabs_pos_eq by lra. change (IZR (2 ^ 53)) with 9007199254740992%R. lra.
    + change (IZR (lo milliseconds)) with (-9223372036854775808)%R. lra.
    + change (IZR (hi milliseconds)) with 9223372036854775807%R. lra.
  - apply Znearest_imp. rewrite Ex. rewrite Rabs_left by lra. lra.
Qed.
Print Assumptions C17_decimal_refuted.

(** C18. What is rejected: exactly the strings in which, after some terms, a
    term has no number (in the range of double) or unknown units; the terms
    before it have been added to t. (Unless the sum leaves the range first.) *)
Theorem C18_rejected :
  forall tg t s t' e, parse_duration tg t s = (t', Throw e) ->
  exists total, bad_at (fun un ud x k => cast tg un ud x = Ok k) s total e /\ t' = t + total.
Proof.
  intros tg t s t' e H. pose proof (loop_spec tg (length s) t s (le_n _)) as L. unfold parse_duration in H. rewrite H in L. exact L.
Qed.
Print Assumptions C18_rejected.

Theorem C18_rejects_all_bad :
  forall tg t s total e, bad_at (fun un ud x k => cast tg un ud x = Ok k) s total e ->
  parse_duration tg t s = (t + total, Throw e) \/ snd (parse_duration tg t s) = UB.
Proof. intros tg t s total e H. exact (bad_rejected tg s total e H t). Qed.
Print Assumptions C18_rejects_all_bad.

(** C18 is false: a term with value zero is rejected, because the zeros are
    skipped with the separators before the number is read. *)
Theorem C18_zero_refuted :
  forall tg t,
  parse_duration tg t (bytes "0s") = (t, Throw invalid_duration_value) /\
  parse_duration tg t (bytes "0.s") = (t, Throw invalid_duration_value) /\
  (exists ts, bytes "0s" = concat (map show ts) /\ well_formed ts).
Proof.
  intros tg t. split; [vm_compute; reflexivity|]. split; [vm_compute; reflexivity|].
  exists [Term [] false [48] None (bytes "s")]. split; [reflexivity|].
  cbn. repeat split; auto; try (repeat constructor; unfold digit; lia); try discriminate.
  exists 1, 1. constructor.
Qed.
Print Assumptions C18_zero_refuted.

(** What holds: every well-formed sum of terms none of which is a bare zero with
    units is accepted, and the sum of the terms is added. *)
Theorem C18_well_formed_partial :
  forall tg t ts total, 0 < pn tg -> 0 < pd tg ->
  well_formed ts -> Forall not_bare_zero ts -> converts tg ts total ->
  parse_duration tg t (concat (map show ts)) = (t + total, Ok tt) \/
  snd (parse_duration tg t (concat (map show ts))) = UB.
Proof. intros tg t ts total P1 P2 W N C. apply sums_accepted. now apply wf_sums. Qed.
Print Assumptions C18_well_formed_partial.

(** "1min 0+20s-007ms" *)
Definition demo : list term :=
  [Term [] false [49] None (bytes "min"); Term [32] false [48] None []; Term [43] false [50; 48] None (bytes "s");
   Term [] true [48; 48; 55] None (bytes "ms")].

Lemma small_in_range m : 0 <= m <= 100 -> in_range m 0.
Proof.
  intros M. apply range_spec; [lia|].
  assert (E : too_large m 0 = false).
  { unfold too_large. change (0 <=? 0) with true. cbn match. apply Z.leb_gt. change (10 ^ 0) with 1.
    assert (2 ^ 970 + 2 ^ 100 < 2 ^ 1024) by reflexivity. assert (100 < 2 ^ 100) by reflexivity. lia. }
  assert (E2 : too_small m 0 = false) by (unfold too_small; now rewrite andb_false_r).
  now rewrite E, E2.
Qed.

Example C18_nonvacuous :
  concat (map show demo) = bytes "1min 0+20s-007ms" /\ well_formed demo /\ Forall not_bare_zero demo /\
  converts milliseconds demo 79993.
Proof.
  split; [reflexivity|]. split.
  { cbn. assert (P : forall c, sep c <-> c = 43 \/ c = 32) by (unfold sep; cbn; intros; lia).
    repeat split; auto; try (repeat constructor; rewrite ?P; unfold digit; lia); try discriminate; try (left; discriminate); try (right; reflexivity);
    do 2 eexists; constructor. }
  split.
  { constructor; [right; left; constructor; lia|]. constructor; [right; right; right; auto|].
    constructor; [right; left; constructor; lia|]. constructor; [now left|constructor]. }
  assert (C : forall un ud neg n num, 0 <= n <= 100 -> 0 < num <= 1000000 -> 0 < ud -> un * 1000 = num * (ud * 1) ->
    cast milliseconds un ud (Dec neg n 0) = Ok ((if neg : bool then -1 else 1) * n * num)).
  { intros un ud neg n num N1 N2 U E. apply C17_integers_partial; cbn [pn pd lo hi milliseconds]; try lia; try exact E; m64; nia. }
  change 79993 with (60000 + (0 + (20000 + (-7 + 0)))).
  eapply (conv_cons _ _ _ 60 1); [constructor|apply small_in_range; cbn; lia|apply (C 60 1 false 1 60000); lia|].
  eapply (conv_cons _ _ _ 1 1); [constructor|apply small_in_range; cbn; lia|apply (C 1 1 false 0 1000); lia|].
  eapply (conv_cons _ _ _ 1 1); [constructor|apply small_in_range; cbn; lia|apply (C 1 1 false 20 1000); lia|].
  eapply (conv_cons _ _ _ 1 1000); [constructor|apply small_in_range; cbn; lia|apply (C 1 1000 true 7 1); lia|].
  constructor.
Qed.

(** The hypotheses of C16 are met by the same string. *)
Example C16_nonvacuous :
  sums (fun un ud x k => cast milliseconds un ud x = Ok k) (bytes "1min 0+20s-007ms") 79993.
Proof.
  destruct C18_nonvacuous as (E & W & N & C). rewrite <- E. now apply wf_sums.
Qed.
