(** C76: the floating-point fallback of guanaqo::from_chars against std::from_chars. *)
From Flocq Require Import Core.
From Coq Require Import Reals Lra Znumtheory Zpow_facts.
From Verif Require Import Base Bytes Duration_Model Duration_Spec Duration_Proofs Csv_Spec Csv_Numbers FloatIO_Model FloatIO_Spec FloatIO_Proofs FloatIO_Props
  FromChars_Model Stod_Model Stod_Spec Stod_Proofs.
Local Open Scope Z_scope.

Lemma min_normal_bpow fmt : min_normal fmt = bpow radix2 (emin fmt + prec fmt - 1).
Proof. apply powerRZ_2. Qed.

(** What strtod sees in a text without leading white space or plus sign. *)
Lemma strtod_plain s : ~ starts_with space s -> ~ starts_with (eq 43) s -> ~ hexadecimal s ->
  strtod s = let '(neg, t) := match eat 45 s with Some t => (true, t) | None => (false, s) end in
    match
      match strip_prefix (bytes "infinity") t, strip_prefix (bytes "inf") t, strip_prefix (bytes "nan") t with
      | Some r, _, _ => Some (MInf, r)
      | _, Some r, _ => Some (MInf, r)
      | _, _, Some r => Some (MNaN, nan_tail r)
      | None, None, None => scan_decimal t
      end with Some (x, r) => Some (neg, x, r) | None => None end.
Proof.
  intros N1 N2 N3. unfold strtod. rewrite (skip_space_none s N1), (proj2 (eat_none 43 s) N2).
  destruct (eat 45 s) as [t|] eqn:E.
  - unfold scan_magnitude. rewrite (not_hex t); [reflexivity|]. intros (x & p & d & r & -> & Hx & Hp & Hd). apply eat_some in E as ->.
    apply N3. exists [45], x, p, d, r. auto 7.
  - unfold scan_magnitude. rewrite (not_hex s); [reflexivity|]. intros (x & p & d & r & -> & Hx & Hp & Hd).
    apply N3. exists [], x, p, d, r. auto 7.
Qed.

(** A text that does not start with white space, a plus sign or a hexadecimal
    number: whatever number the fallback gives, std::from_chars gives it too,
    with the same end; and every number std::from_chars gives, the fallback gives,
    unless it is a nonzero number not above the smallest normal one. *)
Theorem C76_same_partial : forall fmt s, supported fmt ->
  ~ starts_with space s -> ~ starts_with (eq 43) s -> ~ hexadecimal s ->
  (forall v k, from_chars_stod fmt s = FpNumber v k -> from_chars_fp fmt s = Some (v, k)) /\
  (forall v k, from_chars_fp fmt s = Some (v, k) ->
     match v with Fin _ x => x = 0%R \/ (min_normal fmt < x)%R | _ => True end -> from_chars_stod fmt s = FpNumber v k).
Proof.
  intros fmt s H N1 N2 N3. pose proof (strtod_plain s N1 N2 N3) as ST. unfold from_chars_stod, from_chars_fp, floating. rewrite from_chars_split.
  set (p := match eat 45 s with Some t => (true, t) | None => (false, s) end) in ST.
  assert (Ep : match eat 45 s with Some t => from_chars_unsigned true t | None => from_chars_unsigned false s end = from_chars_unsigned (fst p) (snd p)).
  { unfold p. destruct (eat 45 s); reflexivity. }
  assert (Sg : match s with [] => false | c :: _ => c =? 45 end = fst p).
  { unfold p. destruct s as [|c t]; [reflexivity|]. cbn [eat]. destruct (c =? 45); reflexivity. }
  rewrite Ep, ST. clear Ep ST. rewrite Sg. clear Sg. destruct p as [neg t]. cbn [fst snd]. rewrite from_chars_scan.
  destruct (strip_prefix (bytes "infinity") t) as [r|].
  { split; [intros v k E; injection E as <- <-; reflexivity|intros v k E _; injection E as <- <-; reflexivity]. }
  destruct (strip_prefix (bytes "inf") t) as [r|].
  { split; [intros v k E; injection E as <- <-; reflexivity|intros v k E _; injection E as <- <-; reflexivity]. }
  destruct (strip_prefix (bytes "nan") t) as [r|].
  { split; [intros v k E; injection E as <- <-; reflexivity|intros v k E _; injection E as <- <-; reflexivity]. }
  destruct (scan_decimal t) as [[x r]|] eqn:Sd; [|split; [intros v k E; discriminate E|intros v k E; discriminate E]].
  apply scan_decimal_at in Sd as (m & e & -> & U & M0). cbv zeta. set (a := (IZR m * powerRZ 10 e)%R).
  assert (P10 : (0 < powerRZ 10 e)%R) by (apply powerRZ_lt; lra).
  assert (B0 : (bpow radix2 (emin fmt - 1) > 0)%R) by apply bpow_gt_0.
  assert (Dr : m <> 0 -> (bpow radix2 (emin fmt - 1) < a)%R -> (a < bpow radix2 (emax fmt) - bpow radix2 (emax fmt - prec fmt - 1))%R ->
     too_large m e || too_small m e = false).
  { intros Nm A1 A2. apply range_spec; [exact M0|]. destruct (double_range fmt H a (conj A1 A2)) as [R1 R2].
    split; [exact R2|]. right. exact R1. }
  assert (Z0 : m = 0 -> too_large m e || too_small m e = false).
  { intros ->. apply range_spec; [lia|]. split; [|now left]. rewrite Rmult_0_l.
    assert (bpow radix2 970 < bpow radix2 1024)%R by (apply bpow_lt; lia). lra. }
  split.
  - intros v k E. destruct (overflows fmt a) eqn:Ov; [discriminate E|]. destruct (underflows fmt a) eqn:Un; [discriminate E|]. cbn [orb] in E. injection E as <- <-.
    apply overflows_spec in Ov. destruct (Z.eq_dec m 0) as [Em|Nm].
    + rewrite (Z0 Em). unfold a in *. rewrite Em in *. rewrite Rmult_0_l in *.
      destruct (Rle_dec _ 0) as [L|_]; [lra|]. cbn. rewrite round_0; [reflexivity|]. typeclasses eauto.
    + assert (A0 : (0 < a)%R) by (unfold a; apply Rmult_lt_0_compat; [apply (IZR_lt 0); lia|exact P10]).
      assert (A1 : (bpow radix2 (emin fmt - 1) < a)%R).
      { apply Rnot_le_lt. intros L. rewrite (underflows_tiny fmt H a) in Un; [discriminate Un|lra]. }
      rewrite (Dr Nm A1 Ov). fold a. destruct (Rle_dec _ a) as [L|_]; [lra|]. rewrite (proj2 (Z.eqb_neq _ _) Nm).
      destruct (Rle_dec a _) as [L|_]; [lra|]. reflexivity.
  - intros v k E Hv. destruct (too_large m e || too_small m e); [discriminate E|].
    fold a in E. destruct (Rle_dec _ a) as [L|L]; [discriminate E|]. rewrite (proj2 (overflows_spec fmt a)) by lra. cbn [orb].
    destruct (Z.eqb_spec m 0) as [Em|Nm].
    + injection E as <- <-. unfold a. rewrite Em, Rmult_0_l, (underflows_zero fmt H), round_0; [reflexivity|]. typeclasses eauto.
    + destruct (Rle_dec a _) as [L2|L2]; [discriminate E|]. injection E as <- <-.
      assert (P : (0 < round radix2 (fexp fmt) ZnearestE a)%R) by (apply (rounds_positive fmt H); lra).
      rewrite (underflows_normal fmt H); [reflexivity|]. rewrite <- min_normal_bpow. lra.
Qed.
Print Assumptions C76_same_partial.

(** Whether a decimal with few digits can be a subnormal number. *)
Lemma not_subnormal fmt p K m e x D q : 0 < K -> 10 ^ (Z.of_nat p + 1) <= 5 ^ K -> 10 ^ K <= 2 ^ (- (emin fmt + prec fmt - 1)) -> emin fmt + prec fmt - 1 <= 0 ->
  x = (IZR m * powerRZ 2 e)%R -> 0 <= m -> (0 < x < bpow radix2 (emin fmt + prec fmt - 1))%R ->
  0 <= D < 10 ^ (Z.of_nat p + 1) -> x <> (IZR D * powerRZ 10 q)%R.
Proof.
  intros K0 HK HN He Ex Hm Hx HD E.
  assert (D0 : D <> 0) by (intros ->; rewrite Rmult_0_l in E; lra).
  assert (Hq : q <= - K - 1).
  { apply Z.lt_succ_r. replace (Z.succ (- K - 1)) with (- K) by lia. apply Z.lt_nge. intros Lq.
    assert (A : (powerRZ 10 (- K) <= x)%R).
    { rewrite E. assert (powerRZ 10 (- K) <= powerRZ 10 q)%R.
      { change 10%R with (IZR (radix_val radix10)). rewrite <- !bpow_powerRZ. apply bpow_le. lia. }
      assert (1 <= IZR D)%R by (apply (IZR_le 1); lia). assert (0 < powerRZ 10 q)%R by (apply powerRZ_lt; lra). nra. }
    assert (B : (bpow radix2 (emin fmt + prec fmt - 1) <= powerRZ 10 (- K))%R).
    { rewrite powerRZ_neg' by lia. rewrite Z.opp_involutive. replace (emin fmt + prec fmt - 1) with (- - (emin fmt + prec fmt - 1)) by lia. rewrite bpow_opp.
      rewrite <- (IZR_Zpower radix2) by lia. apply Rinv_le.
      - apply (IZR_lt 0). apply Z.pow_pos_nonneg; lia.
      - apply IZR_le. exact HN. }
    lra. }
  (* m 2^e = D 10^q *)
  set (n := - q). assert (Hn : K <= n) by (unfold n; lia).
  assert (P5 : 0 < 5 ^ n) by (apply Z.pow_pos_nonneg; lia).
  assert (Q : (5 ^ n | D)).
  { assert (Pw : (powerRZ 10 q * (IZR (5 ^ n) * IZR (2 ^ n)) = 1)%R).
    { rewrite <- mult_IZR, <- Z.pow_mul_l. change (5 * 2) with 10. unfold n. rewrite powerRZ_neg' by lia. apply Rinv_l. apply not_0_IZR.
      assert (0 < 10 ^ (- q)) by (apply Z.pow_pos_nonneg; lia). lia. }
    assert (ED : (IZR m * powerRZ 2 e * (IZR (5 ^ n) * IZR (2 ^ n)) = IZR D)%R).
    { rewrite <- Ex, E, Rmult_assoc, Pw. ring. }
    destruct (Z.le_gt_cases 0 e) as [L|G].
    - replace (powerRZ 2 e) with (IZR (2 ^ e)) in ED by (rewrite powerRZ_2, <- (IZR_Zpower radix2) by lia; reflexivity).
      rewrite <- !mult_IZR in ED. apply eq_IZR in ED. exists (m * 2 ^ e * 2 ^ n). lia.
    - assert (P2 : (powerRZ 2 e * IZR (2 ^ (- e)) = 1)%R).
      { rewrite powerRZ_2. replace (IZR (2 ^ (- e))) with (bpow radix2 (- e)) by (rewrite <- (IZR_Zpower radix2) by lia; reflexivity).
        rewrite <- bpow_plus. replace (e + - e) with 0 by lia. reflexivity. }
      assert (ED2 : m * 5 ^ n * 2 ^ n = D * 2 ^ (- e)).
      { apply eq_IZR. rewrite !mult_IZR. rewrite <- ED. transitivity (IZR m * (IZR (5 ^ n) * IZR (2 ^ n)) * (powerRZ 2 e * IZR (2 ^ (- e))))%R; [|ring]. rewrite P2. ring. }
      apply (Z.gauss _ (2 ^ (- e))); [exists (m * 2 ^ n); lia|].
      apply Zgcd_1_rel_prime. apply rel_prime_Zpower; [lia|lia|].
      apply Zgcd_1_rel_prime. reflexivity. }
  apply Z.divide_pos_le in Q; [|lia]. assert (5 ^ K <= 5 ^ n) by (apply Z.pow_le_mono_r; lia). lia.
Qed.

(** It is false for subnormal numbers: the text of every one of them (as
    printed, 17 or 9 significant digits after the point) is a number for
    std::from_chars but out of range for the fallback. *)
Theorem C76_subnormal_refuted : forall fmt neg x, fmt = FloatIO_Model.binary64 \/ fmt = binary32 -> representable fmt x -> (0 < x < min_normal fmt)%R ->
  let s := to_chars (Fin neg x) (max_digits10 fmt) in
  from_chars_fp fmt s = Some (Fin neg x, length s) /\ from_chars_stod fmt s = FpOutOfRange 0.
Proof.
  intros fmt neg x Hf Hr Hx s.
  assert (H : supported fmt) by (destruct Hf as [-> | ->]; apply C69_formats).
  split; [now apply (from_chars_to_chars fmt H)|].
  set (p := max_digits10 fmt) in *. set (d := decimal_round p x).
  destruct (sci_split p x d eq_refl ltac:(lra)) as (E1 & E2 & E3).
  pose proof (scientific_at p x ltac:(lra)) as U. cbv zeta in U. fold d in U.
  destruct (decimal_reads fmt H p x Hr ltac:(lra) (le_n _)) as [Rd Bd]. fold d in Rd, Bd.
  destruct (unsigned_first _ _ _ _ U) as (c & t & Et & Hc). unfold Duration_Spec.digit in Hc.
  assert (St : strtod s = Some (neg, MDec (sci_digits p d) (sci_exponent d - Z.of_nat p), [])).
  { rewrite strtod_plain.
    - unfold s, to_chars. cbn [signbit].
      assert (Sg : match eat 45 ((if neg then [45] else []) ++ scientific p x) with Some t => (true, t) | None => (false, (if neg then [45] else []) ++ scientific p x) end = (neg, scientific p x)).
      { destruct neg; cbn [app]; [cbn [eat]; reflexivity|]. rewrite Et. cbn [eat]. destruct (Z.eqb_spec c 45); [lia|reflexivity]. }
      rewrite Sg.
      rewrite (no_word (bytes "infinity") 105 _ _ _ _ (ex_intro _ _ eq_refl) ltac:(lia) word_infinity U).
      rewrite (no_word (bytes "inf") 105 _ _ _ _ (ex_intro _ _ eq_refl) ltac:(lia) word_inf U).
      rewrite (no_word (bytes "nan") 110 _ _ _ _ (ex_intro _ _ eq_refl) ltac:(lia) word_nan U).
      now rewrite (scan_decimal_complete _ _ _ _ U).
    - unfold s, to_chars. cbn [signbit]. destruct neg; cbn [app]; [|rewrite Et]; intros (c' & t' & E & K); injection E as <- _; unfold space in K; lia.
    - unfold s, to_chars. cbn [signbit]. destruct neg; cbn [app]; [|rewrite Et]; intros (c' & t' & E & K); injection E as <- _; lia.
    - intros (sg & y & pt & dd & rest & E & Hs & Hy & _). assert (In y s) by (rewrite E; apply in_or_app; right; right; now left).
      (* the second character is a point: no x *)
      unfold s, to_chars in E. cbn [signbit] in E. rewrite Et in E.
      assert (Sc : exists more, scientific p x = c :: 46 :: more).
      { unfold scientific in Et |- *. fold d in Et |- *. pose proof (fixed_length (S p) (sci_digits p d)) as L.
        destruct (fixed (S p) (sci_digits p d)) as [|c0 more]; [discriminate L|]. injection Et as -> _. cbn [length] in L.
        destruct more as [|c1 more]; [exfalso; cbn [length] in L; unfold p in L; destruct Hf as [-> | ->]; discriminate L|]. eexists. reflexivity. }
      destruct Sc as (more & Sc). rewrite Et in Sc. injection Sc as ->.
      destruct neg, Hs as [-> | ->]; cbn [app] in E; (discriminate E || (injection E; intros; lia)). }
  unfold from_chars_stod. rewrite St. cbv zeta. rewrite <- E1.
  destruct (representable_format fmt x H Hr) as [Fx _]. rewrite min_normal_bpow in Hx.
  assert (Nd : d <> x).
  { destruct Hr as (_ & m & e & Ex & Hm & _). rewrite E1. intros E. symmetry in E. revert E.
    destruct Hf as [-> | ->].
    - apply (not_subnormal FloatIO_Model.binary64 p 26 m e x); try lia; try assumption; try (vm_compute; congruence).
    - apply (not_subnormal binary32 p 15 m e x); try lia; try assumption; try (vm_compute; congruence). }
  rewrite (underflows_inexact fmt H x d Fx Hx Rd Nd), orb_true_r. reflexivity.
Qed.
Print Assumptions C76_subnormal_refuted.

(** Errors are of the same kind: no number at all, or (the rest) out of range. *)
Theorem C76_invalid : forall fmt s, ~ starts_with space s -> ~ starts_with (eq 43) s -> ~ hexadecimal s ->
  from_chars_stod fmt s = FpInvalidArgument <-> from_chars s = FcInvalid.
Proof.
  intros fmt s N1 N2 N3. pose proof (strtod_plain s N1 N2 N3) as ST. unfold from_chars_stod. rewrite from_chars_split.
  set (p := match eat 45 s with Some t => (true, t) | None => (false, s) end) in ST.
  assert (Ep : match eat 45 s with Some t => from_chars_unsigned true t | None => from_chars_unsigned false s end = from_chars_unsigned (fst p) (snd p)).
  { unfold p. destruct (eat 45 s); reflexivity. }
  rewrite Ep, ST. clear Ep ST. destruct p as [neg t]. cbn [fst snd]. rewrite from_chars_scan.
  destruct (strip_prefix (bytes "infinity") t) as [r|]; [split; intros E; discriminate E|].
  destruct (strip_prefix (bytes "inf") t) as [r|]; [split; intros E; discriminate E|].
  destruct (strip_prefix (bytes "nan") t) as [r|]; [split; intros E; discriminate E|].
  destruct (scan_decimal t) as [[x r]|] eqn:Sd; [|split; reflexivity].
  apply scan_decimal_at in Sd as (m & e & -> & U & M0). cbv zeta.
  destruct (overflows _ _ || underflows _ _), (too_large m e || too_small m e); split; intros E; discriminate E.
Qed.
Print Assumptions C76_invalid.

Lemma skip_space_more b : forall s n, Forall space b -> fst (skip_space (b ++ s) n) = fst (skip_space s 0).
Proof.
  assert (N : forall s n, fst (skip_space s n) = fst (skip_space s 0)).
  { induction s as [|c s IH]; intros n; [reflexivity|]. cbn [skip_space]. destruct (isspace c); [|reflexivity]. now rewrite IH, (IH 1%nat). }
  induction b as [|c b IH]; intros s n F; [apply N|]. inversion F as [|? ? Hc F']; subst. cbn [app skip_space].
  apply isspace_spec in Hc. rewrite Hc. now apply IH.
Qed.
Lemma strtod_blanks b s : Forall space b -> strtod (b ++ s) = strtod s.
Proof. intros F. unfold strtod. now rewrite skip_space_more. Qed.
Lemma strtod_plus s : ~ starts_with space s -> ~ starts_with (eq 43) s -> ~ starts_with (eq 45) s -> strtod (43 :: s) = strtod s.
Proof.
  intros N1 N2 N3. unfold strtod. rewrite (skip_space_none s N1). rewrite (skip_space_none (43 :: s)).
  - change (eat 45 (43 :: s)) with (@None (list Z)). change (eat 43 (43 :: s)) with (Some s).
    now rewrite (proj2 (eat_none 43 s) N2), (proj2 (eat_none 45 s) N3).
  - rewrite starts_cons. unfold space. lia.
Qed.

(** What is left is never longer than the text. *)
Lemma strip_prefix_length p : forall s r, strip_prefix p s = Some r -> (length r <= length s)%nat.
Proof.
  induction p as [|a p IH]; intros s r; cbn [strip_prefix]; [intros E; now injection E as <-|].
  destruct s as [|b s]; [discriminate|]. destruct (a =? lower b); [|discriminate]. intros E. apply IH in E. cbn. lia.
Qed.
Lemma hex_digits_length s : (length (snd (hex_digits s)) <= length s)%nat.
Proof. induction s as [|c s IH]; cbn [hex_digits]; [auto|]. destruct (_ <? _); [|auto]. destruct (hex_digits s). cbn in *. lia. Qed.
Lemma eat_length k s t : eat k s = Some t -> length s = S (length t).
Proof. intros E. apply eat_some in E as ->. reflexivity. Qed.
Lemma binary_exponent_length s : (length (snd (scan_binary_exponent s)) <= length s)%nat.
Proof.
  destruct s as [|c s]; [auto|]. cbn [scan_binary_exponent]. destruct (_ || _); [|auto].
  destruct (eat 43 s) as [t|] eqn:E1.
  - apply eat_length in E1. pose proof (digits_length t). destruct (digits t) as [[|] r]; cbn in *; lia.
  - destruct (eat 45 s) as [t|] eqn:E2.
    + apply eat_length in E2. pose proof (digits_length t). destruct (digits t) as [[|] r]; cbn in *; lia.
    + pose proof (digits_length s). destruct (digits s) as [[|] r]; cbn in *; lia.
Qed.
Lemma scan_hex_reads point d rest : (point = [] \/ point = [46]) -> is_hex d ->
  exists m e r, scan_hex (point ++ d :: rest) = Some (MHex m e, r) /\ (length r <= length rest)%nat.
Proof.
  intros Hp Hd. apply digit_of_hex in Hd. unfold scan_hex. destruct Hp as [-> | ->]; cbn [app].
  - cbn [hex_digits]. rewrite Hd. pose proof (hex_digits_length rest) as L. destruct (hex_digits rest) as [ds r1]. cbn [fst snd] in L.
    destruct (eat 46 r1) as [t|] eqn:Et.
    + apply eat_length in Et. pose proof (hex_digits_length t) as L2. destruct (hex_digits t) as [fp r2]. cbn [fst snd] in L2. cbn [app].
      pose proof (binary_exponent_length r2) as L3. destruct (scan_binary_exponent r2) as [e r]. cbn [snd] in L3. eexists _, _, _. split; [reflexivity|]. lia.
    + cbn [app]. pose proof (binary_exponent_length r1) as L3. destruct (scan_binary_exponent r1) as [e r]. cbn [snd] in L3. eexists _, _, _. split; [reflexivity|]. lia.
  - cbn [hex_digits]. change (digit_of 46 <? 16) with false. cbn iota. change (eat 46 (46 :: d :: rest)) with (Some (d :: rest)). cbn iota.
    cbn [hex_digits]. rewrite Hd. pose proof (hex_digits_length rest) as L. destruct (hex_digits rest) as [ds r1]. cbn [fst snd] in L. cbn [app].
    pose proof (binary_exponent_length r1) as L3. destruct (scan_binary_exponent r1) as [e r]. cbn [snd] in L3. eexists _, _, _. split; [reflexivity|]. lia.
Qed.

(** It is also false for other texts: white space and a plus sign in front are
    skipped by the fallback, while std::from_chars finds no number. *)
Theorem C76_blanks_refuted : forall fmt b s v k, Forall space b -> b <> [] -> from_chars_stod fmt s = FpNumber v k ->
  (exists k', from_chars_stod fmt (b ++ s) = FpNumber v k') /\ from_chars_fp fmt (b ++ s) = None.
Proof.
  intros fmt b s v k F N E. split.
  - unfold from_chars_stod in *. rewrite (strtod_blanks b s F).
    destruct (strtod s) as [[[neg x] r]|]; [|discriminate E]. cbv zeta in *. destruct x as [m e|m e| |].
    + destruct (_ || _); [discriminate E|]. injection E as <- _. eauto.
    + destruct (_ || _); [discriminate E|]. injection E as <- _. eauto.
    + injection E as <- _. eauto.
    + injection E as <- _. eauto.
  - destruct b as [|c b]; [congruence|]. inversion F as [|? ? Hc _]; subst. cbn [app]. generalize (b ++ s). intros t.
    assert (C : c = 32 \/ c = 9 \/ c = 10 \/ c = 11 \/ c = 12 \/ c = 13) by (unfold space in Hc; lia).
    destruct C as [->|[->|[->|[->|[->| ->]]]]]; reflexivity.
Qed.
Print Assumptions C76_blanks_refuted.
Theorem C76_plus_refuted : forall fmt s v k, ~ starts_with space s -> ~ starts_with (eq 43) s -> ~ starts_with (eq 45) s ->
  from_chars_stod fmt s = FpNumber v k ->
  (exists k', from_chars_stod fmt (43 :: s) = FpNumber v k') /\ from_chars_fp fmt (43 :: s) = None.
Proof.
  intros fmt s v k N1 N2 N3 E. split; [|reflexivity].
  unfold from_chars_stod in *. rewrite (strtod_plus s N1 N2 N3).
  destruct (strtod s) as [[[neg x] r]|]; [|discriminate E]. cbv zeta in *. destruct x as [m e|m e| |].
  + destruct (_ || _); [discriminate E|]. injection E as <- _. eauto.
  + destruct (_ || _); [discriminate E|]. injection E as <- _. eauto.
  + injection E as <- _. eauto.
  + injection E as <- _. eauto.
Qed.
Print Assumptions C76_plus_refuted.

(** Of a hexadecimal number std::from_chars reads the leading zero; the fallback
    reads on (or reports that it is out of range). *)
Theorem C76_hexadecimal_refuted : forall fmt s, supported fmt -> hexadecimal s ->
  (exists neg k, from_chars_fp fmt s = Some (Fin neg 0, k) /\ (k <= 2)%nat) /\
  (from_chars_stod fmt s = FpOutOfRange 0 \/ exists v k, from_chars_stod fmt s = FpNumber v k /\ (3 <= k)%nat).
Proof.
  intros fmt s H (sign & x & point & d & rest & -> & Hs & Hx & Hp & Hd). set (t := point ++ d :: rest). split.
  - assert (U : unsigned_at (48 :: x :: t) 0 0 (x :: t)).
    { apply (Unsigned [48] [] (x :: t) (x :: t) 0 (x :: t)).
      - split; [constructor; [unfold Duration_Spec.digit; lia|constructor]|]. rewrite starts_cons. unfold Duration_Spec.digit. lia.
      - left. split; [reflexivity|]. split; [reflexivity|]. rewrite starts_cons. lia.
      - intros E. discriminate E.
      - right. split; [reflexivity|]. split; [reflexivity|]. intros (e' & r' & K). inversion K; subst. lia. }
    assert (R : in_range 0 0).
    { split; [|now left]. rewrite Rmult_0_l. assert (bpow radix2 970 < bpow radix2 1024)%R by (apply bpow_lt; lia). lra. }
    assert (FC : forall neg : bool, from_chars ((if neg then [45] else []) ++ 48 :: x :: t) = FcOk (Dec neg 0 0) (x :: t)).
    { intros neg. apply from_chars_complete. destruct neg.
      - apply (Duration_Spec.Number true (48 :: x :: t) 0 0 (x :: t) U R). discriminate.
      - apply (Duration_Spec.Number false (48 :: x :: t) 0 0 (x :: t) U R). intros _. rewrite starts_cons. lia. }
    assert (Z0 : (IZR 0 * powerRZ 10 0 = 0)%R) by apply Rmult_0_l.
    assert (Pos : (0 < bpow radix2 (emax fmt) - bpow radix2 (emax fmt - prec fmt - 1))%R).
    { assert (bpow radix2 (emax fmt - prec fmt - 1) < bpow radix2 (emax fmt))%R by (apply bpow_lt; destruct H as (? & _); lia). lra. }
    destruct Hs as [-> | ->].
    + exists false, 1%nat. split; [|lia]. unfold from_chars_fp, floating. pose proof (FC false) as FC'. cbn [app] in FC' |- *. rewrite FC', Z0.
      destruct (Rle_dec _ 0) as [L|_]; [lra|]. cbn [length Z.eqb]. repeat f_equal. lia.
    + exists true, 2%nat. split; [|lia]. unfold from_chars_fp, floating. pose proof (FC true) as FC'. cbn [app] in FC' |- *. rewrite FC', Z0.
      destruct (Rle_dec _ 0) as [L|_]; [lra|]. cbn [length Z.eqb]. repeat f_equal. lia.
  - destruct (scan_hex_reads point d rest Hp Hd) as (m & e & r & Es & Lr). fold t in Es.
    assert (Sm : scan_magnitude (48 :: x :: t) = Some (MHex m e, r)).
    { unfold scan_magnitude. change (strip_prefix (bytes "infinity") (48 :: x :: t)) with (@None (list Z)). change (strip_prefix (bytes "inf") (48 :: x :: t)) with (@None (list Z)). change (strip_prefix (bytes "nan") (48 :: x :: t)) with (@None (list Z)).
      assert (A : after_0x (48 :: x :: t) = Some t) by (destruct Hx as [-> | ->]; reflexivity). now rewrite A, Es. }
    assert (St : exists neg, strtod (sign ++ 48 :: x :: t) = Some (neg, MHex m e, r)).
    { destruct Hs as [-> | ->]; cbn [app].
      - exists false. unfold strtod. rewrite (skip_space_none (48 :: x :: t)) by (rewrite starts_cons; unfold space; lia).
        change (eat 45 (48 :: x :: t)) with (@None (list Z)). change (eat 43 (48 :: x :: t)) with (@None (list Z)). cbv beta iota zeta. now rewrite Sm.
      - exists true. unfold strtod. rewrite (skip_space_none (45 :: 48 :: x :: t)) by (rewrite starts_cons; unfold space; lia).
        change (eat 45 (45 :: 48 :: x :: t)) with (Some (48 :: x :: t)). cbv beta iota zeta. now rewrite Sm. }
    destruct St as (neg & St). unfold from_chars_stod. rewrite St. cbv zeta. destruct (_ || _); [now left|right].
    eexists _, _. split; [reflexivity|]. assert (Lt : (S (length rest) <= length t)%nat) by (unfold t; rewrite app_length; cbn; lia).
    rewrite app_length. cbn [length]. lia.
Qed.
Print Assumptions C76_hexadecimal_refuted.
(** "0x1p3" is 8 for the fallback; the smallest double is subnormal; "12" is a plain text. *)
Example C76_nonvacuous :
  hexadecimal (bytes "0x1p3") /\ from_chars_stod FloatIO_Model.binary64 (bytes "0x1p3") = FpNumber (Fin false 8) 5 /\
  (representable FloatIO_Model.binary64 (bpow radix2 (-1074)) /\ (0 < bpow radix2 (-1074) < min_normal FloatIO_Model.binary64)%R) /\
  (~ starts_with space (bytes "12") /\ ~ starts_with (eq 43) (bytes "12") /\ ~ hexadecimal (bytes "12")).
Proof.
  split; [|split; [|split]].
  - exists [], 120, [], 49, (bytes "p3"). split; [reflexivity|]. split; [auto|]. split; [auto|]. split; [auto|]. exists 1. apply (hd_dec 1). lia.
  - assert (St : strtod (bytes "0x1p3") = Some (false, MHex 1 3, [])) by reflexivity.
    unfold from_chars_stod. rewrite St. cbv zeta.
    assert (E8 : (1 * powerRZ 2 3 = 8)%R) by (rewrite powerRZ_2; cbn; lra). rewrite E8.
    assert (F8 : generic_format radix2 (fexp FloatIO_Model.binary64) 8).
    { replace 8%R with (bpow radix2 3) by (cbn; lra). apply generic_format_bpow. cbn. lia. }
    assert (R8 : round radix2 (fexp FloatIO_Model.binary64) ZnearestE 8 = 8%R) by (apply round_generic; [typeclasses eauto|exact F8]).
    rewrite R8. rewrite (underflows_normal FloatIO_Model.binary64 (proj1 C69_formats)).
    + rewrite (proj2 (overflows_spec FloatIO_Model.binary64 8)); [reflexivity|]. cbn [emax prec FloatIO_Model.binary64].
      assert (bpow radix2 1024 = bpow radix2 1023 * 2)%R by (change 1024 with (1023 + 1); rewrite bpow_plus; reflexivity).
      assert (bpow radix2 (1024 - 53 - 1) < bpow radix2 1023)%R by (apply bpow_lt; lia).
      assert (bpow radix2 4 <= bpow radix2 1022)%R by (apply bpow_le; lia).
      assert (bpow radix2 1023 = bpow radix2 1022 * 2)%R by (change 1023 with (1022 + 1); rewrite bpow_plus; reflexivity).
      assert (bpow radix2 (1024 - 53 - 1) < bpow radix2 1022)%R by (apply bpow_lt; lia).
      change (bpow radix2 4) with 16%R in *. lra.
    + rewrite R8. cbn [emin prec FloatIO_Model.binary64]. assert (bpow radix2 (-1074 + 53 - 1) < bpow radix2 0)%R by (apply bpow_lt; lia). cbn [bpow] in *. change (bpow radix2 0) with 1%R in *. lra.
  - split.
    + split; [split|].
      * apply bpow_ge_0.
      * cbn [emax FloatIO_Model.binary64]. change (Z.to_nat 1024) with 1024%nat. rewrite pow_powerRZ, powerRZ_2. apply bpow_lt. lia.
      * exists 1, (-1074). rewrite powerRZ_2. split; [lra|cbn; lia].
    + split; [apply bpow_gt_0|]. rewrite min_normal_bpow. apply bpow_lt. cbn. lia.
  - split; [|split].
    + intros (c & t & E & K). injection E as <- _. unfold space in K. lia.
    + intros (c & t & E & K). injection E as <- _. lia.
    + intros (sg & y & pt & dd & rest & E & Hs & Hy & _). destruct Hs as [-> | ->]; discriminate E.
Qed.
