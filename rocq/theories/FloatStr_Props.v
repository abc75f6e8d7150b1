(** C70 (exact limits) and C81: float_to_str by std::to_chars and by snprintf, up to
    quadruple precision. *)
From Flocq Require Import Core.
From Coq Require Import Reals Lra.
From Verif Require Import Base Bytes Duration_Model Duration_Spec Duration_Proofs Csv_Spec Csv_Model Csv_Numbers Print_Model Print_Spec Print_Ints
  FloatIO_Model FloatIO_Spec FloatIO_Proofs FloatIO_Props FromChars_Model Stod_Model Stod_Spec Stod_Proofs Stod_Props CsvStrtod_Model CsvStrtod_Props
  FloatStr_Model FloatStr_Spec.
Local Open Scope Z_scope.

Theorem C81_formats : wide x87 /\ wide binary128 /\ wide FloatIO_Model.binary64 /\ wide binary32 /\ wide binary16 /\ wide bfloat16.
Proof. unfold wide. vm_compute. intuition (congruence || lia). Qed.
Print Assumptions C81_formats.

Lemma wide_format fmt x : wide fmt -> representable fmt x ->
  generic_format radix2 (fexp fmt) x /\ (0 <= x < bpow radix2 (emax fmt))%R.
Proof.
  intros (_ & _ & He & _) ((H0 & H1) & m & e & E & Hm & Hemin). split.
  - apply generic_format_FLT. exists (Float radix2 m e); cbn [Fnum Fexp]; auto; [|change (Zpower radix2 (prec fmt)) with (2 ^ prec fmt); lia].
    rewrite E, powerRZ_2. reflexivity.
  - split; [exact H0|]. rewrite <- (Z2Nat.id (emax fmt)) by lia. rewrite bpow_powerRZ, <- pow_powerRZ. exact H1.
Qed.
#[local] Instance prec10' p : Prec_gt_0 (Z.of_nat p + 1). Proof. unfold Prec_gt_0. lia. Qed.

Lemma wide_decade p x : (bpow radix10 (-5000) <= x <= bpow radix10 5000)%R -> Z.abs (sci_exponent (decimal_round p x)) < 10000.
Proof.
  intros [B1 B2]. set (d := decimal_round p x).
  assert (FB : forall k, generic_format radix10 (FLX_exp (Z.of_nat p + 1)) (bpow radix10 k)) by (intros k; apply generic_format_bpow; unfold FLX_exp; lia).
  assert (D1 : (bpow radix10 (-5000) <= d)%R) by (apply round_ge_generic; auto; typeclasses eauto).
  assert (D2 : (d <= bpow radix10 5000)%R) by (apply round_le_generic; auto; typeclasses eauto).
  assert (D0 : (0 < d)%R) by (pose proof (bpow_gt_0 radix10 (-5000)); lra).
  unfold sci_exponent. destruct (Req_EM_T d 0) as [Z0|N]; [lra|].
  assert (U : mag radix10 d <= 5001). { apply mag_le_bpow; [lra|]. rewrite Rabs_pos_eq by lra. eapply Rle_lt_trans; [exact D2|]. apply bpow_lt. lia. }
  assert (L : -5000 < mag radix10 d). { apply mag_gt_bpow. rewrite Rabs_pos_eq by lra. exact D1. }
  lia.
Qed.
Lemma bpow_2_10 a b : 0 <= a -> 0 <= b -> 2 ^ a <= 10 ^ b -> (bpow radix2 a <= bpow radix10 b)%R.
Proof. intros Ha Hb H. rewrite bpow10_Z by lia. rewrite <- (IZR_Zpower radix2) by lia. apply IZR_le. exact H. Qed.
Lemma wide_exponent fmt p x : wide fmt -> representable fmt x -> Z.abs (sci_exponent (decimal_round p x)) < 10000.
Proof.
  intros H Hr. destruct (Req_dec x 0) as [->|N].
  { rewrite decimal_round_0. unfold sci_exponent. destruct (Req_EM_T 0 0); [lia|congruence]. }
  destruct (wide_format fmt x H Hr) as [Fx Bx]. destruct H as (Hp & Hm & He & _). apply wide_decade. split.
  - apply Rle_trans with (bpow radix2 (emin fmt)).
    + apply Rle_trans with (bpow radix2 (-16494)); [|apply bpow_le; lia].
      change (-5000) with (- (5000)). change (-16494) with (- (16494)). rewrite (bpow_opp radix10 5000), (bpow_opp radix2 16494).
      apply Rinv_le; [apply bpow_gt_0|]. apply bpow_2_10; [lia|lia|]. apply Z.leb_le. vm_compute. reflexivity.
    + apply (generic_format_ge_bpow radix2 (fexp fmt)); auto; [|lra]. intros e. unfold fexp, FLT_exp. lia.
  - apply Rle_trans with (bpow radix2 16384).
    + apply Rlt_le. eapply Rlt_le_trans; [apply Bx|]. apply bpow_le. lia.
    + apply bpow_2_10; [lia|lia|]. apply Z.leb_le. vm_compute. reflexivity.
Qed.

(** ** Lengths *)
Lemma show_nat_length n k : 0 <= n -> 1 <= k -> n < 10 ^ k -> (length (show_nat n) <= Z.to_nat k)%nat.
Proof. intros Hn Hk H. destruct (show_nat_ok n Hn) as (_ & _ & _ & I & _). apply I; [lia|]. rewrite Z2Nat.id by lia. exact H. Qed.
Lemma show_nat_length_ge n k : 0 <= n -> 0 <= k -> 10 ^ k <= n -> (Z.to_nat k < length (show_nat n))%nat.
Proof.
  intros Hn Hk H. pose proof (show_nat_lower n Hn) as L. destruct (Nat.le_gt_cases (length (show_nat n)) (Z.to_nat k)) as [G|G]; [exfalso|exact G].
  assert (10 ^ Z.of_nat (length (show_nat n)) <= 10 ^ k) by (apply Z.pow_le_mono_r; lia). lia.
Qed.
Lemma exponent_length e : Z.abs e < 10000 -> Z.of_nat (length (exponent_text e)) = 61 - room e.
Proof.
  intros He. unfold exponent_text, room. cbn [length]. rewrite fixed_length. set (n := length (show_nat (Z.abs e))).
  destruct (Z.ltb_spec (Z.abs e) 100).
  - assert (n <= 2)%nat by (apply (show_nat_length _ 2); lia). lia.
  - assert (3 <= n)%nat by (apply (show_nat_length_ge _ 2); lia). destruct (Z.ltb_spec (Z.abs e) 1000).
    + assert (n <= 3)%nat by (apply (show_nat_length _ 3); lia). lia.
    + assert (n <= 4)%nat by (apply (show_nat_length _ 4); lia). assert (4 <= n)%nat by (apply (show_nat_length_ge _ 3); lia). lia.
Qed.
Lemma scientific_length p x : let e := sci_exponent (decimal_round p x) in Z.abs e < 10000 ->
  Z.of_nat (length (scientific p x)) = Z.of_nat p + (if (p =? 0)%nat then 1 else 2) + (61 - room e).
Proof.
  intros e He. unfold scientific. fold e. pose proof (fixed_length (S p) (sci_digits p (decimal_round p x))) as L. destruct (fixed _ _) as [|c more]; [discriminate L|].
  cbn [length] in L |- *. rewrite app_length, Nat2Z.inj_succ, Nat2Z.inj_add, exponent_length by exact He.
  destruct more as [|c' more]; cbn [length] in *; destruct (Nat.eqb_spec p 0); lia.
Qed.
Lemma decimal_nearest p x : (0 <= x)%R -> nearest_decimal (Z.of_nat p) x (sci_digits p (decimal_round p x)) (sci_exponent (decimal_round p x)).
Proof.
  intros X0. set (d := decimal_round p x). destruct (sci_split p x d eq_refl X0) as (E1 & E2 & E3). split.
  - rewrite <- E1. exact (decimal_half_unit p x X0).
  - destruct (Req_dec x 0) as [Zx|Nx].
    + left. assert (D0 : d = 0%R) by (unfold d; rewrite Zx; apply decimal_round_0). split; [exact Zx|]. split; [now apply E3|].
      unfold sci_exponent. destruct (Req_EM_T d 0); [reflexivity|congruence].
    + right. split; [|lia]. apply first_digit. lra.
Qed.

(** ** C70 *)
(** For every format up to quadruple precision and every precision: the exact limit
    of the 64 characters. Within it, the result is a sign and a nearest decimal;
    otherwise what happens to be in the buffer. *)
Theorem C70_exact : forall fmt junk neg x precision, wide fmt -> representable fmt x -> (64 <= length junk)%nat ->
  let p := digits_behind precision in
  exists text m e, unsigned_at text m (e - p) [] /\ nearest_decimal p x m e /\
    float_to_str junk (Fin neg x) precision =
      if p <=? room e then (if neg then 45 else 43) :: text
      else (if neg then firstn 1 junk else [43]) ++ firstn 63 (skipn 1 junk).
Proof.
  intros fmt junk neg x precision H Hr Hj p. set (k := effective_precision precision).
  assert (Hk : p = Z.of_nat k) by (unfold p, digits_behind, k, effective_precision; destruct (Z.ltb_spec precision 0); lia).
  assert (X0 : (0 <= x)%R) by apply Hr. set (d := decimal_round k x).
  exists (scientific k x), (sci_digits k d), (sci_exponent d). rewrite Hk. split; [exact (scientific_at k x X0)|]. split; [exact (decimal_nearest k x X0)|].
  pose proof (wide_exponent fmt k x H Hr) as He. fold d in He.
  pose proof (scientific_length k x He) as L. cbv zeta in L. fold d in L.
  assert (R : 55 <= room (sci_exponent d) <= 57) by (unfold room; destruct (_ <? 100); [lia|]; destruct (_ <? 1000); lia).
  unfold float_to_str, float_to_str_vw. fold k. rewrite firstn_length. rewrite Nat.min_l by exact Hj.
  destruct junk as [|j junk]; [cbn in Hj; lia|]. cbn [firstn skipn app].
  unfold to_chars. cbn [signbit isnan negb andb].
  destruct neg; cbn [negb andb length app]; (destruct (Z.leb_spec (Z.of_nat k) (room (sci_exponent d))) as [G|G];
    [rewrite (proj2 (Nat.leb_le _ _)); [reflexivity|]|rewrite (proj2 (Nat.leb_gt _ _)); [reflexivity|]]); destruct (Nat.eqb_spec k 0); lia.
Qed.
Print Assumptions C70_exact.
(** Infinities and nans: every precision. *)
Theorem C70_special : forall junk neg precision, (64 <= length junk)%nat ->
  float_to_str junk (Infty neg) precision = (if neg then 45 else 43) :: bytes "inf" /\
  float_to_str junk (Nan neg) precision = (if neg then bytes "-nan" else bytes "nan").
Proof.
  intros junk neg precision Hj. unfold float_to_str, float_to_str_vw. rewrite firstn_length, Nat.min_l by exact Hj. destruct neg; split; reflexivity.
Qed.
Print Assumptions C70_special.

(** ** C81 *)
(** The snprintf versions: a sign, a nearest decimal, up to one digit less than
    std::to_chars; otherwise the assertion fails, and without assertions the
    last digit is replaced by a null character or the string view reaches behind
    the buffer. *)
Theorem C81_snprintf : forall fmt dbg neg x precision, wide fmt -> representable fmt x ->
  let p := digits_behind precision in
  exists text m e, unsigned_at text m (e - p) [] /\ nearest_decimal p x m e /\
    float_to_str_snprintf dbg (Fin neg x) precision =
      if p <? room e then Ok ((if neg then 45 else 43) :: text)
      else if dbg then Abort
      else if p =? room e then Ok (firstn 63 ((if neg then 45 else 43) :: text) ++ [0]) else UB.
Proof.
  intros fmt dbg neg x precision H Hr p. set (k := effective_precision precision).
  assert (Hk : p = Z.of_nat k) by (unfold p, digits_behind, k, effective_precision; destruct (Z.ltb_spec precision 0); lia).
  assert (X0 : (0 <= x)%R) by apply Hr. set (d := decimal_round k x). set (e := sci_exponent d).
  pose proof (wide_exponent fmt k x H Hr) as He. fold d in He. fold e in He.
  assert (R : 55 <= room e <= 57) by (unfold room; destruct (_ <? 100); [lia|]; destruct (_ <? 1000); lia).
  pose proof (fixed_length (S k) (sci_digits k d)) as L. pose proof (fixed_digits (S k) (sci_digits k d)) as F.
  destruct (sci_split k x d eq_refl X0) as (E1 & E2 & E3).
  pose proof (fixed_value (S k) (sci_digits k d)) as V. 
  destruct (fixed (S k) (sci_digits k d)) as [|c more] eqn:Ef; [discriminate L|]. cbn [length] in L. injection L as L.
  exists (c :: 46 :: more ++ exponent_text e), (sci_digits k d), e. rewrite Hk. split; [|split; [exact (decimal_nearest k x X0)|]].
  - replace (e - Z.of_nat k) with (e - Z.of_nat (length more)) by lia.
    rewrite <- V by (replace (Z.of_nat (S k)) with (Z.of_nat k + 1) by lia; exact E2).
    apply (Unsigned [c] more (46 :: more ++ exponent_text e) (exponent_text e) e []).
    + split; [constructor; [exact (Forall_inv F)|constructor]|]. apply no_digit_first. unfold Duration_Spec.digit. lia.
    + right. split; [reflexivity|]. split; [exact (Forall_inv_tail F)|]. apply no_digit_first. unfold Duration_Spec.digit. lia.
    + discriminate.
    + left. apply exponent_text_ok.
  - unfold float_to_str_snprintf, float_to_str_vw_snprintf, printf_e. cbn [signbit]. fold k. cbv zeta. fold d. fold e. rewrite Ef.
    assert (Ln : Z.of_nat (length ((if neg then 45 else 43) :: c :: 46 :: more ++ exponent_text e)) = Z.of_nat k + 64 - room e).
    { cbn [length]. rewrite app_length, !Nat2Z.inj_succ, Nat2Z.inj_add, exponent_length by exact He. lia. }
    set (text := (if neg then 45 else 43) :: c :: 46 :: more ++ exponent_text e) in *.
    replace (length text <? 64)%nat with (Z.of_nat k <? room e) by (destruct (Z.ltb_spec (Z.of_nat k) (room e)), (Nat.ltb_spec (length text) 64); auto; lia).
    replace (length text =? 64)%nat with (Z.of_nat k =? room e) by (destruct (Z.eqb_spec (Z.of_nat k) (room e)), (Nat.eqb_spec (length text) 64); auto; lia).
    reflexivity.
Qed.
Print Assumptions C81_snprintf.

(** The same text as with std::to_chars, except that no digits behind the point
    leave the point. *)
Theorem C81_same_text : forall fmt dbg junk neg x precision, wide fmt -> representable fmt x -> (64 <= length junk)%nat ->
  digits_behind precision <= 54 ->
  let p := digits_behind precision in
  (p <> 0 -> float_to_str_snprintf dbg (Fin neg x) precision = Ok (float_to_str junk (Fin neg x) precision)) /\
  (p = 0 -> exists s c rest, float_to_str junk (Fin neg x) precision = s :: c :: rest /\
     float_to_str_snprintf dbg (Fin neg x) precision = Ok (s :: c :: 46 :: rest)).
Proof.
  intros fmt dbg junk neg x precision H Hr Hj Hp p. set (k := effective_precision precision).
  assert (Hk : p = Z.of_nat k) by (unfold p, digits_behind, k, effective_precision; destruct (Z.ltb_spec precision 0); lia). fold p in Hp.
  pose proof (wide_exponent fmt k x H Hr) as He. set (d := decimal_round k x) in *. set (e := sci_exponent d) in *.
  assert (R : 55 <= room e <= 57) by (unfold room; destruct (_ <? 100); [lia|]; destruct (_ <? 1000); lia).
  pose proof (exponent_length e He) as Le.
  unfold float_to_str_snprintf, float_to_str_vw_snprintf, printf_e, float_to_str, float_to_str_vw, to_chars, scientific. fold k. cbv zeta. fold d. fold e. cbn [signbit isnan negb andb].
  pose proof (fixed_length (S k) (sci_digits k d)) as L. destruct (fixed (S k) (sci_digits k d)) as [|c more]; [discriminate L|]. cbn [length] in L. injection L as L.
  rewrite firstn_length, Nat.min_l by exact Hj.
  rewrite (proj2 (Nat.ltb_lt _ _)) by (cbn [length]; rewrite app_length; lia). split.
  - intros P0. destruct more as [|c' more]; [cbn [length] in L; lia|]. destruct neg; cbn [negb andb app]; rewrite (proj2 (Nat.leb_le _ _)) by (cbn [length app] in *; rewrite ?app_length; cbn [length]; lia); reflexivity.
  - intros P0. destruct more as [|c' more]; [|cbn [length] in L; lia]. exists (if neg then 45 else 43), c, (exponent_text e). cbn [app].
    destruct neg; cbn [negb andb app]; rewrite (proj2 (Nat.leb_le _ _)) by (cbn [length]; lia); split; reflexivity.
Qed.
Print Assumptions C81_same_text.

(** Infinities and nans; a nan always has a sign here, but no plus sign with std::to_chars. *)
Theorem C81_special : forall dbg neg precision,
  float_to_str_snprintf dbg (Infty neg) precision = Ok ((if neg then 45 else 43) :: bytes "inf") /\
  float_to_str_snprintf dbg (Nan neg) precision = Ok ((if neg then 45 else 43) :: bytes "nan").
Proof. intros dbg [] precision; split; reflexivity. Qed.
Print Assumptions C81_special.

(** The printed decimal determines the number, with max_digits10 digits behind the
    first one or more: the nearest number of the format is the one that was printed,
    for every nearest decimal. *)
Theorem C81_determines : forall fmt x p m e, wide fmt -> representable fmt x -> Z.of_nat (max_digits10 fmt) <= p -> nearest_decimal p x m e ->
  Generic_fmt.round radix2 (FLT_exp (emin fmt) (prec fmt)) ZnearestE (IZR m * powerRZ 10 (e - p)) = x.
Proof.
  intros fmt x p m e H Hr Hp (Hn & Hm). destruct (wide_format fmt x H Hr) as [Fx Bx]. destruct H as (H1 & _ & _ & _ & Hd & _).
  assert (P0 : 0 < prec fmt) by lia.
  destruct Hm as [(-> & -> & ->)|Hm].
  { rewrite Rmult_0_l. apply round_0. apply valid_rnd_N. }
  set (T := powerRZ 10 (e - p)) in *. assert (T0 : (0 < T)%R) by (apply powerRZ_lt; lra).
  set (q := (/ (IZR (10 ^ p) - / 2))%R).
  assert (D : 2 ^ prec fmt + 1 <= 10 ^ p).
  { assert (10 ^ Z.of_nat (max_digits10 fmt) <= 10 ^ p) by (apply Z.pow_le_mono_r; lia). lia. }
  assert (D2 : 0 < 2 ^ prec fmt) by (apply Z.pow_pos_nonneg; lia).
  assert (D' : (IZR (2 ^ prec fmt) + 1 <= IZR (10 ^ p))%R) by (rewrite <- plus_IZR; now apply IZR_le).
  assert (D2' : (0 < IZR (2 ^ prec fmt))%R) by now apply IZR_lt.
  assert (Q0 : (0 < IZR (10 ^ p) - / 2)%R) by lra.
  assert (Hmr : (IZR (10 ^ p) * T <= IZR m * T)%R) by (apply Rmult_le_compat_r; [lra|]; apply IZR_le; lia).
  assert (Lx : ((IZR (10 ^ p) - / 2) * T <= x)%R) by (apply Rabs_le_inv in Hn; lra).
  assert (Px : (0 < x)%R) by (assert (0 < (IZR (10 ^ p) - / 2) * T)%R by (apply Rmult_lt_0_compat; lra); lra).
  apply (near (prec fmt) (emin fmt) P0 x _ q); [exact Fx|exact Px| |].
  - split; [apply Rinv_0_lt_compat; exact Q0|]. unfold q. rewrite bpow_opp, <- (IZR_Zpower radix2) by lia. change (Zpower radix2 (prec fmt)) with (2 ^ prec fmt).
    apply Rinv_lt_contravar; [apply Rmult_lt_0_compat; lra|lra].
  - eapply Rle_trans; [exact Hn|]. rewrite Rmult_assoc. apply Rmult_le_compat_l; [lra|].
    unfold q. apply Rmult_le_reg_l with (IZR (10 ^ p) - / 2)%R; [exact Q0|]. rewrite <- Rmult_assoc, Rinv_r by lra. lra.
Qed.
Print Assumptions C81_determines.

(** In builds without std::to_chars both fallbacks meet: what print_csv writes for
    a float or double (zero, infinity, nan or above the smallest normal number) is
    read back by csv_read, whatever follows the field. *)
Theorem C81_fallback_round_trip : forall fmt dbg v w, supported fmt -> (1 <= max_digits10 fmt)%nat -> value_in fmt v -> zero_or_normal fmt v -> ends_field w ->
  exists text, show_fp_snprintf dbg fmt v = Ok text /\ read_single_fp fmt (text ++ w) = Ok (v, length text).
Proof.
  intros fmt dbg v w H Hd Hv Hz Hw. destruct v as [neg x|neg|neg].
  - assert (W : wide fmt) by (unfold supported, wide in *; intuition lia).
    set (junk := repeat 0 64). assert (Hj : (64 <= length junk)%nat) by (unfold junk; rewrite repeat_length; lia).
    assert (M : (max_digits10 fmt <= 50)%nat) by apply H.
    destruct (C81_same_text fmt dbg junk neg x (Z.of_nat (max_digits10 fmt)) W Hv Hj) as [S _].
    { unfold digits_behind. destruct (Z.ltb_spec (Z.of_nat (max_digits10 fmt)) 0); lia. }
    exists (show_fp fmt junk (Fin neg x)). split.
    + apply S. unfold digits_behind. destruct (Z.ltb_spec (Z.of_nat (max_digits10 fmt)) 0); lia.
    + now apply C77_printed_number_partial.
  - exists ((if neg then 45 else 43) :: bytes "inf"). split; [destruct neg; reflexivity|].
    pose proof (C77_printed_number_partial fmt (repeat 0 64) (Infty neg) w H Hd I ltac:(cbn; lia) I Hw) as K. destruct neg; exact K.
  - exists ((if neg then 45 else 43) :: bytes "nan"). split; [destruct neg; reflexivity|].
    pose proof (C77_printed_number_partial fmt (repeat 0 64) (Nan neg) w H Hd I ltac:(cbn; lia) I Hw) as K. destruct neg; [exact K|].
    change (show_fp fmt (repeat 0 64) (Nan false)) with (bytes "nan") in K.
    unfold read_single_fp, from_chars_stod in K |- *.
    change ((43 :: bytes "nan") ++ w) with (43 :: (bytes "nan" ++ w)).
    assert (St : forall P : Z -> Prop, (P 110 -> False) -> ~ starts_with P (bytes "nan" ++ w)) by (intros P HP (c & t & E & Pc); injection E as <- _; auto).
    rewrite (strtod_plus (bytes "nan" ++ w)); [|apply St; unfold space; lia|apply St; lia|apply St; lia].
    destruct (strtod (bytes "nan" ++ w)) as [[[ng y] r]|] eqn:E; [|discriminate K].
    assert (y = MNaN).
    { destruct y as [m e0|m e0| |]; auto; exfalso; cbv zeta in K; [destruct (overflows fmt _ || underflows fmt _) in K; discriminate K..|discriminate K]. }
    subst y. assert (K' : (length (bytes "nan" ++ w) - length r)%nat = 3%nat /\ ng = false) by (injection K; auto). destruct K' as [K' ->]. clear K. rewrite app_length in K'. change (length (bytes "nan")) with 3%nat in *. do 2 f_equal.
    change (length (43 :: bytes "nan" ++ w)) with (S (length (bytes "nan" ++ w))). rewrite app_length. change (length (bytes "nan")) with 3%nat. change (length (43 :: bytes "nan")) with 4%nat. lia.
Qed.
Print Assumptions C81_fallback_round_trip.
Example C81_nonvacuous : representable binary128 (bpow radix2 (-16494)) /\ nearest_decimal 0 1 1 0 /\ room 4932 = 55 /\ zero_or_normal binary32 (Nan false).
Proof.
  split; [|split; [|split; [reflexivity|exact I]]].
  - split.
    + split; [apply bpow_ge_0|]. rewrite pow_powerRZ. rewrite Z2Nat.id by (cbn; lia). rewrite powerRZ_2. apply bpow_lt. cbn; lia.
    + exists 1, (-16494). cbn [prec emin binary128]. split; [rewrite powerRZ_2; lra|]. lia.
  - split; [|right; cbn; lia]. cbn. rewrite Rmult_1_l, Rminus_diag_eq, Rabs_R0 by reflexivity. lra.
Qed.
