(** C103: text numbers and the decimal point of the process locale. *)
From Flocq Require Import Core.
From Coq Require Import Reals Lra.
From Verif Require Import Base Bytes Duration_Model Duration_Spec Duration_Proofs Csv_Spec Csv_Model Csv_Proofs Csv_Numbers Csv_Props FloatIO_Model FloatIO_Spec FloatIO_Proofs FloatIO_Props
  Print_Model FromChars_Model FloatStr_Model FloatStr_Spec FloatStr_Props Stod_Model Stod_Spec Stod_Proofs Stod_Props CsvStrtod_Model CsvStrtod_Props Locale_Model Locale_Spec Locale_Proofs.
Local Open Scope Z_scope.

Lemma exchange_46 s : map (exchange 46) s = s.
Proof. rewrite <- (map_id s) at 2. apply map_ext. intros c. unfold exchange. destruct (Z.eqb_spec c 46); congruence. Qed.
(** In any locale the fallbacks read what they read in the C locale, and write what they
    write there, with the two decimal points exchanged. *)
Theorem C103_reading : forall dp fmt s, decimal_point dp -> from_chars_stod_in dp fmt s = from_chars_stod fmt (map (exchange dp) s).
Proof. intros dp fmt s [->|[H1 H2]]; [now rewrite exchange_46|now apply stod_sw]. Qed.
Print Assumptions C103_reading.
Theorem C103_writing : forall dp v precision, decimal_point dp ->
  printf_e_in dp v precision = map (exchange dp) (printf_e v precision).
Proof. intros dp v precision [->|[H1 H2]]; [now rewrite exchange_46|now apply printf_sw]. Qed.
Print Assumptions C103_writing.

(** What follows the exponent of a printed number is not read. *)
Lemma exponent_extend s e w : Duration_Spec.exponent s e [] -> ~ starts_with Duration_Spec.digit w -> Duration_Spec.exponent (s ++ w) e w.
Proof.
  intros H Nw. inversion H as [c sign d rest Hc Hs Hd [Hr _] E1 E2 E3]; subst.
  replace ((c :: sign ++ d ++ []) ++ w) with (c :: sign ++ d ++ w) by (cbn [app]; rewrite app_nil_r, <- app_assoc; reflexivity). now constructor.
Qed.
Definition mantissa (p : nat) (x : R) : list Z := fixed (S p) (sci_digits p (decimal_round p x)).
Lemma mantissa_split p x : exists c more, mantissa p x = c :: more /\ length more = p /\ Duration_Spec.digit c /\ Forall Duration_Spec.digit more.
Proof.
  unfold mantissa. pose proof (fixed_length (S p) (sci_digits p (decimal_round p x))) as L. pose proof (fixed_digits (S p) (sci_digits p (decimal_round p x))) as F.
  destruct (fixed _ _) as [|c more]; [discriminate L|]. injection L as L. inversion F; subst. eauto 10.
Qed.
Lemma printed_at p x w : (0 <= x)%R -> ~ starts_with Duration_Spec.digit w -> let d := decimal_round p x in
  unsigned_at (match mantissa p x with c :: more => c :: 46 :: more ++ exponent_text (sci_exponent d) | [] => [] end ++ w)
    (sci_digits p d) (sci_exponent d - Z.of_nat p) w.
Proof.
  intros Hx Nw d. destruct (sci_split p x d eq_refl Hx) as (E1 & E2 & _). pose proof (fixed_value (S p) (sci_digits p d)) as FV. replace (Z.of_nat (S p)) with (Z.of_nat p + 1) in FV by lia. specialize (FV E2).
  destruct (mantissa_split p x) as (c & more & M & L & Dc & Dm). unfold mantissa in M |- *. fold d in M |- *. rewrite M in *. rewrite <- FV, <- L.
  change (c :: more) with ([c] ++ more). replace ((c :: 46 :: more ++ exponent_text (sci_exponent d)) ++ w) with ([c] ++ 46 :: more ++ (exponent_text (sci_exponent d) ++ w)) by (cbn [app]; now rewrite <- app_assoc).
  apply (Unsigned [c] more _ (exponent_text (sci_exponent d) ++ w) (sci_exponent d) w).
  - split; [constructor; [exact Dc|constructor]|]. apply no_digit_first. unfold Duration_Spec.digit. lia.
  - right. split; [reflexivity|]. split; [exact Dm|]. unfold exponent_text. cbn [app]. apply no_digit_first. unfold Duration_Spec.digit. lia.
  - discriminate.
  - left. apply exponent_extend; [apply exponent_text_ok|exact Nw].
Qed.
Lemma scan_printed p x w : (0 <= x)%R -> ~ starts_with Duration_Spec.digit w -> let d := decimal_round p x in
  scan_magnitude (match mantissa p x with c :: more => c :: 46 :: more ++ exponent_text (sci_exponent d) | [] => [] end ++ w) = Some (MDec (sci_digits p d) (sci_exponent d - Z.of_nat p), w).
Proof.
  intros Hx Nw d. pose proof (printed_at p x w Hx Nw) as U. cbv zeta in U. fold d in U. pose proof (scan_decimal_complete _ _ _ _ U) as Sc.
  destruct (mantissa_split p x) as (c & more & M & L & Dc & Dm). rewrite M in *. set (s := (c :: 46 :: more ++ exponent_text (sci_exponent d)) ++ w) in *. unfold scan_magnitude.
  assert (K : forall l, Forall (fun a => word_char a = true /\ is_digit a = false) (firstn 1 l) -> l <> [] -> strip_prefix l s = None).
  { intros l F N. destruct l as [|a l]; [congruence|]. apply Forall_inv in F. unfold s. cbn [app strip_prefix]. replace (a =? lower c) with false; [reflexivity|]. symmetry. apply Z.eqb_neq. intros ->. destruct F as [_ F].
    unfold Duration_Spec.digit in Dc. unfold lower, is_digit in F. destruct (Z.leb_spec 65 c); [lia|]. cbn [andb] in F. rewrite (proj2 (Z.leb_le 48 c)), (proj2 (Z.leb_le c 57)) in F by lia. discriminate. }
  rewrite !K by (discriminate || (repeat constructor)). assert (A : after_0x s = None). { unfold s. cbn [app after_0x]. now rewrite andb_false_r. } rewrite A. exact Sc.
Qed.
Lemma stod_point fmt v p t : value_in fmt v -> from_chars_stod fmt (printf_e v p ++ 46 :: t) = from_chars_stod fmt (printf_e v p ++ []).
Proof.
  intros Hv. assert (S1 : forall w, (w = [] \/ exists t, w = 46 :: t) -> strtod (printf_e v p ++ w) =
     Some (signbit v, match v with Fin _ x => MDec (sci_digits p (decimal_round p x)) (sci_exponent (decimal_round p x) - Z.of_nat p) | Infty _ => MInf | Nan _ => MNaN end, w)).
  { intros w Hw. unfold printf_e. destruct v as [neg x|neg|neg]; cbn [signbit].
    - assert (Nw : ~ starts_with Duration_Spec.digit w). { intros (c & r & -> & Dc). destruct Hw as [Hw|[t' Hw]]; [discriminate|]. injection Hw as -> ->. unfold Duration_Spec.digit in Dc. lia. }
      assert (X0 : (0 <= x)%R) by apply Hv. pose proof (scan_printed p x w X0 Nw) as Sc. unfold mantissa in Sc. cbv zeta in Sc |- *. unfold strtod.
      destruct neg; cbn [app skip_space isspace Z.eqb Pos.eqb Z.leb Z.compare Pos.compare Pos.compare_cont andb orb fst eat]; now rewrite Sc.
    - destruct Hw as [->|[t' ->]]; destruct neg; reflexivity.
    - destruct Hw as [->|[t' ->]]; destruct neg; reflexivity. }
  unfold from_chars_stod. rewrite !S1 by eauto. cbv zeta. rewrite !app_length. cbn [length]. replace (length (printf_e v p) + S (length t) - S (length t))%nat with (length (printf_e v p) + 0 - 0)%nat by lia. reflexivity.
Qed.

(** A process that writes and reads in one locale gets its numbers back, even if the separator is
    the decimal point of the locale. *)
Theorem C103_round_trip : forall dp dbg fmt v w, decimal_point dp -> supported fmt -> (1 <= max_digits10 fmt)%nat -> value_in fmt v -> zero_or_normal fmt v -> ends_field w ->
  exists text, show_fp_in dp dbg fmt v = Ok text /\ read_single_in dp fmt (text ++ w) = Ok (v, length text).
Proof.
  intros dp dbg fmt v w Hdp H Hd Hv Hz Hw.
  assert (T : exists text, text = printf_e v (effective_precision (Z.of_nat (max_digits10 fmt))) /\ (length text <? 64)%nat = true /\ forall w, ends_field w -> read_single_fp fmt (text ++ w) = Ok (v, length text)).
  { assert (A : forall w, ends_field w -> let text := printf_e v (effective_precision (Z.of_nat (max_digits10 fmt))) in (length text <? 64)%nat = true /\ read_single_fp fmt (text ++ w) = Ok (v, length text)).
    { intros w' Hw'. destruct (C81_fallback_round_trip fmt true v w' H Hd Hv Hz Hw') as (text & Et & R). revert Et. unfold show_fp_snprintf, float_to_str_vw_snprintf. cbv zeta.
      destruct (_ <? 64)%nat eqn:E; [|discriminate]. intros K. injection K as K. rewrite K. auto. }
    eexists. split; [reflexivity|]. split; [apply (A []); now left|apply A]. }
  destruct T as (text & Ep & El & R). exists (map (exchange dp) text). split.
  - unfold show_fp_in, float_to_str_vw_in. cbv zeta. rewrite C103_writing, map_length by exact Hdp. rewrite <- Ep, El. reflexivity.
  - unfold read_single_in. rewrite C103_reading by exact Hdp. rewrite map_app, map_map. assert (I : map (fun c => exchange dp (exchange dp c)) text = text).
    { rewrite <- (map_id text) at 2. apply map_ext. intros c. unfold exchange. destruct (Z.eqb_spec c dp) as [->|N]; [destruct (Z.eqb_spec 46 dp) as [K|K]; [auto|now rewrite Z.eqb_refl]|].
      destruct (Z.eqb_spec c 46) as [->|N']; [now rewrite Z.eqb_refl|]. now rewrite (proj2 (Z.eqb_neq _ _) N), (proj2 (Z.eqb_neq _ _) N'). }
    rewrite I, map_length. pose proof (R []) as R1. specialize (R (map (exchange dp) w)). unfold read_single_fp in R.
    destruct Hw as [->|(c & t & -> & Hc)]; [apply R; now left|]. cbn [map] in *. destruct (Z.eq_dec c dp) as [->|N].
    + assert (E : exchange dp dp = 46) by (unfold exchange; now rewrite Z.eqb_refl). rewrite E, Ep, stod_point by exact Hv. specialize (R1 (or_introl eq_refl)). unfold read_single_fp in R1. rewrite Ep in R1. exact R1.
    + apply R. right. exists c, (map (exchange dp) t). split; [|exact Hc]. f_equal. apply sw_id; [exact N|]. intros ->. discriminate Hc.
Qed.
Print Assumptions C103_round_trip.
(** ** Other locales *)
Lemma read_digit c (sgn x : Z) t : Duration_Spec.digit c -> ~ number_char x = true -> x <> 46 -> sgn = 45 \/ sgn = 43 ->
  strtod (sgn :: c :: x :: t) = Some (sgn =? 45, MDec (c - 48) 0, x :: t).
Proof.
  intros Dc Nx Nx' Hs. assert (U : unsigned_at (c :: x :: t) (c - 48) 0 (x :: t)).
  { assert (E : c - 48 = value ([c] ++ [])) by (cbn; lia). rewrite E. change (c :: x :: t) with ([c] ++ (x :: t)). replace 0 with (0 - Z.of_nat (length (@nil Z))) by reflexivity.
    assert (Nd : ~ starts_with Duration_Spec.digit (x :: t)).
    { apply no_digit_first. intros K. apply Nx. unfold number_char, word_char, is_digit. unfold Duration_Spec.digit in K. rewrite (proj2 (Z.leb_le 48 x)), (proj2 (Z.leb_le x 57)) by lia. reflexivity. }
    apply (Unsigned [c] [] (x :: t) (x :: t) 0 (x :: t)).
    - split; [now constructor|exact Nd].
    - left. split; [reflexivity|]. split; [reflexivity|]. intros (y & r & Ey & <-). injection Ey as Ey _. now apply Nx'.
    - discriminate.
    - right. split; [reflexivity|]. split; [reflexivity|]. intros (e' & r & K). inversion K as [y sign d rest Hy]; subst. apply Nx. destruct Hy as [-> | ->]; reflexivity. }
  apply scan_decimal_complete in U. unfold strtod.
  assert (M : scan_magnitude (c :: x :: t) = Some (MDec (c - 48) 0, x :: t)).
  { unfold scan_magnitude. assert (K : forall a l, is_digit a = false -> strip_prefix (a :: l) (c :: x :: t) = None).
    { intros a l Ha. cbn [strip_prefix]. replace (a =? lower c) with false; [reflexivity|]. symmetry. apply Z.eqb_neq. intros ->. unfold Duration_Spec.digit in Dc. unfold lower, is_digit in Ha.
      destruct (Z.leb_spec 65 c); [lia|]. cbn [andb] in Ha. rewrite (proj2 (Z.leb_le 48 c)), (proj2 (Z.leb_le c 57)) in Ha by lia. discriminate. }
    change (bytes "infinity") with (105 :: bytes "nfinity"). change (bytes "inf") with (105 :: bytes "nf"). change (bytes "nan") with (110 :: bytes "an"). rewrite !K by reflexivity.
    assert (A : after_0x (c :: x :: t) = None).
    { cbn [after_0x]. replace (x =? 120) with false by (symmetry; apply Z.eqb_neq; intros ->; now apply Nx). replace (x =? 88) with false by (symmetry; apply Z.eqb_neq; intros ->; now apply Nx). now rewrite andb_false_r. }
    rewrite A. exact U. }
  destruct Hs as [-> | ->]; cbn [skip_space isspace Z.eqb Pos.eqb Z.leb Z.compare Pos.compare Pos.compare_cont andb orb fst eat]; now rewrite M.
Qed.
Lemma printed_shape dp fmt dbg neg x text : show_fp_in dp dbg fmt (Fin neg x) = Ok text -> (length text < 64)%nat ->
  exists c more, let p := effective_precision (Z.of_nat (max_digits10 fmt)) in
    text = (if neg then 45 else 43) :: c :: dp :: more ++ exponent_text (sci_exponent (decimal_round p x)) /\ Duration_Spec.digit c /\ Forall Duration_Spec.digit more /\ length more = p.
Proof.
  intros H L. unfold show_fp_in, float_to_str_vw_in in H. cbv zeta in H. destruct (_ <? 64)%nat eqn:E.
  - injection H as <-. destruct (mantissa_split (effective_precision (Z.of_nat (max_digits10 fmt))) x) as (c & more & M & Lm & Dc & Dm). exists c, more. unfold printf_e_in. unfold mantissa in M. cbv zeta. rewrite M. cbn [signbit]. auto.
  - destruct dbg; [discriminate|]. destruct (_ =? 64)%nat eqn:E2; [|discriminate]. exfalso. apply Nat.eqb_eq in E2. apply (f_equal (fun o => match o with Ok l => length l | _ => 0%nat end)) in H. cbv beta iota in H. rewrite app_length, firstn_length, E2 in H. cbn [length Nat.sub Nat.min Nat.add] in H. lia.
Qed.
(** A finite number that was written in a locale with another decimal point than that of the reader is
    rejected, if the separator is not that point. *)
Theorem C103_other_locale_rejected_partial : forall dp dp' dbg fmt neg x text sep w, decimal_point dp -> decimal_point dp' -> dp <> dp' -> sep <> dp ->
  show_fp_in dp dbg fmt (Fin neg x) = Ok text -> (length text < 64)%nat ->
  read_in dp' fmt sep (text ++ w) = Throw csv_read_error.
Proof.
  intros dp dp' dbg fmt neg x text sep w H H' N Ns T L. destruct (printed_shape dp fmt dbg neg x text T L) as (c & more & E & Dc & _). cbv zeta in E. rewrite E. clear E T L.
  cbn [app]. set (t := (more ++ _) ++ w). unfold read_in, read_single_in. rewrite C103_reading by exact H'. cbn [map].
  assert (W : forall z, z <> dp' -> z <> 46 -> exchange dp' z = z) by (intros z A B; now apply sw_id).
  assert (E1 : exchange dp' (if neg then 45 else 43) = if neg then 45 else 43).
  { destruct neg; apply W; try lia; destruct H' as [->|[H' _]]; try lia; intros K; rewrite <- K in H'; discriminate. }
  assert (E2 : exchange dp' c = c).
  { unfold Duration_Spec.digit in Dc. apply W; [|lia]. destruct H' as [->|[H' _]]; [lia|]. intros ->. unfold number_char, word_char, is_digit in H'. rewrite (proj2 (Z.leb_le 48 dp')), (proj2 (Z.leb_le dp' 57)) in H' by lia. discriminate. }
  rewrite E1, E2. set (z := exchange dp' dp).
  assert (Z1 : ~ number_char z = true /\ z <> 46).
  { unfold z, exchange. rewrite (proj2 (Z.eqb_neq _ _) N). destruct (Z.eqb_spec dp 46) as [->|N46].
    - destruct H' as [->|[H' _]]; [congruence|]. rewrite H'. split; [discriminate|]. congruence.
    - destruct H as [->|[H _]]; [congruence|]. rewrite H. split; [discriminate|auto]. }
  unfold from_chars_stod. rewrite read_digit by (tauto || (destruct neg; auto)). cbv zeta.
  destruct (_ || _); [reflexivity|]. cbn [length]. rewrite map_length. replace (S (S (S (length t))) - S (length t))%nat with 2%nat by lia. cbn [skipn]. now rewrite (proj2 (Z.eqb_neq dp sep)) by congruence.
Qed.
Print Assumptions C103_other_locale_rejected_partial.

(** *** The separator is the decimal point *)
Lemma reads_decimal s neg m e k : floating s = Some (Dec neg m e, k) -> 0 <= m < 10 ^ 17 -> -290 <= e <= 290 -> exists v, from_chars_fp FloatIO_Model.binary64 s = Some (v, k).
Proof.
  intros H Hm He. unfold from_chars_fp. rewrite H. cbn [emax prec emin FloatIO_Model.binary64].
  assert (P : (0 < powerRZ 10 e)%R) by (apply powerRZ_lt; lra).
  assert (Pe : (bpow radix10 (-290) <= powerRZ 10 e <= bpow radix10 290)%R).
  { replace (powerRZ 10 e) with (bpow radix10 e) by (rewrite bpow_powerRZ; reflexivity). split; apply bpow_le; lia. }
  assert (B1 : (bpow radix10 17 * bpow radix10 290 < bpow radix2 1024 - bpow radix2 (1024 - 53 - 1))%R).
  { rewrite <- bpow_plus. rewrite bpow10_Z by lia. rewrite <- !(IZR_Zpower radix2) by lia. rewrite <- minus_IZR. apply IZR_lt. vm_compute. reflexivity. }
  assert (B2 : (bpow radix2 (-1074 - 1) < bpow radix10 (-290))%R).
  { change (-1074 - 1) with (- (1075)). change (-290) with (- (290)). rewrite (bpow_opp radix10 290), (bpow_opp radix2 1075). rewrite bpow10_Z by lia. rewrite <- (IZR_Zpower radix2) by lia. apply Rinv_lt_contravar; [apply Rmult_lt_0_compat; apply IZR_lt; reflexivity|]. apply IZR_lt. vm_compute. reflexivity. }
  destruct (Rle_dec _ _) as [L|_].
  { exfalso. apply (Rlt_irrefl (IZR m * powerRZ 10 e)). eapply Rle_lt_trans; [|eapply Rlt_le_trans; [exact B1|exact L]].
    apply Rmult_le_compat; [apply IZR_le; lia|lra| |apply Pe]. rewrite bpow10_Z by lia. apply IZR_le. lia. }
  destruct (Z.eqb_spec m 0) as [->|N]; [eauto|]. destruct (Rle_dec _ _) as [L|_]; [|eauto]. exfalso.
  assert (1 <= IZR m)%R by (apply IZR_le; lia). assert (powerRZ 10 e <= IZR m * powerRZ 10 e)%R by (rewrite <- (Rmult_1_l (powerRZ 10 e)) at 1; apply Rmult_le_compat_r; lra). lra.
Qed.
Lemma value_bound d : Forall Duration_Spec.digit d -> 0 <= value d < 10 ^ Z.of_nat (length d).
Proof.
  induction 1 as [|c d H F IH]; [cbn; lia|]. cbn [value length]. rewrite Nat2Z.inj_succ, Z.pow_succ_r by lia. unfold Duration_Spec.digit in H. assert (0 < 10 ^ Z.of_nat (length d)) by (apply Z.pow_pos_nonneg; lia). nia.
Qed.
Lemma floating_of s m e (neg : bool) : unsigned_at s m e [] -> in_range m e -> ~ starts_with (eq 45) s -> floating (if neg then 45 :: s else s) = Some (Dec neg m e, length (if neg then 45 :: s else s)).
Proof.
  intros U R N. unfold floating. rewrite (from_chars_complete _ _ _ (Duration_Spec.Number neg s m e [] U R (fun _ => N))). cbn [length]. now rewrite Nat.sub_0_r.
Qed.
Lemma small_range m e : 0 <= m < 10 ^ 17 -> -290 <= e <= 290 -> in_range m e.
Proof.
  intros Hm He. unfold in_range. assert (P : (0 < powerRZ 10 e)%R) by (apply powerRZ_lt; lra).
  assert (Pe : (bpow radix10 (-290) <= powerRZ 10 e <= bpow radix10 290)%R).
  { replace (powerRZ 10 e) with (bpow radix10 e) by (rewrite bpow_powerRZ; reflexivity). split; apply bpow_le; lia. }
  assert (B1 : (bpow radix10 17 * bpow radix10 290 < bpow radix2 1024 - bpow radix2 970)%R).
  { rewrite <- bpow_plus. rewrite bpow10_Z by lia. rewrite <- !(IZR_Zpower radix2) by lia. rewrite <- minus_IZR. apply IZR_lt. vm_compute. reflexivity. }
  assert (B2 : (bpow radix2 (-1075) < bpow radix10 (-290))%R).
  { change (-1075) with (- (1075)). change (-290) with (- (290)). rewrite (bpow_opp radix10 290), (bpow_opp radix2 1075). rewrite bpow10_Z by lia. rewrite <- (IZR_Zpower radix2) by lia. apply Rinv_lt_contravar; [apply Rmult_lt_0_compat; apply IZR_lt; reflexivity|]. apply IZR_lt. vm_compute. reflexivity. }
  split.
  - eapply Rle_lt_trans; [|exact B1]. apply Rmult_le_compat; [apply IZR_le; lia|lra| |apply Pe]. rewrite bpow10_Z by lia. apply IZR_le. lia.
  - destruct (Z.eq_dec m 0) as [->|N]; [now left|right]. assert (1 <= IZR m)%R by (apply IZR_le; lia). assert (powerRZ 10 e <= IZR m * powerRZ 10 e)%R by (rewrite <- (Rmult_1_l (powerRZ 10 e)) at 1; apply Rmult_le_compat_r; lra). lra.
Qed.
(** Not very large and not very small: 1e-280 to 1e280, and 0 *)
Definition moderate (x : R) : Prop := x = 0%R \/ (powerRZ 10 (-280) <= x <= powerRZ 10 280)%R.
Lemma moderate_exponent p x : moderate x -> -290 <= sci_exponent (decimal_round p x) <= 290.
Proof.
  intros [->|[B1 B2]]; [rewrite decimal_round_0; unfold sci_exponent; destruct (Req_EM_T 0 0); [lia|congruence]|].
  assert (B1' : (bpow radix10 (-280) <= x)%R) by (rewrite bpow_powerRZ; exact B1). assert (B2' : (x <= bpow radix10 280)%R) by (rewrite bpow_powerRZ; exact B2). clear B1 B2. assert (Pp : Prec_gt_0 (Z.of_nat p + 1)) by (unfold Prec_gt_0; lia). set (d := decimal_round p x).
  assert (FB : forall k, generic_format radix10 (FLX_exp (Z.of_nat p + 1)) (bpow radix10 k)) by (intros k; apply generic_format_bpow; unfold FLX_exp; lia).
  assert (D1 : (bpow radix10 (-280) <= d)%R) by (apply round_ge_generic; auto; typeclasses eauto).
  assert (D2 : (d <= bpow radix10 280)%R) by (apply round_le_generic; auto; typeclasses eauto).
  assert (D0 : (0 < d)%R) by (pose proof (bpow_gt_0 radix10 (-280)); lra).
  unfold sci_exponent. destruct (Req_EM_T d 0) as [Z0|N]; [lra|].
  assert (U : mag radix10 d <= 281). { apply mag_le_bpow; [lra|]. rewrite Rabs_pos_eq by lra. eapply Rle_lt_trans; [exact D2|]. apply bpow_lt. lia. }
  assert (L : -280 < mag radix10 d). { apply mag_gt_bpow. rewrite Rabs_pos_eq by lra. exact D1. }
  lia.
Qed.
(** The two fields that a number becomes *)
Lemma two_fields dbg neg x text : moderate x -> show_fp_in 44 dbg FloatIO_Model.binary64 (Fin neg x) = Ok text ->
  exists f1 f2 v1 v2, text = f1 ++ 44 :: f2 /\ hd 0 f1 <> 35 /\ f1 <> [] /\ entries (from_chars_fp FloatIO_Model.binary64) 44 [f1; f2] [v1; v2].
Proof.
  intros Hm T. pose proof (moderate_exponent 17 x Hm) as He.
  assert (L : (length text < 64)%nat).
  { revert T. unfold show_fp_in, float_to_str_vw_in. cbv zeta. destruct (_ <? 64)%nat eqn:E; [intros K; injection K as <-; now apply Nat.ltb_lt|]. exfalso. apply Nat.ltb_ge in E.
    unfold printf_e_in in E. change (effective_precision (Z.of_nat (max_digits10 FloatIO_Model.binary64))) with 17%nat in E. destruct (mantissa_split 17 x) as (c & more & M & Lm & _). unfold mantissa in M. rewrite M in E.
    cbn [length] in E. rewrite app_length, Lm in E. unfold exponent_text in E. cbn [length] in E. rewrite fixed_length in E.
    pose proof (show_nat_short (Z.abs (sci_exponent (decimal_round 17 x))) ltac:(lia)). lia. }
  destruct (printed_shape 44 _ dbg neg x text T L) as (c & more & E & Dc & Dm & Lm). cbv zeta in E. change (effective_precision (Z.of_nat (max_digits10 FloatIO_Model.binary64))) with 17%nat in *.
  set (ex := sci_exponent (decimal_round 17 x)) in *. pose proof Dc as Dc'. unfold Duration_Spec.digit in Dc'.
  assert (U1 : unsigned_at [c] (c - 48) 0 []).
  { replace (c - 48) with (value ([c] ++ [])) by (cbn; lia). change [c] with ([c] ++ []) at 1. replace 0 with (0 - Z.of_nat (length (@nil Z))) by reflexivity. apply (Unsigned [c] [] [] [] 0 []).
    - split; [now constructor|]. intros (y & r & K & _). discriminate.
    - left. split; [reflexivity|]. split; [reflexivity|]. intros (y & r & K & _). discriminate.
    - discriminate.
    - right. split; [reflexivity|]. split; [reflexivity|]. intros (e' & r & K). inversion K. }
  assert (U2 : unsigned_at (more ++ exponent_text ex) (value more) ex []).
  { rewrite <- (app_nil_r more) at 2. replace ex with (ex - Z.of_nat (length (@nil Z))) at 2 by (cbn [length]; lia). apply (Unsigned more [] (exponent_text ex) (exponent_text ex) ex []).
    - split; [exact Dm|]. apply no_digit_first. unfold Duration_Spec.digit. lia.
    - left. split; [reflexivity|]. split; [reflexivity|]. intros (y & r & K & <-). discriminate K.
    - rewrite app_nil_r. destruct more; [discriminate Lm|discriminate].
    - left. apply exponent_text_ok. }
  assert (F1 := floating_of [c] (c - 48) 0 neg U1 (small_range (c - 48) 0 ltac:(change (10 ^ 17) with 100000000000000000; lia) ltac:(lia)) ltac:(intros (y & r & K & <-); injection K as K _; lia)).
  assert (Vb := value_bound more Dm). rewrite Lm in Vb. change (10 ^ Z.of_nat 17) with (10 ^ 17) in Vb.
  assert (N2 : forall a, a = 45 \/ a = 43 -> hd a (more ++ exponent_text ex) <> a).
  { intros a Ha. destruct more as [|y more]; [discriminate Lm|]. cbn [app hd]. inversion Dm as [|? ? Dy _]; subst. unfold Duration_Spec.digit in Dy. lia. }
  assert (F2 := floating_of (more ++ exponent_text ex) (value more) ex false U2 (small_range _ _ Vb He) ltac:(intros (y & r & K & <-); specialize (N2 45 (or_introl eq_refl)); rewrite K in N2; now apply N2)).
  cbv iota in F2. destruct (reads_decimal _ _ _ _ _ F1 ltac:(change (10 ^ 17) with 100000000000000000; lia) ltac:(lia)) as (v1 & R1). destruct (reads_decimal _ _ _ _ _ F2 Vb He) as (v2 & R2).
  exists [if neg then 45 else 43; c], (more ++ exponent_text ex), v1, v2. split; [exact E|]. split; [destruct neg; cbn; lia|]. split; [discriminate|].
  assert (Ch : forall z, In z (more ++ exponent_text ex) -> 48 <= z <= 57 \/ z = 101 \/ z = 45 \/ z = 43).
  { intros z K. apply in_app_or in K. destruct K as [K|K]; [rewrite Forall_forall in Dm; specialize (Dm z K); unfold Duration_Spec.digit in Dm; auto|].
    unfold exponent_text in K. destruct K as [<-|[<-|K]]; [auto|destruct (ex <? 0); auto|]. pose proof (fixed_digits (Nat.max 2 (length (show_nat (Z.abs ex)))) (Z.abs ex)) as Fd. rewrite Forall_forall in Fd. specialize (Fd z K). unfold Duration_Spec.digit in Fd. auto. }
  constructor; [|constructor; [|constructor]].
  - split; [|split; [|split]].
    + unfold value_of. destruct neg; cbn [strip_plus].
      * change (45 =? plus) with false. cbv iota. rewrite R1. now rewrite Nat.eqb_refl.
      * change (43 =? plus) with true. cbv iota. rewrite R1. now rewrite Nat.eqb_refl.
    + destruct neg; intros [K|[K|[]]]; lia.
    + unfold newline. destruct neg; intros [K|[K|[]]]; lia.
    + cbn. lia.
  - split; [|split; [|split]].
    + unfold value_of. assert (Sp : strip_plus (more ++ exponent_text ex) = more ++ exponent_text ex).
      { unfold strip_plus. specialize (N2 43 (or_intror eq_refl)). destruct (more ++ exponent_text ex) as [|y r]; [reflexivity|]. cbn [hd] in N2. unfold plus. now rewrite (proj2 (Z.eqb_neq _ _) N2). }
      rewrite Sp, R2. now rewrite Nat.eqb_refl.
    + intros K. specialize (Ch _ K). lia.
    + unfold newline. intros K. specialize (Ch _ K). lia.
    + rewrite E in L. cbn [length] in L. lia.
Qed.
(** Written with a decimal comma and the default separator, read by a process with a decimal point: a row
    of n numbers is read as 2n other numbers. There is no error. *)
Theorem C103_decimal_comma_refuted : forall eager dbg (vs : list (bool * R)) texts rest, vs <> [] -> Forall (fun v => moderate (snd v)) vs ->
  Forall2 (fun v t => show_fp_in 44 dbg FloatIO_Model.binary64 (Fin (fst v) (snd v)) = Ok t) vs texts ->
  exists us st, csv_read_row_std_vector eager (from_chars_fp FloatIO_Model.binary64) 44 (open (join 44 texts ++ newline :: rest)) = Ok (us, st) /\ length us = (2 * length vs)%nat /\ at_text st rest.
Proof.
  intros eager dbg vs texts rest Nv Hm H.
  assert (G : exists fs us, entries (from_chars_fp FloatIO_Model.binary64) 44 fs us /\ join 44 texts = join 44 fs /\ length us = (2 * length vs)%nat /\ (vs <> [] -> exists f more, fs = f :: more /\ f <> [] /\ hd 0 f <> 35)).
  { clear Nv. induction H as [|v t vs texts Ht H IH]; [exists [], []; repeat split; [constructor|congruence]|].
    inversion Hm as [|? ? Hv Hm']; subst. destruct (IH Hm') as (fs & us & E1 & E2 & E3 & E4). destruct (two_fields dbg (fst v) (snd v) t Hv Ht) as (f1 & f2 & v1 & v2 & -> & N35 & N & En).
    exists (f1 :: f2 :: fs), (v1 :: v2 :: us). split; [|split; [|split; [cbn [length]; lia|eauto 10]]].
    - inversion En as [|? ? ? ? A1 A2]; subst. inversion A2 as [|? ? ? ? A3 A4]; subst. constructor; [exact A1|]. constructor; [exact A3|exact E1].
    - destruct texts as [|t2 texts].
      + inversion H; subst. destruct us; [|discriminate E3]. inversion E1; subst. reflexivity.
      + inversion H as [|v' ? vs' ? ? H']; subst. destruct (E4 ltac:(discriminate)) as (f & more & -> & _).
        change (join 44 ((f1 ++ 44 :: f2) :: t2 :: texts)) with ((f1 ++ 44 :: f2) ++ 44 :: join 44 (t2 :: texts)). rewrite E2. change (join 44 (f1 :: f2 :: f :: more)) with (f1 ++ 44 :: f2 ++ 44 :: join 44 (f :: more)). now rewrite <- app_assoc. }
  destruct G as (fs & us & E1 & E2 & E3 & E4). destruct (E4 Nv) as (f & more & Ef & Nf & Hf).
  destruct (C44_vector_of_fields eager _ (from_chars_fp FloatIO_Model.binary64) 44 fs us false (Some rest)) as (st & R & A).
  - apply from_chars_fp_separates; [reflexivity|vm_compute; discriminate].
  - exact E1.
  - intros K. reflexivity.
  - unfold line_of. rewrite app_nil_r. intros (b & K). rewrite Ef in K. destruct f as [|z f]; [congruence|]. destruct more; cbn [join app] in K; injection K as K _; cbn [hd] in Hf; unfold hash in K; congruence.
  - exists us, st. unfold line_of in R. rewrite app_nil_r in R. rewrite E2. auto.
Qed.
Print Assumptions C103_decimal_comma_refuted.
(** In a locale with a decimal comma two integers with the default separator between them are one number. *)
Theorem C103_two_fields_refuted : forall fmt d1 d2, fmt = FloatIO_Model.binary64 \/ fmt = binary32 ->
  Forall Duration_Spec.digit d1 -> Forall Duration_Spec.digit d2 -> d2 <> [] -> 1 <= value d1 -> (length d1 <= 30)%nat ->
  read_in 44 fmt 44 (d1 ++ 44 :: d2) =
    Ok (Fin false (Generic_fmt.round radix2 (FLT_exp (emin fmt) (prec fmt)) ZnearestE (IZR (value (d1 ++ d2)) * powerRZ 10 (- Z.of_nat (length d2)))), []).
Proof.
  intros fmt d1 d2 Hf D1 D2 N2 V1 L1. assert (Hd : decimal_point 44) by (right; split; reflexivity).
  assert (N1 : d1 <> []) by (intros ->; cbn in V1; lia).
  unfold read_in, read_single_in. rewrite C103_reading by exact Hd. rewrite map_app. cbn [map]. rewrite !(sw_digits 44) by (reflexivity || assumption). change (exchange 44 44) with 46.
  assert (U : unsigned_at (d1 ++ 46 :: d2) (value (d1 ++ d2)) (- Z.of_nat (length d2)) []).
  { replace (- Z.of_nat (length d2)) with (0 - Z.of_nat (length d2)) by lia. apply (Unsigned d1 d2 (46 :: d2) [] 0 []).
    - split; [exact D1|]. apply no_digit_first. unfold Duration_Spec.digit. lia.
    - right. rewrite app_nil_r. split; [reflexivity|]. split; [exact D2|]. intros (y & r & K & _). discriminate.
    - destruct d1; [congruence|discriminate].
    - right. split; [reflexivity|]. split; [reflexivity|]. intros (e' & r & K). inversion K. }
  pose proof (scan_decimal_complete _ _ _ _ U) as Sc.
  assert (St : strtod (d1 ++ 46 :: d2) = Some (false, MDec (value (d1 ++ d2)) (- Z.of_nat (length d2)), [])).
  { destruct d1 as [|c d1]; [congruence|]. inversion D1 as [|? ? Dc D1']; subst. unfold Duration_Spec.digit in Dc. unfold strtod. cbn [app] in *.
    assert (Sp : isspace c = false). { unfold isspace. rewrite (proj2 (Z.eqb_neq c 32)) by lia. rewrite (proj2 (Z.leb_gt c 13)) by lia. now rewrite andb_false_r. }
    cbn [skip_space]. rewrite Sp. cbn [fst eat]. rewrite (proj2 (Z.eqb_neq c 45)), (proj2 (Z.eqb_neq c 43)) by lia.
    assert (M : scan_magnitude (c :: d1 ++ 46 :: d2) = scan_decimal (c :: d1 ++ 46 :: d2)).
    { unfold scan_magnitude. assert (K : forall a l s, is_digit a = false -> strip_prefix (a :: l) (c :: s) = None).
      { intros a l s Ha. cbn [strip_prefix]. replace (a =? lower c) with false; [reflexivity|]. symmetry. apply Z.eqb_neq. intros ->. unfold lower, is_digit in Ha.
        destruct (Z.leb_spec 65 c); [lia|]. cbn [andb] in Ha. rewrite (proj2 (Z.leb_le 48 c)), (proj2 (Z.leb_le c 57)) in Ha by lia. discriminate. }
      change (bytes "infinity") with (105 :: bytes "nfinity"). change (bytes "inf") with (105 :: bytes "nf"). change (bytes "nan") with (110 :: bytes "an"). rewrite !K by reflexivity.
      assert (A : after_0x (c :: d1 ++ 46 :: d2) = None); [|now rewrite A].
      destruct d1 as [|x d1]; cbn [app after_0x]; [now rewrite andb_false_r|]. inversion D1' as [|? ? Dx _]; subst. unfold Duration_Spec.digit in Dx. rewrite (proj2 (Z.eqb_neq x 120)), (proj2 (Z.eqb_neq x 88)) by lia. now rewrite andb_false_r. }
    rewrite M, Sc. reflexivity. }
  set (a := (IZR (value (d1 ++ d2)) * powerRZ 10 (- Z.of_nat (length d2)))%R) in *.
  assert (Va : value (d1 ++ d2) = value d1 * 10 ^ Z.of_nat (length d2) + value d2).
  { clear. induction d1 as [|c d1 IH]; cbn [app value]; [lia|]. rewrite IH, app_length, Nat2Z.inj_add, Z.pow_add_r by lia. ring. }
  pose proof (value_bound d1 D1) as B1. pose proof (value_bound d2 D2) as B2.
  assert (T0 : (0 < powerRZ 10 (Z.of_nat (length d2)))%R) by (apply powerRZ_lt; lra).
  assert (A1 : (1 <= a < bpow radix10 30)%R).
  { unfold a. rewrite powerRZ_neg by lra. rewrite powerRZ_inv by lra. assert (Q : IZR (10 ^ Z.of_nat (length d2)) = powerRZ 10 (Z.of_nat (length d2))) by (rewrite <- bpow10_Z by lia; now rewrite bpow_powerRZ).
    assert (C : 10 ^ Z.of_nat (length d1) <= 10 ^ 30) by (apply Z.pow_le_mono_r; lia). rewrite bpow10_Z by lia. rewrite <- Q in T0 |- *. split.
    - apply Rmult_le_reg_r with (IZR (10 ^ Z.of_nat (length d2))); [exact T0|]. rewrite Rmult_assoc, Rinv_l, Rmult_1_r, Rmult_1_l by lra. apply IZR_le. nia.
    - apply Rmult_lt_reg_r with (IZR (10 ^ Z.of_nat (length d2))); [exact T0|]. rewrite Rmult_assoc, Rinv_l, Rmult_1_r by lra. rewrite <- mult_IZR. apply IZR_lt. nia. }
  assert (H : supported fmt) by (destruct Hf as [-> | ->]; apply C69_formats).
  assert (P10 : (bpow radix10 30 < bpow radix2 (emax fmt) - bpow radix2 (emax fmt - prec fmt - 1))%R).
  { assert (X : (bpow radix10 30 < bpow radix2 128 - bpow radix2 103)%R). { rewrite bpow10_Z by lia. rewrite <- !(IZR_Zpower radix2) by lia. rewrite <- minus_IZR. apply IZR_lt. vm_compute. reflexivity. }
    destruct Hf as [-> | ->]; cbn [emax prec FloatIO_Model.binary64 binary32]; [|exact X].
    assert (Y : (bpow radix2 128 < bpow radix2 1024 - bpow radix2 970)%R) by (rewrite <- !(IZR_Zpower radix2) by lia; rewrite <- minus_IZR; apply IZR_lt; vm_compute; reflexivity). pose proof (bpow_gt_0 radix2 103). change (1024 - 53 - 1) with 970. lra. }
  assert (O : overflows fmt a = false) by (apply overflows_spec; lra).
  assert (Un : underflows fmt a = false).
  { apply (underflows_normal fmt H). apply Rlt_le_trans with 1%R.
    - change 1%R with (bpow radix2 0). apply bpow_lt. destruct Hf as [-> | ->]; reflexivity.
    - assert (Pf : Prec_gt_0 (prec fmt)) by (unfold Prec_gt_0; destruct Hf as [-> | ->]; reflexivity).
      apply (round_ge_generic radix2 (fexp fmt) ZnearestE 1 a); [|apply A1]. change 1%R with (bpow radix2 0). apply generic_format_bpow. destruct Hf as [-> | ->]; cbn; lia. }
  unfold from_chars_stod. rewrite St. cbv zeta. fold a. rewrite O, Un. cbn [orb length]. rewrite Nat.sub_0_r. rewrite skipn_all2 by (rewrite !app_length; cbn [length]; lia). reflexivity.
Qed.
Print Assumptions C103_two_fields_refuted.
Example C103_nonvacuous : decimal_point 44 /\ decimal_point 46 /\ moderate 1 /\ ends_field (bytes ",+2") /\
  Forall Duration_Spec.digit (bytes "12") /\ 1 <= value (bytes "12").
Proof.
  split; [right; split; reflexivity|]. split; [now left|]. split; [right; split|].
  - change (-280) with (Z.opp 280). rewrite powerRZ_neg by lra. rewrite powerRZ_inv by lra. rewrite <- Rinv_1. apply Rinv_le; [lra|]. rewrite <- (powerRZ_O 10) at 1. change 10%R with (IZR radix10). rewrite <- !bpow_powerRZ. apply bpow_le. lia.
  - rewrite <- (powerRZ_O 10) at 1. change 10%R with (IZR radix10). rewrite <- !bpow_powerRZ. apply bpow_le. lia.
  - split; [right; eexists _, _; split; reflexivity|]. split; [repeat constructor; discriminate|]. cbn. lia.
Qed.
