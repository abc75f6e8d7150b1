(** C96: long double and quadruple precision: printed and read back. *)
From Flocq Require Import Core.
From Coq Require Import Reals Lra.
From Verif Require Import Base Bytes MatView_Model MatView_Spec Duration_Spec Duration_Model Duration_Proofs Csv_Spec Csv_Model Csv_Proofs Csv_Numbers Csv_Props
  Print_Spec Print_Model Print_Proofs Print_Ints Print_Props FloatIO_Model FloatIO_Spec FloatIO_Proofs FloatIO_Props FromChars_Model
  Stod_Model Stod_Spec Stod_Proofs Stod_Props CsvStrtod_Model CsvStrtod_Props FloatStr_Model FloatStr_Spec FloatStr_Props FloatWide_Model FloatWide_Spec FloatWide_Proofs.
Local Open Scope Z_scope.

(** What is read, exactly: every number, infinity and nan of the grammar that is in the range of the
    format, rounded to nearest; nothing else. *)
Theorem C96_grammar : forall fmt s v k, wide fmt ->
  from_chars_wide fmt s = Some (v, k) <-> exists rest, reads_as fmt s v rest /\ k = (length s - length rest)%nat.
Proof.
  intros fmt s v k H. assert (P : 0 < prec fmt) by (destruct H as (? & _); lia). split.
  - now apply wide_sound.
  - intros (r & R & ->). now apply wide_complete.
Qed.
Print Assumptions C96_grammar.
(** For the formats up to double this is the reader of C69. *)
Theorem C96_same_as_double : forall fmt s, supported fmt -> from_chars_wide fmt s = from_chars_fp fmt s.
Proof.
  intros fmt s H. unfold from_chars_wide, from_chars_fp, floating. rewrite from_chars_split.
  set (p := match eat 45 s with Some t => (true, t) | None => (false, s) end).
  assert (Ep : match eat 45 s with Some t => from_chars_unsigned true t | None => from_chars_unsigned false s end = from_chars_unsigned (fst p) (snd p)).
  { unfold p. destruct (eat 45 s); reflexivity. }
  assert (Sg : match s with [] => false | c :: _ => c =? 45 end = fst p).
  { unfold p. destruct s as [|c t]; [reflexivity|]. cbn [eat]. destruct (c =? 45); reflexivity. }
  rewrite Ep, Sg. clear Ep Sg. destruct p as [neg t]. cbn [fst snd]. rewrite from_chars_scan.
  destruct (strip_prefix (bytes "infinity") t) as [r|]; [reflexivity|].
  destruct (strip_prefix (bytes "inf") t) as [r|]; [reflexivity|].
  destruct (strip_prefix (bytes "nan") t) as [r|]; [reflexivity|].
  destruct (scan_decimal t) as [[x r]|] eqn:Sd; [|reflexivity].
  apply scan_decimal_at in Sd as (m & e & -> & U & M0).
  destruct (too_large m e || too_small m e) eqn:R.
  - (* out of the range of double, hence of the format *)
    assert (C : convert fmt neg m e = None); [|now rewrite C].
    destruct (convert fmt neg m e) as [v|] eqn:C; [exfalso|reflexivity]. apply convert_spec in C; [|exact M0|destruct H as (? & _); lia].
    destruct C as (B1 & B2 & _). enough (in_range m e) as K by (apply range_spec in K; congruence).
    unfold largest, smallest in *. rewrite !powerRZ_2 in *. destruct B2 as [Z0|B2].
    + split; [|now left]. rewrite Z0, Rmult_0_l. assert (bpow radix2 970 < bpow radix2 1024)%R by (apply bpow_lt; lia). lra.
    + destruct (double_range fmt H _ (conj B2 B1)) as [D1 D2]. split; [exact D2|now right].
  - unfold convert. destruct (Rle_dec _ _); [reflexivity|]. destruct (m =? 0); [reflexivity|]. destruct (Rle_dec _ _); reflexivity.
Qed.
Print Assumptions C96_same_as_double.

(** ** Printing *)
(** The two ways print_csv writes a number of the format: by std::to_chars (long double, and std::float128_t if the
    library has it) and by quadmath_snprintf (__float128). *)
Definition printed (fmt : format) (junk : list Z) (show : fp -> list Z) : Prop := show = show_fp fmt junk \/ show = show_fp_quad fmt.

Lemma wide_show fmt junk v : wide fmt -> value_in fmt v -> (64 <= length junk)%nat ->
  show_fp fmt junk v = (if negb (signbit v) && negb (isnan v) then [43] else []) ++ to_chars v (max_digits10 fmt) /\ (length (show_fp fmt junk v) < 64)%nat.
Proof.
  intros H Hv Hj. unfold show_fp, float_to_str_vw, effective_precision. rewrite (proj2 (Z.ltb_ge _ _)) by lia. rewrite Nat2Z.id.
  assert (B : (max_digits10 fmt <= 50)%nat) by apply H.
  assert (L := to_chars_room v (max_digits10 fmt) B ltac:(intros neg x ->; now apply (wide_exponent fmt))). rewrite firstn_length.
  set (sign := if negb (signbit v) && negb (isnan v) then [43] else []).
  assert (Ls : (length sign + (if signbit v then 1 else 0) <= 1)%nat) by (unfold sign; destruct (signbit v), (isnan v); cbn; lia).
  rewrite (proj2 (Nat.leb_le _ _)) by lia. split; [reflexivity|]. rewrite app_length. lia.
Qed.
Lemma quad_show fmt v : wide fmt ->
  show_fp_quad fmt v = if isnan v then (if signbit v then 45 else 43) :: bytes "nan"
    else (if signbit v then [] else [43]) ++ to_chars v (max_digits10 fmt).
Proof.
  intros H. assert (P1 : (1 <= max_digits10 fmt)%nat).
  { destruct H as (Hp & _ & _ & _ & Hd & _). destruct (max_digits10 fmt); [|lia]. change (10 ^ Z.of_nat 0) with 1 in Hd. assert (1 <= 2 ^ prec fmt) by (apply (Z.pow_le_mono_r 2 0); lia). lia. }
  unfold show_fp_quad, printf_e, effective_precision. rewrite (proj2 (Z.ltb_ge _ _)) by lia. rewrite Nat2Z.id.
  destruct v as [neg x|neg|neg]; cbn [isnan signbit]; unfold to_chars; cbn [signbit]; [|destruct neg; reflexivity|reflexivity].
  unfold scientific. cbv zeta. set (d := decimal_round _ x). pose proof (fixed_length (S (max_digits10 fmt)) (sci_digits (max_digits10 fmt) d)) as L.
  destruct (fixed _ _) as [|c more]; [discriminate L|]. cbn [length] in L. destruct more as [|c' more]; [cbn [length] in L; lia|].
  destruct neg; reflexivity.
Qed.
(** The text, whichever way: short, of digits, signs, points and letters; and what it is read as. *)
Lemma printed_token fmt junk show v : wide fmt -> value_in fmt v -> (64 <= length junk)%nat -> printed fmt junk show ->
  value_of (from_chars_wide fmt) (show v) = Some v /\ (length (show v) < 64)%nat /\ show v <> [] /\
  (forall c, In c (show v) -> 48 <= c <= 57 \/ c = 45 \/ c = 43 \/ c = 46 \/ 97 <= c <= 122).
Proof.
  intros H Hv Hj Hs.
  assert (G : exists sign, (sign = [] \/ sign = [43]) /\ (show v = sign ++ to_chars v (max_digits10 fmt) \/ show v = sign ++ bytes "nan" /\ v = Nan false) /\ (length (show v) < 64)%nat).
  { destruct Hs as [-> | ->].
    - destruct (wide_show fmt junk v H Hv Hj) as [E L]. eexists. split; [|split; [left; exact E|exact L]]. destruct (_ && _); auto.
    - rewrite (quad_show fmt v H). destruct v as [neg x|neg|neg]; cbn [isnan signbit].
      + assert (L := to_chars_room (Fin neg x) (max_digits10 fmt) ltac:(apply H) ltac:(intros neg' x' K; injection K as <- <-; now apply (wide_exponent fmt))). cbn [signbit] in L.
        exists (if neg then [] else [43]). split; [destruct neg; auto|]. split; [now left|]. rewrite app_length. destruct neg; cbn [length]; lia.
      + exists (if neg then [] else [43]). split; [destruct neg; auto|]. split; [now left|]. destruct neg; cbn; lia.
      + destruct neg; [exists []|exists [43]]; (split; [auto|split; [|cbn; lia]]); [left; reflexivity|right; split; reflexivity]. }
  destruct G as (sign & Hsign & Ht & L).
  assert (C : exists t, show v = sign ++ t /\ from_chars_wide fmt t = Some (v, length t) /\ (exists c u, t = c :: u /\ c <> 43) /\
    (forall c, In c t -> 48 <= c <= 57 \/ c = 45 \/ c = 43 \/ c = 46 \/ 97 <= c <= 122)).
  { destruct Ht as [E|[E ->]].
    - exists (to_chars v (max_digits10 fmt)). split; [exact E|]. split; [now apply wide_to_chars|]. split.
      + destruct (to_chars_nonempty v (max_digits10 fmt)) as (c & u & -> & C & _). eauto.
      + intros c. apply to_chars_chars.
    - exists (bytes "nan"). split; [exact E|]. split; [reflexivity|]. split; [exists 110, (bytes "an"); split; [reflexivity|lia]|]. intros c K. cbn in K. intuition lia. }
  destruct C as (t & E & Rd & (c & u & Et & C43) & Ch). rewrite E in *. split; [|split; [exact L|split]].
  - assert (S : strip_plus (sign ++ t) = t). { rewrite Et. destruct Hsign as [-> | ->]; cbn [app strip_plus]; [|reflexivity]. now rewrite (proj2 (Z.eqb_neq c plus)). }
    unfold value_of. rewrite S, Rd. now rewrite Nat.eqb_refl.
  - rewrite Et. destruct Hsign as [-> | ->]; discriminate.
  - intros c0 K. apply in_app_or in K. destruct K as [K|K]; [|now apply Ch]. destruct Hsign as [-> | ->]; cbn in K; intuition lia.
Qed.
(** What print_elem does for __float128, with the assertion and the buffer of 64 characters. *)
Theorem C96_quad_fits : forall fmt dbg v, wide fmt -> value_in fmt v -> show_fp_snprintf dbg fmt v = Ok (show_fp_quad fmt v).
Proof.
  intros fmt dbg v H Hv. unfold show_fp_snprintf, float_to_str_vw_snprintf. fold (show_fp_quad fmt v).
  destruct (printed_token fmt (repeat 0 64) (show_fp_quad fmt) v H Hv ltac:(rewrite repeat_length; lia) (or_intror eq_refl)) as (_ & L & _).
  now rewrite (proj2 (Nat.ltb_lt _ _) L).
Qed.
Print Assumptions C96_quad_fits.
(** One number, also the sign of zeros and nans. *)
Theorem C96_number : forall fmt junk show v, wide fmt -> value_in fmt v -> (64 <= length junk)%nat -> printed fmt junk show ->
  value_of (from_chars_wide fmt) (show v) = Some v.
Proof. intros. now apply (printed_token fmt junk show v). Qed.
Print Assumptions C96_number.
(** A matrix. Whatever follows it remains unread. *)
Theorem C96_print_csv_read_identity : forall eager fmt junk show v m M o more, wide fmt -> (64 <= length junk)%nat -> printed fmt junk show ->
  holds v m M -> Forall (Forall (value_in fmt)) M -> 1 <= rows v ->
  o = default_opts /\ cols v <> 1 \/
  o = Opts (bytes ",") [] [10] [] [10] 0 32 false false ->
  exists text st', print_csv_impl show v m o [] = Ok text /\
    csv_read eager (from_chars_wide fmt) 44 (Z.to_nat (rows v)) (Z.to_nat (cols v)) (open (text ++ more)) = Ok (M, st') /\ at_text st' more.
Proof.
  intros eager fmt junk show v m M o more Hf Hj Hsh HM HF Hr Ho. pose proof HM as (L1 & L2 & _).
  assert (HN : M <> []) by (intros ->; cbn in L1; lia).
  assert (Ht : print_csv_impl show v m o [] = Ok (document 44 (map (fun row => (map show row, false)) M))).
  { rewrite <- document_of by auto. destruct Ho as [[-> Hc]| ->].
    - destruct (Z.eq_dec (rows v) 1) as [R|R].
      + rewrite (proj1 (C49_csv_layout fp show v m M default_opts [] HM)) by (cbn; auto). f_equal. unfold one_line. cbn [default_opts indent indent_char start delimiter end_ repeat app].
        destruct M as [|row [|row2 M']]; cbn [length] in L1; try lia. cbn [map List.concat line_per_row joined app]. now rewrite app_nil_r.
      + rewrite (proj2 (C49_csv_layout fp show v m M default_opts [] HM)) by (cbn; intuition). reflexivity.
    - rewrite (proj2 (C49_csv_layout fp show v m M _ [] HM)) by (cbn; intuition discriminate). reflexivity. }
  exists (document 44 (map (fun row => (map show row, false)) M)).
  assert (Tok0 := fun x Hx => printed_token fmt junk show x Hf Hx Hj Hsh).
  assert (Tok : forall x, value_in fmt x -> value_of (from_chars_wide fmt) (show x) = Some x /\ ~ In 44 (show x) /\ ~ In newline (show x) /\ (length (show x) < 64)%nat).
  { intros x Hx. destruct (Tok0 x Hx) as (T1 & T2 & T3 & T4). split; [exact T1|]. split; [intros K; apply T4 in K; lia|]. split; [intros K; apply T4 in K; unfold newline in K; lia|exact T2]. }
  destruct (C44_matrix_of_fields eager fp (from_chars_wide fmt) 44 (Z.to_nat (cols v)) (map (fun row => (map show row, false)) M) M more) as (st' & E & At).
  - apply wide_separates; [destruct Hf as (? & _); lia|reflexivity|discriminate].
  - clear Ht HM L1 Hr HN. induction M as [|row M' IH]; cbn [map]; constructor.
    + inversion HF as [|? ? F1 F2]; subst. inversion L2 as [|? ? W1 W2]; subst. split; [|split; [rewrite map_length; lia|split; [reflexivity|]]].
      * clear - F1 Tok. induction F1 as [|x row Hx Hrow IH2]; cbn [map]; constructor; [now apply Tok|exact IH2].
      * intros (body & Eb). unfold line_of in Eb. rewrite app_nil_r in Eb. destruct F1 as [|x row Hx Hrow]; [discriminate Eb|].
        destruct (Tok0 x Hx) as (_ & _ & Nx & Hc). cbn [map Csv_Props.join] in Eb.
        destruct (show x) as [|c t]; [congruence|]. assert (c = hash) by (destruct (map show row); cbn in Eb; injection Eb as -> _; reflexivity). subst c.
        specialize (Hc hash (or_introl eq_refl)). unfold hash in Hc. lia.
    + apply IH; [now inversion HF|now inversion L2].
  - exists st'. split; [exact Ht|]. rewrite map_length in E. replace (Z.to_nat (rows v)) with (length M) by lia. auto.
Qed.
Print Assumptions C96_print_csv_read_identity.
(** Different complex numbers are printed differently. *)
Theorem C96_complex : forall fmt junk show z z', wide fmt -> (64 <= length junk)%nat -> printed fmt junk show ->
  value_in fmt (fst z) -> value_in fmt (snd z) -> value_in fmt (fst z') -> value_in fmt (snd z') ->
  show (fst z) ++ bytes " + " ++ show (snd z) ++ bytes "j" = show (fst z') ++ bytes " + " ++ show (snd z') ++ bytes "j" -> z = z'.
Proof.
  intros fmt junk show [a b] [a' b'] H Hj Hs Ha Hb Ha' Hb' E. cbn [fst snd] in *.
  assert (Tok0 := fun x Hx => printed_token fmt junk show x H Hx Hj Hs).
  assert (Sp : forall v, value_in fmt v -> ~ In 32 (show v)) by (intros v Hv K; apply (Tok0 v Hv) in K; lia).
  assert (Cut : forall (x y x' y' : list Z), ~ In 32 x -> ~ In 32 x' -> x ++ 32 :: y = x' ++ 32 :: y' -> x = x' /\ y = y').
  { induction x as [|c x IH]; intros y [|c' x'] y' N N' K; cbn [app] in K.
    - now injection K as <-.
    - injection K as <- _. exfalso. apply N'. now left.
    - injection K as -> _. exfalso. apply N. now left.
    - injection K as <- K. destruct (IH y x' y') as [-> ->]; auto; intros Q; [apply N|apply N']; now right. }
  change (bytes " + ") with (32 :: bytes "+ ") in E. cbn [app] in E. apply Cut in E; auto. destruct E as [E1 E2]. apply app_inv_head in E2.
  apply app_inv_tail in E2.
  assert (a = a') by (pose proof (proj1 (Tok0 a Ha)) as Q; rewrite E1, (proj1 (Tok0 a' Ha')) in Q; congruence).
  assert (b = b') by (pose proof (proj1 (Tok0 b Hb)) as Q; rewrite E2, (proj1 (Tok0 b' Hb')) in Q; congruence). congruence.
Qed.
Print Assumptions C96_complex.

(** ** strtold instead of std::from_chars *)
(** As C76 for the formats up to double: on a text without leading white space, plus sign or hexadecimal number, what
    strtof, strtod, strtold read is what std::from_chars reads; the reverse for zeros, infinities, nans and numbers
    above the smallest normal one. *)
Theorem C96_strtold_partial : forall fmt s, wide fmt ->
  ~ starts_with space s -> ~ starts_with (eq 43) s -> ~ hexadecimal s ->
  (forall v k, from_chars_stod fmt s = FpNumber v k -> from_chars_wide fmt s = Some (v, k)) /\
  (forall v k, from_chars_wide fmt s = Some (v, k) -> zero_or_normal fmt v -> from_chars_stod fmt s = FpNumber v k).
Proof.
  intros fmt s H N1 N2 N3. assert (P2 : 2 <= prec fmt) by apply H. pose proof (strtod_plain s N1 N2 N3) as ST. unfold from_chars_stod, from_chars_wide.
  destruct (match eat 45 s with Some t => (true, t) | None => (false, s) end) as [neg t]. rewrite ST. clear ST.
  destruct (strip_prefix (bytes "infinity") t) as [r|]; [split; intros v k E; [|intros _]; injection E as <- <-; reflexivity|].
  destruct (strip_prefix (bytes "inf") t) as [r|]; [split; intros v k E; [|intros _]; injection E as <- <-; reflexivity|].
  destruct (strip_prefix (bytes "nan") t) as [r|]; [split; intros v k E; [|intros _]; injection E as <- <-; reflexivity|].
  destruct (scan_decimal t) as [[x r]|] eqn:Sd; [|split; intros v k E; discriminate E].
  apply scan_decimal_at in Sd as (m & e & -> & U & M0). set (a := (IZR m * powerRZ 10 e)%R).
  assert (A0 : (0 <= a)%R) by (apply Rmult_le_pos; [apply IZR_le; lia|apply powerRZ_le; lra]). split.
  - intros v k. destruct (overflows fmt a) eqn:O; [discriminate|]. destruct (underflows fmt a) eqn:Un; [discriminate|]. cbn [orb]. intros K. injection K as <- <-.
    assert (C : convert fmt neg m e = Some (Fin neg (round radix2 (fexp fmt) ZnearestE a))); [|now rewrite C].
    apply convert_spec; [exact M0|lia|]. fold a. unfold largest, smallest. rewrite !powerRZ_2. split; [now apply wide_overflows_spec|]. split; [|reflexivity].
    destruct (Z.eq_dec m 0) as [|N]; [now left|right]. apply Rnot_le_lt. intros L.
    assert (AP : (0 < a)%R) by (apply Rmult_lt_0_compat; [apply IZR_lt; lia|apply powerRZ_lt; lra]).
    rewrite (wide_underflows_tiny fmt P2 a (conj AP L)) in Un. discriminate Un.
  - intros v k. destruct (convert fmt neg m e) as [v'|] eqn:C; [|discriminate]. intros K. injection K as <- <-.
    apply convert_spec in C; [|exact M0|lia]. fold a in C. destruct C as (B1 & B2 & ->). unfold largest, smallest in *. rewrite !powerRZ_2 in *. intros Zn. cbn [zero_or_normal] in Zn.
    rewrite (proj2 (wide_overflows_spec fmt a) B1).
    assert (Un : underflows fmt a = false); [|now rewrite Un].
    destruct (Z.eq_dec m 0) as [M|N].
    { unfold a. rewrite M, Rmult_0_l. now apply wide_underflows_zero. }
    destruct B2 as [B2|B2]; [congruence|]. apply wide_underflows_normal; [exact P2|]. destruct Zn as [Z0|Zn]; [exfalso|now rewrite min_normal_bpow in Zn].
    (* not zero *)
    assert (FM : generic_format radix2 (fexp fmt) (bpow radix2 (emin fmt))) by (apply generic_format_bpow; unfold fexp, FLT_exp; lia).
    assert (VE : Valid_exp (fexp fmt)) by (apply FLT_exp_valid; unfold Prec_gt_0; lia).
    destruct (round_N_pt radix2 (fexp fmt) (fun x => negb (Z.even x)) a) as [_ N1']. specialize (N1' _ FM).
    change (round radix2 (fexp fmt) (Znearest (fun x => negb (Z.even x))) a) with (nearest fmt a) in N1'. rewrite Z0 in N1'.
    assert (E2 : (bpow radix2 (emin fmt) = 2 * bpow radix2 (emin fmt - 1))%R).
    { replace (emin fmt) with (1 + (emin fmt - 1)) at 1 by lia. rewrite bpow_plus. reflexivity. }
    pose proof (bpow_gt_0 radix2 (emin fmt - 1)). revert N1'. unfold Rabs. destruct (Rcase_abs (bpow radix2 (emin fmt) - a)), (Rcase_abs (0 - a)); lra.
Qed.
Print Assumptions C96_strtold_partial.

(** ** std::float128_t printed by long double *)
Lemma cast_value ld fmt v : wide ld -> wide fmt -> prec ld <= prec fmt -> emin fmt <= emin ld -> emax ld = emax fmt -> value_in fmt v ->
  value_in ld (cast_fp ld v) /\ value_in fmt (cast_fp ld v) /\ (cast_fp ld v = v <-> value_in ld v).
Proof.
  intros Hl Hf Hp He Hx Hv. destruct v as [neg x|neg|neg]; [|cbn; tauto|cbn; tauto]. cbn [value_in] in Hv. cbn [cast_fp]. set (y := round radix2 (fexp ld) ZnearestE x).
  assert (P : 0 < prec ld) by (destruct Hl as (? & _); lia). assert (VE : Valid_exp (fexp ld)) by (apply FLT_exp_valid; exact P).
  assert (X0 : (0 <= x)%R) by apply Hv. assert (Y0 : (0 <= y)%R) by (apply round_ge_generic; try typeclasses eauto; [apply generic_format_0|exact X0]).
  destruct (wide_format fmt x Hf Hv) as [Fx Bx].
  assert (Id : value_in ld (Fin neg x) -> y = x).
  { intros Q. apply round_generic; [typeclasses eauto|]. now apply (wide_format ld). }
  destruct (Rle_dec (bpow radix2 (emax ld)) y) as [L|L].
  - split; [exact I|]. split; [exact I|]. split; [discriminate|]. intros Q. rewrite (Id Q) in L. rewrite Hx in L. lra.
  - assert (Ry : representable ld y).
    { split.
      - split; [exact Y0|]. rewrite pow_powerRZ, Z2Nat.id by (destruct Hl as (_ & _ & ? & _); lia). change (IZR 2) with 2%R. rewrite powerRZ_2. lra.
      - assert (Fy : FLT_format radix2 (emin ld) (prec ld) y) by (apply FLT_format_generic; [exact P|]; apply generic_format_round; typeclasses eauto).
        destruct Fy as [f Ef Bf Ee]. exists (Fnum f), (Fexp f). rewrite powerRZ_2. split; [exact Ef|]. split; [|exact Ee].
        assert (0 <= Fnum f) by (apply le_IZR; rewrite Ef in Y0; unfold F2R in Y0; apply Rmult_le_reg_r with (bpow radix2 (Fexp f)); [apply bpow_gt_0|lra]).
        change (Zpower radix2 (prec ld)) with (2 ^ prec ld) in Bf. lia. }
    split; [exact Ry|]. split; [|split].
    + destruct Ry as (B & mm & ee & Ey & Hm & Hee). split; [rewrite <- Hx; exact B|]. exists mm, ee. split; [exact Ey|]. split; [|lia].
      split; [lia|]. eapply Z.lt_le_trans; [apply Hm|]. apply Z.pow_le_mono_r; lia.
    + intros E. injection E as E. cbn [value_in]. now rewrite E in Ry.
    + intros Q. now rewrite (Id Q).
Qed.
(** Where the library lacks std::to_chars for std::float128_t, what is read back is the number rounded to long double;
    it is the number itself exactly if that is a number of long double. *)
Theorem C96_float128_by_long_double : forall junk v, value_in binary128 v -> (64 <= length junk)%nat ->
  value_of (from_chars_wide binary128) (show_fp_ld x87 binary128 junk v) = Some (cast_fp x87 v) /\
  (cast_fp x87 v = v <-> value_in x87 v).
Proof.
  intros junk v Hv Hj. destruct C81_formats as (W87 & W128 & _).
  destruct (cast_value x87 binary128 v W87 W128 ltac:(cbn; lia) ltac:(cbn; lia) eq_refl Hv) as (C1 & C2 & C3). split; [|exact C3].
  assert (E : show_fp_ld x87 binary128 junk v = show_fp binary128 junk (cast_fp x87 v)).
  { unfold show_fp_ld, show_fp, float_to_str_vw_ld, float_to_str_vw.
    replace (negb (signbit v) && negb (isnan v)) with (negb (signbit (cast_fp x87 v)) && negb (isnan (cast_fp x87 v))); [reflexivity|].
    destruct v as [neg x|neg|neg]; cbn [cast_fp]; [destruct (Rle_dec _ _)| |]; reflexivity. }
  rewrite E. now apply (C96_number binary128 junk (show_fp binary128 junk)); [| | |left].
Qed.
Print Assumptions C96_float128_by_long_double.
(** So different numbers are printed alike. *)
Theorem C96_float128_refuted : exists x y, x <> y /\ representable binary128 x /\ representable binary128 y /\
  forall neg junk, show_fp_ld x87 binary128 junk (Fin neg x) = show_fp_ld x87 binary128 junk (Fin neg y).
Proof.
  set (y := (1 + bpow radix2 (-112))%R). assert (B0 : (0 < bpow radix2 (-112))%R) by apply bpow_gt_0.
  assert (B1 : (bpow radix2 (-112) < 1)%R) by (apply (bpow_lt radix2 _ 0); lia).
  exists 1%R, y. split; [unfold y; lra|].
  assert (Big : (2 <= IZR 2 ^ Z.to_nat (emax binary128))%R).
  { rewrite pow_powerRZ, Z2Nat.id by (cbn; lia). rewrite powerRZ_2. apply (bpow_le radix2 1). cbn; lia. }
  split; [split; [lra|exists 1, 0; cbn; split; [lra|lia]]|]. split.
  { split; [unfold y; lra|]. exists (2 ^ 112 + 1), (-112). split; [|cbn [prec emin binary128]; lia].
    unfold y. rewrite powerRZ_2, plus_IZR. change (2 ^ 112) with (Zpower radix2 112). rewrite IZR_Zpower by lia. rewrite Rmult_plus_distr_r, <- bpow_plus. change (bpow radix2 (112 + -112)) with 1%R. lra. }
  intros neg junk. unfold show_fp_ld, float_to_str_vw_ld. cbn [signbit isnan].
  assert (VE : Valid_exp (fexp x87)) by (apply FLT_exp_valid; reflexivity).
  assert (F1 : generic_format radix2 (fexp x87) 1) by (apply (generic_format_bpow radix2 (fexp x87) 0); unfold fexp, FLT_exp; cbn; lia).
  assert (U : ulp radix2 (fexp x87) 1 = bpow radix2 (-63)).
  { rewrite ulp_neq_0 by lra. f_equal. unfold cexp, fexp, FLT_exp. rewrite (mag_unique radix2 1 1); [reflexivity|]. rewrite Rabs_pos_eq by lra. change (bpow radix2 (1 - 1)) with 1%R. change (bpow radix2 1) with 2%R. lra. }
  assert (R : round radix2 (fexp x87) ZnearestE y = 1%R).
  { apply Rle_antisym.
    - apply round_N_le_midp; try typeclasses eauto; auto. rewrite succ_eq_pos by lra. rewrite U.
      assert (L : (bpow radix2 (-112) < bpow radix2 (-64))%R) by (apply bpow_lt; lia). replace (-63) with (1 + -64) by lia. rewrite bpow_plus. change (bpow radix2 1) with 2%R. unfold y. lra.
    - apply round_ge_generic; try typeclasses eauto; auto. unfold y. lra. }
  assert (C : cast_fp x87 (Fin neg 1) = cast_fp x87 (Fin neg y)). { cbn [cast_fp]. rewrite R. now rewrite (round_generic radix2 (fexp x87) ZnearestE 1 F1). }
  now rewrite C.
Qed.
Print Assumptions C96_float128_refuted.

(** The largest and smallest numbers of long double are numbers that can be printed; the formats are those of C81. *)
Example C96_nonvacuous : wide x87 /\ wide binary128 /\ representable x87 (bpow radix2 (-16445)) /\ zero_or_normal x87 (Fin true 1) /\
  printed x87 [] (show_fp_quad x87).
Proof.
  destruct C81_formats as (W1 & W2 & _). split; [exact W1|]. split; [exact W2|]. split; [|split; [|now right]].
  - split.
    + split; [apply bpow_ge_0|]. rewrite pow_powerRZ. rewrite Z2Nat.id by (cbn; lia). rewrite powerRZ_2. apply bpow_lt. cbn; lia.
    + exists 1, (-16445). cbn [prec emin x87]. split; [rewrite powerRZ_2; lra|]. lia.
  - right. unfold min_normal. cbn [emin prec x87]. rewrite powerRZ_2. apply (bpow_lt radix2 _ 0). reflexivity.
Qed.
