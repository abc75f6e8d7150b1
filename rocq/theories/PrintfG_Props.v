(** C84: operator<< for TimingsCPU. C85: operator<< for __float128. *)
From Flocq Require Import Core.
From Coq Require Import Reals Lra.
From Verif Require Import Base Bytes Duration_Model Duration_Spec Print_Model FloatIO_Model FloatIO_Spec FloatIO_Proofs FloatStr_Spec PrintfG_Model PrintfG_Proofs.
From Verif Require FloatStr_Model FloatStr_Props TimersFloat_Model TimersFloat_Props TimersRange_Model TimersRange_Props.
Local Open Scope Z_scope.
Local Arguments Z.eqb : simpl never.

(** The text is a decimal number (all of it) whose value is x up to a relative error. *)
Definition shows (text : list Z) (x tolerance : R) : Prop :=
  exists m e, unsigned_at text m e [] /\ (Rabs (IZR m * powerRZ 10 e - x) <= tolerance * x)%R.
(** Right- or left-aligned in a column. *)
Definition column (w fill : Z) (left : bool) (text s : list Z) : Prop :=
  exists k, (if left then s = text ++ repeat fill k else s = repeat fill k ++ text) /\
            (k = 0%nat \/ Z.of_nat (length s) = w) /\ w <= Z.of_nat (length s).

Lemma padded_column w fill left s : 0 <= w -> column w fill left s (padded w fill left s).
Proof.
  intros Hw. exists (Z.to_nat w - length s)%nat. unfold padded.
  destruct left; (split; [reflexivity|]); rewrite app_length, repeat_length; lia.
Qed.

Lemma general_shows P x y tol : (1 <= P)%nat -> (0 <= x)%R -> (0 <= y)%R -> (Rabs (x - y) <= / 1000000 * tol * y)%R ->
  (/ 2 * bpow radix10 (- Z.of_nat (P - 1)) <= 98 / 100 * tol <= / 10)%R -> shows (general false P x) y tol.
Proof.
  intros HP Hx Hy Hd [Ht1 Ht2]. destruct (general_at false P x HP Hx) as (m & e & A & B). exists m, e. split; [exact A|]. rewrite B.
  pose proof (decimal_round_error (P - 1) x) as E. rewrite (Rabs_pos_eq x) in E by exact Hx.
  set (d := decimal_round (P - 1) x) in *. set (h := (/ 2 * bpow radix10 (- Z.of_nat (P - 1)))%R) in *.
  assert (Tp : (0 <= tol)%R). { assert (0 < h)%R by (unfold h; apply Rmult_lt_0_compat; [lra|apply bpow_gt_0]). lra. }
  assert (X : (x <= y + / 1000000 * tol * y)%R). { apply Rabs_le_inv in Hd. lra. }
  replace (d - y)%R with ((d - x) + (x - y))%R by ring. eapply Rle_trans; [apply Rabs_triang|].
  apply Rle_trans with (h * x + / 1000000 * tol * y)%R; [lra|].
  assert (h * x <= 98 / 100 * tol * (y + / 1000000 * tol * y))%R.
  { apply Rmult_le_compat; try lra. unfold h. apply Rmult_le_pos; [lra|apply Rlt_le, bpow_gt_0]. }
  assert (Q : (tol * (tol * y) <= / 9 * (tol * y))%R) by (apply Rmult_le_compat_r; [apply Rmult_le_pos; assumption|lra]).
  assert (Q2 : (0 <= tol * y)%R) by (apply Rmult_le_pos; assumption). lra.
Qed.

Section Pct.
Local Notation F := (TimersFloat_Model.Flt 53 (-1074)).
Local Notation rnd := (TimersFloat_Model.rnd F).
Lemma goodF : TimersFloat_Props.good F 1000000.
Proof. apply (TimersFloat_Props.float_good F 1000000); [now right|cbn; auto]. Qed.
Local Notation ms := (TimersFloat_Model.conv F 1000000).
Lemma u_lit : TimersFloat_Props.unit_roundoff F = (/ 9007199254740992)%R.
Proof. reflexivity. Qed.
Lemma ms_err n : 0 <= n -> (Rabs (ms n - IZR n / 1000000) <= / 1000000000000 * (IZR n / 1000000))%R.
Proof.
  intros Hn. eapply Rle_trans; [apply (TimersFloat_Props.conv_err F 1000000 goodF n Hn)|].
  unfold TimersFloat_Props.units. assert (0 <= IZR n)%R by now apply IZR_le. apply Rmult_le_compat_r; [lra|]. rewrite u_lit. lra.
Qed.
Lemma ms_pos n : 0 <= n -> (0 <= ms n)%R /\ (ms n = 0%R <-> n = 0).
Proof.
  intros Hn. pose proof (ms_err n Hn) as E. apply Rabs_le_inv in E. assert (0 <= IZR n)%R by now apply IZR_le.
  split; [lra|]. split.
  - intros H0. rewrite H0 in E. apply eq_IZR. lra.
  - intros ->. lra.
Qed.
Lemma rnd_near x : (/ 10 ^ 40 <= x)%R -> (Rabs (rnd x - x) <= / 1000000000000 * x)%R.
Proof.
  intros H. assert (P : (0 < / 10 ^ 40)%R) by (apply Rinv_0_lt_compat, pow_lt; lra).
  eapply Rle_trans; [apply (TimersFloat_Props.rnd_rel F 1000000 goodF)|].
  - rewrite Rabs_pos_eq by lra. eapply Rle_trans; [|exact H]. cbn [TimersFloat_Model.prec TimersFloat_Model.emin].
    apply Rle_trans with (bpow radix2 (-133)); [apply bpow_le; lia|]. change (bpow radix2 (-133)) with (/ IZR (2 ^ 133))%R.
    rewrite pow_IZR. apply Rinv_le; [apply IZR_lt; reflexivity|]. apply IZR_le. vm_compute. discriminate.
  - rewrite Rabs_pos_eq by lra. apply Rmult_le_compat_r; [lra|]. rewrite u_lit. lra.
Qed.
(** The quotient. *)
Lemma pct_err cpu wall : 0 <= cpu < 2 ^ 63 -> 0 < wall < 2 ^ 63 ->
  (0 <= rnd (rnd (100 * ms cpu) / ms wall))%R /\
  (Rabs (rnd (rnd (100 * ms cpu) / ms wall) - 100 * IZR cpu / IZR wall) <= / 50000000000 * (100 * IZR cpu / IZR wall))%R.
Proof.
  intros Hc Hw. assert (Wp : (1 <= IZR wall <= 9223372036854775808)%R) by (split; apply IZR_le; lia).
  destruct (Z.eq_dec cpu 0) as [->|Nc].
  { rewrite (proj2 (proj2 (ms_pos 0 ltac:(lia))) eq_refl). rewrite Rmult_0_r. unfold TimersFloat_Model.rnd.
    rewrite round_0 by apply valid_rnd_N. unfold Rdiv. rewrite !Rmult_0_l, round_0, Rminus_0_r, Rabs_R0, Rmult_0_r by apply valid_rnd_N. lra. }
  assert (Cp : (1 <= IZR cpu <= 9223372036854775808)%R) by (split; apply IZR_le; lia).
  pose proof (ms_err cpu ltac:(lia)) as Ec. pose proof (ms_err wall ltac:(lia)) as Ew. apply Rabs_le_inv in Ec. apply Rabs_le_inv in Ew.
  set (C := IZR cpu) in *. set (W := IZR wall) in *. set (c := ms cpu) in *. set (w := ms wall) in *.
  assert (S40 : (/ 10 ^ 40 <= / 10000000000000000000000)%R).
  { apply Rinv_le; [lra|]. rewrite pow_IZR. change (10 ^ 40)%R with (10 ^ 40)%R. apply IZR_le. vm_compute. discriminate. }
  assert (c1 : (/ 2000000 <= c)%R) by lra. assert (w1 : (0 < w <= 10000000000000)%R) by lra.
  pose proof (rnd_near (100 * c) ltac:(lra)) as E1. apply Rabs_le_inv in E1. set (y := rnd (100 * c)) in *.
  assert (Iw : (0 < / w)%R) by (apply Rinv_0_lt_compat; lra).
  assert (q1 : (/ 10000000000000000000000 <= y / w)%R).
  { unfold Rdiv. apply Rle_trans with (/ 100000 * / 10000000000000)%R; [lra|]. apply Rmult_le_compat; try lra.
    apply Rinv_le; lra. }
  pose proof (rnd_near (y / w) ltac:(lra)) as E2. apply Rabs_le_inv in E2. set (q := (y / w)%R) in *.
  assert (Yq : (y = q * w)%R) by (unfold q; field; lra).
  assert (T0 : (0 < 100 * C / W)%R). { apply Rdiv_lt_0_compat; lra. }
  set (T := (100 * C / W)%R) in *. assert (TC : (100 * C = T * W)%R) by (unfold T; field; lra).
  assert (IW : (0 < / W)%R) by (apply Rinv_0_lt_compat; lra).
  assert (U : (q <= (1 + / 100000000000) * T)%R).
  { apply Rmult_le_reg_r with (w * 1000000)%R; [lra|]. replace (q * (w * 1000000))%R with (y * 1000000)%R by (rewrite Yq; ring).
    assert (L1 : ((1 - / 1000000000000) * W <= w * 1000000)%R) by lra.
    apply Rle_trans with ((1 + / 100000000000) * T * ((1 - / 1000000000000) * W))%R; [|apply Rmult_le_compat_l; lra].
    replace ((1 + / 100000000000) * T * ((1 - / 1000000000000) * W))%R with ((1 + / 100000000000) * (1 - / 1000000000000) * (T * W))%R by ring.
    rewrite <- TC. lra. }
  assert (Lo : ((1 - / 100000000000) * T <= q)%R).
  { apply Rmult_le_reg_r with (w * 1000000)%R; [lra|]. replace (q * (w * 1000000))%R with (y * 1000000)%R by (rewrite Yq; ring).
    assert (L1 : (w * 1000000 <= (1 + / 1000000000000) * W)%R) by lra.
    apply Rle_trans with ((1 - / 100000000000) * T * ((1 + / 1000000000000) * W))%R; [apply Rmult_le_compat_l; lra|].
    replace ((1 - / 100000000000) * T * ((1 + / 1000000000000) * W))%R with ((1 - / 100000000000) * (1 + / 1000000000000) * (T * W))%R by ring.
    rewrite <- TC. lra. }
  split; [lra|]. apply Rabs_le. lra.
Qed.
End Pct.

Lemma print_ok nan_sign wall cpu o :
  print_timings [] nan_sign wall cpu o =
    (Os (precision o) 0 (fill o) (left o)
       (written o ++ padded 8 (fill o) (left o) (printf_g false 6 (millis wall)) ++ wall_label ++
        padded 8 (fill o) (left o) (printf_g false 6 (millis cpu)) ++ cpu_label ++
        padded 7 (fill o) (left o) (printf_g false 5 (percent nan_sign (millis cpu) (millis wall))) ++ bytes "%"), false).
Proof.
  assert (I : forall f o, insert f ([], o, false) = ([], f o, false)) by reflexivity.
  assert (Pt : forall s p w f l wr, put s (Os p w f l wr) = Os p 0 f l (wr ++ padded w f l s)) by reflexivity.
  assert (Pf : forall v p w f l wr, put_fp v (Os p w f l wr) = Os p 0 f l (wr ++ padded w f l (printf_g false p v))) by reflexivity.
  assert (Sw : forall v p w f l wr, setw v (Os p w f l wr) = Os p v f l wr) by reflexivity.
  assert (Sp : forall v p w f l wr, set_precision v (Os p w f l wr) = Os v w f l wr) by reflexivity.
  destruct o as [p w f l wr]. cbn [precision fill left written].
  assert (Z0 : forall s, padded 0 f l s = s).
  { intros s. unfold padded. cbn [Z.to_nat minus repeat]. destruct l; [apply app_nil_r|reflexivity]. }
  unfold print_timings. cbn [precision]. rewrite Sp, I, Sw, Pf, I, Pt, Z0, I, Sw, Pf, I, Pt, Z0. cbv beta iota.
  rewrite Sp, I, Sw, Pf, I, Pt, Z0. cbv beta iota. rewrite Sp, <- !app_assoc. reflexivity.
Qed.

(** C84: for all times and every state of the stream: three columns; the wall and CPU times in milliseconds with six
    significant digits, their quotient with five; precision restored, width reset. *)
Theorem C84_timings_text :
  forall nan_sign wall cpu o, 0 <= wall < 2 ^ 63 -> 0 <= cpu < 2 ^ 63 ->
  exists w c p w' c' p',
    print_timings [] nan_sign wall cpu o =
      (Os (precision o) 0 (fill o) (left o)
          (written o ++ w' ++ bytes " ms (wall) " ++ [226; 148; 128] ++ bytes " " ++ c' ++ bytes " ms (CPU) " ++ [226; 148; 128] ++ bytes " " ++ p' ++ bytes "%"), false) /\
    column 8 (fill o) (left o) w w' /\ column 8 (fill o) (left o) c c' /\ column 7 (fill o) (left o) p p' /\
    shows w (IZR wall / 1000000) (52 / 10000000) /\ shows c (IZR cpu / 1000000) (52 / 10000000) /\
    (0 < wall -> shows p (100 * IZR cpu / IZR wall) (52 / 1000000)) /\
    (wall = 0 -> 0 < cpu -> p = bytes "inf") /\ (wall = 0 -> cpu = 0 -> p = bytes "nan" \/ p = bytes "-nan").
Proof.
  intros ns wall cpu o Hw Hc. rewrite print_ok.
  assert (T : forall n, 0 <= n -> shows (printf_g false 6 (millis n)) (IZR n / 1000000) (52 / 10000000)).
  { intros n Hn. unfold printf_g, millis. cbn [signbit]. replace (n <? 0) with false by lia. cbn [app]. change (significant 6) with 6%nat.
    rewrite Z.abs_eq by exact Hn. assert (0 <= IZR n)%R by now apply IZR_le.
    apply general_shows; [lia|apply ms_pos, Hn|lra|eapply Rle_trans; [apply ms_err, Hn|]; lra|].
    change (bpow radix10 (- Z.of_nat (6 - 1))) with (/ 100000)%R. lra. }
  set (w := printf_g false 6 (millis wall)) in *. set (c := printf_g false 6 (millis cpu)) in *.
  remember (printf_g false 5 (percent ns (millis cpu) (millis wall))) as p eqn:Ep.
  assert (Tw : shows w (IZR wall / 1000000) (52 / 10000000)) by (apply T; lia).
  assert (Tc : shows c (IZR cpu / 1000000) (52 / 10000000)) by (apply T; lia).
  clearbody w c. exists w, c, p, (padded 8 (fill o) (left o) w), (padded 8 (fill o) (left o) c), (padded 7 (fill o) (left o) p).
  split; [unfold wall_label, cpu_label; rewrite <- !app_assoc; reflexivity|].
  split; [apply padded_column; lia|]. split; [apply padded_column; lia|]. split; [apply padded_column; lia|].
  split; [exact Tw|]. split; [exact Tc|]. subst p. unfold millis, percent. rewrite !Z.abs_eq by lia. replace (cpu <? 0) with false by lia. replace (wall <? 0) with false by lia.
  destruct (ms_pos wall ltac:(lia)) as [W0 W1]. destruct (ms_pos cpu ltac:(lia)) as [C0 C1].
  destruct (Req_EM_T _ 0) as [Ew|Ew]; [apply W1 in Ew|rewrite W1 in Ew].
  - split; [lia|]. destruct (Req_EM_T _ 0) as [Ec|Ec]; [apply C1 in Ec|rewrite C1 in Ec].
    + split; [lia|]. intros _ _. destruct ns; [right|left]; reflexivity.
    + split; [reflexivity|lia].
  - split; [|split; lia]. intros _. destruct (pct_err cpu wall Hc ltac:(lia)) as [P0 P1].
    unfold printf_g. cbn [xorb signbit app]. change (significant 5) with 5%nat.
    assert (Wp : (1 <= IZR wall)%R) by (apply IZR_le; lia). assert (Cp : (0 <= IZR cpu)%R) by (apply IZR_le; lia).
    assert (T0 : (0 <= 100 * IZR cpu / IZR wall)%R).
    { unfold Rdiv. apply Rmult_le_pos; [lra|]. apply Rlt_le, Rinv_0_lt_compat. lra. }
    apply general_shows; [lia|exact P0|exact T0|eapply Rle_trans; [exact P1|]; lra|].
    change (bpow radix10 (- Z.of_nat (5 - 1))) with (/ 10000)%R. lra.
Qed.
Print Assumptions C84_timings_text.

(** C84 refuted for streams that throw: whichever insertion does, the precision is not restored. *)
Theorem C84_exception_refuted :
  forall k nan_sign wall cpu o, (k < 6)%nat ->
  exists o', print_timings (repeat false k ++ [true]) nan_sign wall cpu o = (o', true) /\
             precision o' = (if (k <? 4)%nat then 6 else 5).
Proof.
  intros k ns wall cpu o Hk.
  do 6 (destruct k as [|k]; [eexists; split; [reflexivity|reflexivity]|]). lia.
Qed.
Print Assumptions C84_exception_refuted.

(** ** C85 *)
(** The number of significant digits for a precision of the stream. *)
Definition digits_shown (precision : Z) : Z := if precision <? 0 then 6 else Z.max 1 precision.
Definition int_range (p : Z) : Prop := - 2 ^ 31 <= p < 2 ^ 31.

Lemma significant_shown p : Z.of_nat (significant p) = digits_shown p.
Proof. unfold significant, digits_shown. destruct (Z.ltb_spec p 0); lia. Qed.
Lemma significant_pos p : (1 <= significant p)%nat.
Proof. unfold significant. destruct (p <? 0); lia. Qed.

Lemma quad_length neg x p : representable FloatStr_Model.binary128 x ->
  (length (printf_g true p (Fin neg x)) <= (if neg then 1 else 0) + (significant p + 7))%nat.
Proof.
  intros Hr. unfold printf_g. cbn [signbit]. rewrite app_length, general_alt_length by apply significant_pos.
  set (X := sci_exponent _). assert (Z.abs X < 10000).
  { apply (FloatStr_Props.wide_exponent FloatStr_Model.binary128); [apply FloatStr_Props.C81_formats|exact Hr]. }
  pose proof (FloatStr_Props.exponent_length X H) as L. unfold room in L.
  assert (length (exponent_text X) <= 6)%nat by (destruct (Z.abs X <? 100), (Z.abs X <? 1000); lia).
  apply Nat.add_le_mono; [destruct neg; cbn; lia|]. destruct (_ || _) eqn:E; [lia|]. apply orb_false_iff in E as [E _]. apply Z.ltb_ge in E.
  destruct (0 <=? X); lia.
Qed.

(** Up to 119 digits the whole number is written: the nearest decimal. *)
Theorem C85_nearest_decimal :
  forall dbg neg x o, representable FloatStr_Model.binary128 x -> int_range (precision o) -> digits_shown (precision o) <= 119 ->
  exists text m e column_,
    print_quad dbg (Fin neg x) o = Ok (Os (precision o) 0 (fill o) (left o) (written o ++ column_)) /\
    (0 <= width o -> column (width o) (fill o) (left o) ((if neg then [45] else []) ++ text) column_) /\
    unsigned_at text m e [] /\
    (Rabs (IZR m * powerRZ 10 e - x) <= / 2 * powerRZ 10 (1 - digits_shown (precision o)) * x)%R.
Proof.
  intros dbg neg x o Hr Hp Hd. assert (X0 : (0 <= x)%R) by apply Hr.
  unfold print_quad. rewrite TimersRange_Props.wrap_id by (try lia; exact Hp).
  pose proof (quad_length neg x (precision o) Hr) as L. pose proof (significant_shown (precision o)) as S.
  replace (length (printf_g true (precision o) (Fin neg x)) <? 128)%nat with true by (symmetry; apply Nat.ltb_lt; destruct neg; lia).
  destruct (general_at true (significant (precision o)) x (significant_pos _) X0) as (m & e & A & B).
  do 4 eexists. split; [unfold put; reflexivity|]. split; [intros W; apply padded_column; exact W|]. split; [exact A|].
  rewrite B. pose proof (decimal_round_error (significant (precision o) - 1) x) as E. rewrite (Rabs_pos_eq x) in E by exact X0.
  rewrite bpow_powerRZ in E. change (IZR radix10) with 10%R in E.
  replace (1 - digits_shown (precision o)) with (- Z.of_nat (significant (precision o) - 1)); [exact E|].
  pose proof (significant_pos (precision o)). lia.
Qed.
Print Assumptions C85_nearest_decimal.

(** Infinities and nans. *)
Theorem C85_special :
  forall dbg neg o,
    print_quad dbg (Infty neg) o = Ok (put (if neg then bytes "-inf" else bytes "inf") o) /\
    print_quad dbg (Nan neg) o = Ok (put (if neg then bytes "-nan" else bytes "nan") o).
Proof. intros dbg [] o; split; reflexivity. Qed.
Print Assumptions C85_special.

(** C85 refuted for higher precisions: every number that needs an exponent loses it (in builds without assertions;
    with them the program ends): what is written is a number from 1 to 10. *)
Theorem C85_exponent_lost_refuted :
  forall neg x o, (0 < x)%R -> int_range (precision o) -> 126 <= precision o ->
    (x < / 2 * powerRZ 10 (-4) \/ powerRZ 10 (precision o) <= x)%R -> width o = 0 ->
  print_quad true (Fin neg x) o = Abort /\
  exists text m e,
    print_quad false (Fin neg x) o = Ok (Os (precision o) 0 (fill o) (left o) (written o ++ (if neg then [45] else []) ++ text)) /\
    unsigned_at text m e [] /\ (1 <= IZR m * powerRZ 10 e < 10)%R.
Proof.
  intros neg x o Hx Hp H126 Hlarge Hwd. unfold print_quad. rewrite TimersRange_Props.wrap_id by (try lia; exact Hp).
  set (P := significant (precision o)). assert (EP : Z.of_nat P = precision o).
  { unfold P. rewrite significant_shown. unfold digits_shown. replace (precision o <? 0) with false by lia. lia. }
  set (d := decimal_round (P - 1) x). set (X := sci_exponent d).
  destruct (sci_split (P - 1) x d eq_refl ltac:(lra)) as (E1 & E2 & E3). pose proof (first_digit (P - 1) x Hx) as FDg. fold d in FDg.
  set (n := sci_digits (P - 1) d) in *. fold X in E1.
  assert (FB : forall k, generic_format radix10 (FLX_exp (Z.of_nat (P - 1) + 1)) (bpow radix10 k)) by (intros k; apply generic_format_bpow; unfold FLX_exp; lia).
  assert (VE : Valid_exp (FLX_exp (Z.of_nat (P - 1) + 1))) by (apply FLX_exp_valid; unfold Prec_gt_0; lia).
  assert (Hd : d <> 0%R).
  { intros D0. apply E3 in D0. pose proof (Z.pow_pos_nonneg 10 (Z.of_nat (P - 1)) ltac:(lia) ltac:(lia)). lia. }
  assert (Dp : (0 < d)%R).
  { assert (0 <= d)%R by (apply round_ge_generic; auto; [apply valid_rnd_N|apply generic_format_0|lra]). lra. }
  assert (EX : X = mag radix10 d - 1) by (unfold X, sci_exponent; destruct (Req_EM_T d 0); [contradiction|reflexivity]).
  assert (SciX : (X <? -4) || (Z.of_nat P <=? X) = true).
  { apply orb_true_iff. destruct Hlarge as [Hs|Hl].
    - left. apply Z.ltb_lt. pose proof (decimal_round_error (P - 1) x) as Er. fold d in Er. rewrite (Rabs_pos_eq x) in Er by lra. apply Rabs_le_inv in Er.
      assert (B1 : (bpow radix10 (- Z.of_nat (P - 1)) <= 1)%R) by (change 1%R with (bpow radix10 0); apply bpow_le; lia).
      assert (d < bpow radix10 (-4))%R.
      { rewrite bpow_powerRZ. change (IZR radix10) with 10%R. assert (/ 2 * bpow radix10 (- Z.of_nat (P - 1)) * x <= / 2 * x)%R by (apply Rmult_le_compat_r; lra). lra. }
      assert (mag radix10 d <= -4) by (apply mag_le_bpow; [exact Hd|rewrite Rabs_pos_eq by lra; assumption]). lia.
    - right. apply Z.leb_le. assert (bpow radix10 (precision o) <= d)%R.
      { apply round_ge_generic; auto; [apply valid_rnd_N|]. rewrite bpow_powerRZ. exact Hl. }
      assert (precision o < mag radix10 d) by (apply mag_gt_bpow; rewrite Rabs_pos_eq by lra; assumption). lia. }
  assert (G : exists c more, length more = (P - 1)%nat /\ Forall Duration_Spec.digit (c :: more) /\ value (c :: more) = n /\
     general true P x = c :: 46 :: more ++ exponent_text X).
  { unfold general. fold d. fold X. fold n. rewrite SciX. pose proof (fixed_length P n) as L. pose proof (fixed_digits P n) as FD.
    pose proof (fixed_value P n ltac:(replace (Z.of_nat (P - 1) + 1) with (Z.of_nat P) in E2 by lia; exact E2)) as FV.
    destruct (fixed P n) as [|c more]; [cbn in L; lia|]. exists c, more. cbn [length] in L. split; [lia|]. auto. }
  destruct G as (c & more & Lm & Fm & Vm & Gm).
  assert (Pg : printf_g true (precision o) (Fin neg x) = (if neg then [45] else []) ++ c :: 46 :: more ++ exponent_text X).
  { unfold printf_g. cbn [signbit]. fold P. now rewrite Gm. }
  assert (Le : (4 <= length (exponent_text X))%nat) by (unfold exponent_text; cbn [length]; rewrite fixed_length; lia).
  rewrite Pg. set (text := c :: 46 :: more ++ exponent_text X).
  assert (Lt : (128 <= length ((if neg then [45%Z] else []) ++ text))%nat).
  { rewrite app_length. unfold text. cbn [length]. rewrite app_length. lia. }
  replace (length ((if neg then [45%Z] else []) ++ text) <? 128)%nat with false by (symmetry; apply Nat.ltb_ge; exact Lt).
  split; [reflexivity|]. set (k := if neg then 124%nat else 125%nat). assert (Hk : (k <= length more)%nat) by (unfold k; destruct neg; lia).
  assert (Ft : firstn 127 ((if neg then [45] else []) ++ text) = (if neg then [45] else []) ++ c :: 46 :: firstn k more).
  { assert (Fi : forall j (r e : list Z), (j <= length r)%nat -> firstn j (r ++ e) = firstn j r).
    { intros j r e Hj. rewrite firstn_app. replace (j - length r)%nat with 0%nat by lia. cbn [firstn]. apply app_nil_r. }
    unfold text, k. destruct neg.
    - change (45 :: c :: 46 :: firstn 124 (more ++ exponent_text X) = 45 :: c :: 46 :: firstn 124 more). now rewrite Fi by (unfold k in Hk; exact Hk).
    - change (c :: 46 :: firstn 125 (more ++ exponent_text X) = c :: 46 :: firstn 125 more). now rewrite Fi by (unfold k in Hk; exact Hk). }
  rewrite Ft. assert (Fk : Forall Duration_Spec.digit (firstn k more)).
  { pose proof (Forall_inv_tail Fm) as F2. rewrite <- (firstn_skipn k more) in F2. now apply Forall_app in F2. }
  assert (Fc : Duration_Spec.digit c) by exact (Forall_inv Fm).
  exists (c :: 46 :: firstn k more). exists (value ([c] ++ firstn k more)), (0 - Z.of_nat (length (firstn k more))). split; [|split].
  - unfold put. rewrite Hwd. unfold padded. cbn [Z.to_nat]. cbn [minus repeat]. rewrite app_nil_r. destruct (left o); reflexivity.
  - pose proof (with_fraction [c] (firstn k more) [] 0 ltac:(constructor; [exact Fc|constructor]) ltac:(discriminate) Fk ltac:(left; auto)) as U.
    rewrite app_nil_r in U. exact U.
  - assert (Lk : length (firstn k more) = k) by (rewrite firstn_length; lia). rewrite Lk.
    assert (VB : forall l, Forall Duration_Spec.digit l -> 0 <= value l < 10 ^ Z.of_nat (length l)).
    { induction l as [|a l IH]; intros F; [cbn; lia|]. cbn [value length]. pose proof (Forall_inv F) as Fa. specialize (IH (Forall_inv_tail F)). unfold Duration_Spec.digit in Fa.
      replace (Z.of_nat (S (length l))) with (Z.succ (Z.of_nat (length l))) by lia. rewrite Z.pow_succ_r by lia. nia. }
    assert (C1 : 1 <= c - 48).
    { cbn [value] in Vm. rewrite Lm in Vm. pose proof (VB more (Forall_inv_tail Fm)) as B. rewrite Lm in B. unfold Duration_Spec.digit in Fc.
      destruct (Z.eq_dec c 48) as [->|]; [|lia]. lia. }
    cbn [app value]. rewrite Lk. pose proof (VB (firstn k more) Fk) as B. rewrite Lk in B. unfold Duration_Spec.digit in Fc.
    assert (Pk : powerRZ 10 (0 - Z.of_nat k) = (/ IZR (10 ^ Z.of_nat k))%R).
    { replace (0 - Z.of_nat k) with (- Z.of_nat k) by lia. rewrite powerRZ_neg' by lra. f_equal. change 10%R with (IZR radix10). rewrite <- bpow_powerRZ. now rewrite bpow10_Z by lia. }
    rewrite Pk. assert (P0 : (0 < IZR (10 ^ Z.of_nat k))%R) by (apply IZR_lt; lia).
    set (V := (c - 48) * 10 ^ Z.of_nat k + value (firstn k more)).
    assert (V1 : (IZR (10 ^ Z.of_nat k) <= IZR V)%R) by (apply IZR_le; unfold V; nia).
    assert (V2 : (IZR V < 10 * IZR (10 ^ Z.of_nat k))%R) by (rewrite <- mult_IZR; apply IZR_lt; unfold V; nia).
    split.
    + apply Rmult_le_reg_r with (IZR (10 ^ Z.of_nat k)); [exact P0|]. rewrite Rmult_assoc, Rinv_l by lra. lra.
    + apply Rmult_lt_reg_r with (IZR (10 ^ Z.of_nat k)); [exact P0|]. rewrite Rmult_assoc, Rinv_l by lra. lra.
Qed.
Print Assumptions C85_exponent_lost_refuted.

(** Nothing measured: both times are "0", the quotient is a nan. *)
Lemma general_0 P : general false (S P) 0 = [48].
Proof.
  unfold general. rewrite decimal_round_0. unfold sci_exponent, sci_digits. destruct (Req_EM_T 0 0) as [_|N]; [|congruence].
  rewrite Rmult_0_l. change 0%R with (IZR 0). rewrite Ztrunc_IZR. change (0 <? -4) with false. assert (EP : (Z.of_nat (S P) <=? 0) = false) by (apply Z.leb_gt; lia). rewrite EP.
  cbn [orb]. change (0 <=? 0) with true. cbv iota. change (Z.to_nat 0 + 1)%nat with 1%nat.
  assert (Z0 : forall k, fixed k 0 = repeat 48 k).
  { induction k as [|k IH]; [reflexivity|]. cbn [fixed]. change (0 / 10) with 0. change (48 + 0 mod 10) with 48. rewrite IH.
    clear IH. induction k as [|k IH]; [reflexivity|]. cbn [repeat app]. now f_equal. }
  rewrite Z0. cbn [repeat firstn skipn app]. unfold fraction.
  assert (S0 : strip (repeat 48 P) = []) by (induction P as [|k IH]; cbn [repeat strip]; [reflexivity|now rewrite IH]).
  now rewrite S0.
Qed.
Example C84_nonvacuous_zero :
  print_timings [] true 0 0 (Os 17 3 32 false (bytes "t: ")) =
    (Os 17 0 32 false (bytes "t:        0 ms (wall) " ++ [226; 148; 128] ++ bytes "        0 ms (CPU) " ++ [226; 148; 128] ++ bytes "    -nan%"), false).
Proof.
  rewrite print_ok. cbn [precision fill left written]. unfold millis. change (0 <? 0) with false. change (Z.abs 0) with 0.
  pose proof (proj2 (proj2 (ms_pos 0 ltac:(lia))) eq_refl) as E. rewrite E. unfold percent.
  destruct (Req_EM_T 0 0) as [_|N]; [|congruence]. unfold printf_g. cbn [signbit app]. change (significant 6) with 6%nat. rewrite general_0. reflexivity.
Qed.
(** 2.5 ms of wall time, 1 ms of CPU time. *)
Example C84_nonvacuous :
  exists w c p o', print_timings [] true 2500000 1000000 (Os 17 3 32 false []) = (o', false) /\ precision o' = 17 /\
    shows w (5 / 2) (52 / 10000000) /\ shows c 1 (52 / 10000000) /\ shows p 40 (52 / 1000000).
Proof.
  destruct (C84_timings_text true 2500000 1000000 (Os 17 3 32 false []) ltac:(lia) ltac:(lia))
    as (w & c & p & w' & c' & p' & E & _ & _ & _ & A & B & C & _).
  exists w, c, p. eexists. split; [exact E|]. split; [reflexivity|].
  replace (2500000 / 1000000)%R with (5 / 2)%R in A by lra. replace (1000000 / 1000000)%R with 1%R in B by lra.
  specialize (C ltac:(lia)). replace (100 * 1000000 / 2500000)%R with 40%R in C by lra. auto.
Qed.
(** 2^-20 (9.5e-7) with 126 digits is written as a number above 1, and correctly with 119 digits. *)
Example C85_nonvacuous :
  let x := bpow radix2 (-20) in let o p := Os p 0 32 false [] in
  representable FloatStr_Model.binary128 x /\
  (exists text m e, print_quad false (Fin true x) (o 126) = Ok (Os 126 0 32 false ([] ++ [45] ++ text)) /\ unsigned_at text m e [] /\ (1 <= IZR m * powerRZ 10 e < 10)%R) /\
  exists s, print_quad false (Fin true x) (o 119) = Ok s.
Proof.
  intros x o. assert (Hx : (x = / 1048576)%R) by reflexivity.
  assert (R : representable FloatStr_Model.binary128 x).
  { split.
    - rewrite Hx. split; [lra|]. cbn [emax FloatStr_Model.binary128]. apply Rlt_le_trans with 1%R; [lra|]. apply pow_R1_Rle. lra.
    - exists 1, (-20). split; [rewrite Rmult_1_l; unfold x; now rewrite bpow_powerRZ|]. cbn. lia. }
  split; [exact R|]. split.
  - destruct (C85_exponent_lost_refuted true x (o 126)) as (_ & t & m & e & A & B & C); [lra|unfold int_range; cbn; lia|cbn; lia| |reflexivity|].
    + left. rewrite Hx. change 10%R with (IZR radix10). rewrite <- bpow_powerRZ. change (bpow radix10 (-4)) with (/ 10000)%R. lra.
    + exists t, m, e. auto.
  - destruct (C85_nearest_decimal false true x (o 119) R) as (t & m & e & c & A & _); [unfold int_range; cbn; lia|cbn; lia|]. eauto.
Qed.
