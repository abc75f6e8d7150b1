(** Proofs for C69. *)
From Flocq Require Import Core Relative.
From Coq Require Import Reals Lra.
From Verif Require Import Base Bytes Duration_Spec Duration_Model Duration_Proofs Csv_Spec Csv_Model Csv_Proofs Csv_Numbers Print_Spec Print_Model Print_Ints.
From Verif Require Import FloatIO_Spec FloatIO_Model.
Local Open Scope Z_scope.

(** ** A decimal that is close enough to a number of the format is rounded to it. *)
Section Near.
Context (p emin : Z) (Hp : 0 < p).
Notation fexp := (FLT_exp emin p).
Notation F := (generic_format radix2 fexp).
Instance Hp_inst : Prec_gt_0 p := Hp.

Lemma ulp_lower x : (0 < x)%R -> (x * bpow radix2 (- p) < ulp radix2 fexp x)%R.
Proof using Hp.
  intros Hx. rewrite ulp_neq_0 by lra. unfold cexp, FLT_exp. pose proof (bpow_mag_gt radix2 x) as H. rewrite Rabs_pos_eq in H by lra.
  apply Rlt_le_trans with (bpow radix2 (mag radix2 x) * bpow radix2 (- p))%R.
  - apply Rmult_lt_compat_r; [apply bpow_gt_0|exact H].
  - rewrite <- bpow_plus. apply bpow_le. lia.
Qed.
Lemma gap_below x : F x -> (0 < x)%R -> (x * bpow radix2 (- p) <= x - pred radix2 fexp x)%R.
Proof using Hp.
  intros Fx Hx. set (y := pred radix2 fexp x).
  assert (Hy : (0 <= y)%R) by (unfold y; apply pred_ge_0; auto; typeclasses eauto).
  assert (Fy : F y) by (unfold y; apply generic_format_pred; auto; typeclasses eauto).
  assert (E : x = (y + ulp radix2 fexp y)%R).
  { rewrite <- succ_eq_pos by exact Hy. unfold y. symmetry. apply succ_pred; auto; typeclasses eauto. }
  rewrite E at 2. replace (y + ulp radix2 fexp y - y)%R with (ulp radix2 fexp y) by lra.
  destruct (Req_dec y 0) as [Z0|N].
  - rewrite E, Z0, Rplus_0_l. rewrite <- (Rmult_1_r (ulp radix2 fexp 0)) at 2. apply Rmult_le_compat_l; [apply ulp_ge_0|]. apply (bpow_le radix2 _ 0). lia.
  - rewrite ulp_neq_0 by auto. assert (Px : (x <= bpow radix2 (mag radix2 y))%R).
    { rewrite E. apply id_p_ulp_le_bpow; auto; try typeclasses eauto; try lra. pose proof (bpow_mag_gt radix2 y) as H. now rewrite Rabs_pos_eq in H by lra. }
    apply Rle_trans with (bpow radix2 (mag radix2 y) * bpow radix2 (- p))%R.
    + apply Rmult_le_compat_r; [apply bpow_ge_0|exact Px].
    + rewrite <- bpow_plus. apply bpow_le. unfold cexp, FLT_exp. lia.
Qed.
Lemma near x d q : F x -> (0 < x)%R -> (0 < q < bpow radix2 (- p))%R -> (Rabs (d - x) <= / 2 * q * x)%R ->
  ((x + pred radix2 fexp x) / 2 < d < (x + succ radix2 fexp x) / 2)%R /\ round radix2 fexp ZnearestE d = x.
Proof using Hp.
  intros Fx Hx Hq Hd. pose proof (ulp_lower x Hx) as U. pose proof (gap_below x Fx Hx) as G.
  assert (B : ((x + pred radix2 fexp x) / 2 < d < (x + succ radix2 fexp x) / 2)%R).
  { rewrite succ_eq_pos by lra. assert (Q : (q * x < bpow radix2 (- p) * x)%R) by (apply Rmult_lt_compat_r; lra). apply Rabs_le_inv in Hd. lra. }
  split; [exact B|]. apply Rle_antisym.
  - apply round_N_le_midp; try typeclasses eauto; auto. apply B.
  - apply round_N_ge_midp; try typeclasses eauto; auto. apply B.
Qed.
End Near.

(** ** The decimal *)
Lemma decimal_round_0 p : decimal_round p 0 = 0%R.
Proof. apply round_0. typeclasses eauto. Qed.
#[local] Instance prec10 p : Prec_gt_0 (Z.of_nat p + 1). Proof. unfold Prec_gt_0. lia. Qed.
Lemma decimal_round_error p x : (Rabs (decimal_round p x - x) <= / 2 * bpow radix10 (- Z.of_nat p) * Rabs x)%R.
Proof.
  pose proof (relative_error_N_FLX radix10 (Z.of_nat p + 1) ltac:(lia) (fun n => negb (Z.even n)) x) as H.
  replace (- (Z.of_nat p + 1) + 1) with (- Z.of_nat p) in H by lia. exact H.
Qed.
Lemma decimal_round_format p x : generic_format radix10 (FLX_exp (Z.of_nat p + 1)) (decimal_round p x).
Proof. apply generic_format_round; typeclasses eauto. Qed.
Lemma bpow10_Z k : 0 <= k -> bpow radix10 k = IZR (10 ^ k).
Proof. intros H. now rewrite <- IZR_Zpower. Qed.
Lemma sci_split p x d : d = decimal_round p x -> (0 <= x)%R ->
  d = (IZR (sci_digits p d) * powerRZ 10 (sci_exponent d - Z.of_nat p))%R /\ 0 <= sci_digits p d < 10 ^ (Z.of_nat p + 1) /\ (d = 0%R <-> sci_digits p d = 0).
Proof.
  intros Ed Hx. assert (Hd : (0 <= d)%R) by (rewrite Ed; apply round_ge_generic; try typeclasses eauto; auto; apply generic_format_0).
  assert (FD : generic_format radix10 (FLX_exp (Z.of_nat p + 1)) d) by (rewrite Ed; apply decimal_round_format).
  unfold sci_digits, sci_exponent. destruct (Req_EM_T d 0) as [Z0|N].
  - rewrite Z0, Rmult_0_l, Ztrunc_IZR. split; [lra|]. split; [|tauto]. split; [lia|]. apply Z.pow_pos_nonneg; lia.
  - set (e := mag radix10 d - 1). assert (C : cexp radix10 (FLX_exp (Z.of_nat p + 1)) d = e - Z.of_nat p) by (unfold cexp, FLX_exp, e; lia).
    assert (S : Ztrunc (d * bpow radix10 (Z.of_nat p - e)) = Ztrunc (scaled_mantissa radix10 (FLX_exp (Z.of_nat p + 1)) d)).
    { unfold scaled_mantissa. rewrite C. do 3 f_equal. lia. }
    assert (E : d = (IZR (Ztrunc (d * bpow radix10 (Z.of_nat p - e))) * bpow radix10 (e - Z.of_nat p))%R).
    { rewrite S. rewrite FD at 1. unfold F2R. cbn [Fnum Fexp]. now rewrite C. }
    assert (G : (d * bpow radix10 (Z.of_nat p - e))%R = IZR (Ztrunc (d * bpow radix10 (Z.of_nat p - e)))).
    { rewrite E at 1. rewrite Rmult_assoc, <- bpow_plus. replace (e - Z.of_nat p + (Z.of_nat p - e)) with 0 by lia. cbn [bpow]. lra. }
    split; [|split].
    + rewrite E at 1. f_equal. rewrite bpow_powerRZ. reflexivity.
    + assert (L : (d < bpow radix10 (e + 1))%R). { pose proof (bpow_mag_gt radix10 d) as H. rewrite Rabs_pos_eq in H by lra. unfold e. now replace (mag radix10 d - 1 + 1) with (mag radix10 d : Z) by lia. }
      split; apply le_IZR || apply lt_IZR; rewrite <- G.
      * apply Rmult_le_pos; [lra|apply bpow_ge_0].
      * rewrite <- bpow10_Z by lia. replace (Z.of_nat p + 1) with (e + 1 + (Z.of_nat p - e)) by lia. rewrite bpow_plus. apply Rmult_lt_compat_r; [apply bpow_gt_0|exact L].
    + split; [congruence|]. intros K. rewrite K in G. exfalso. apply N. apply Rmult_integral in G. destruct G as [G|G]; [exact G|]. pose proof (bpow_gt_0 radix10 (Z.of_nat p - e)). lra.
Qed.

(** ** Digits *)
Lemma fixed_length k : forall n, length (fixed k n) = k.
Proof. induction k as [|k IH]; intros n; cbn [fixed]; [reflexivity|]. rewrite app_length, IH. cbn. lia. Qed.
Lemma fixed_digits k : forall n, Forall Duration_Spec.digit (fixed k n).
Proof.
  induction k as [|k IH]; intros n; cbn [fixed]; [constructor|]. apply Forall_app. split; [apply IH|]. constructor; [|constructor].
  pose proof (Z.mod_pos_bound n 10 ltac:(lia)). unfold Duration_Spec.digit. lia.
Qed.
Lemma value_snoc d c : value (d ++ [c]) = 10 * value d + (c - 48).
Proof.
  induction d as [|x d IH]; cbn [app value]; [cbn [length]; cbn; lia|]. rewrite IH, app_length. cbn [length].
  replace (Z.of_nat (length d + 1)) with (Z.succ (Z.of_nat (length d))) by lia. rewrite Z.pow_succ_r by lia. lia.
Qed.
Lemma fixed_value k : forall n, 0 <= n < 10 ^ Z.of_nat k -> value (fixed k n) = n.
Proof.
  induction k as [|k IH]; intros n Hn; cbn [fixed]; [cbn in *; lia|]. rewrite value_snoc. replace (Z.of_nat (S k)) with (Z.succ (Z.of_nat k)) in Hn by lia. rewrite Z.pow_succ_r in Hn by lia.
  rewrite IH.
  - pose proof (Z.div_mod n 10 ltac:(lia)). lia.
  - split; [apply Z.div_pos; lia|]. apply Z.div_lt_upper_bound; lia.
Qed.
Lemma show_nat_lower n : 0 <= n -> n < 10 ^ Z.of_nat (length (show_nat n)).
Proof.
  intros H. destruct (show_nat_ok n H) as (_ & F & D & _). rewrite <- D at 1. clear D H. unfold decimal.
  revert F. generalize (show_nat n). intros d. induction d as [|c d IH] using rev_ind; intros F; [cbn; lia|].
  rewrite fold_left_app, app_length. cbn [fold_left length]. apply Forall_app in F. destruct F as [F1 F2]. specialize (IH F1). apply Forall_inv in F2.
  replace (Z.of_nat (length d + 1)) with (Z.succ (Z.of_nat (length d))) by lia. rewrite Z.pow_succ_r by lia. lia.
Qed.
Lemma exponent_text_ok e : Duration_Spec.exponent (exponent_text e) e [].
Proof.
  unfold exponent_text. set (k := Nat.max 2 _). set (d := fixed k (Z.abs e)).
  assert (V : value d = Z.abs e).
  { apply fixed_value. split; [lia|]. eapply Z.lt_le_trans; [apply show_nat_lower; lia|]. apply Z.pow_le_mono_r; lia. }
  assert (N : d <> []).
  { intros E. pose proof (fixed_length k (Z.abs e)) as L. fold d in L. rewrite E in L. cbn [length] in L. assert (2 <= k)%nat by apply Nat.le_max_l. lia. }
  assert (R : run_of_digits d []) by (split; [apply fixed_digits|intros (c & r & E & _); discriminate E]).
  replace (101 :: (if e <? 0 then 45 else 43) :: d) with (101 :: [if e <? 0 then 45 else 43] ++ d ++ []) by (cbn [app]; now rewrite app_nil_r).
  destruct (Z.ltb_spec e 0) as [L|L].
  - replace e with (if list_eq_dec Z.eq_dec [45] [45] then - value d else value d) at 1 by (destruct (list_eq_dec Z.eq_dec [45] [45]); [lia|congruence]). apply Exponent; auto.
  - replace e with (if list_eq_dec Z.eq_dec [43] [45] then - value d else value d) at 1 by (destruct (list_eq_dec Z.eq_dec [43] [45]); [congruence|lia]). apply Exponent; auto.
Qed.
Lemma no_digit_first c s : ~ Duration_Spec.digit c -> ~ starts_with Duration_Spec.digit (c :: s).
Proof. intros H (c' & r & E & K). injection E as -> ->. auto. Qed.
Lemma scientific_at p x : (0 <= x)%R -> let d := decimal_round p x in
  unsigned_at (scientific p x) (sci_digits p d) (sci_exponent d - Z.of_nat p) [].
Proof.
  intros Hx d. destruct (sci_split p x d eq_refl Hx) as (E1 & E2 & _). unfold scientific. fold d.
  pose proof (fixed_length (S p) (sci_digits p d)) as L. pose proof (fixed_digits (S p) (sci_digits p d)) as FD.
  pose proof (fixed_value (S p) (sci_digits p d)) as FV. replace (Z.of_nat (S p)) with (Z.of_nat p + 1) in FV by lia. specialize (FV E2).
  destruct (fixed (S p) (sci_digits p d)) as [|c more]; [discriminate L|]. cbn [length] in L. rewrite <- FV. inversion FD as [|? ? F1 F2]; subst.
  pose proof (exponent_text_ok (sci_exponent d)) as X.
  assert (NX : ~ starts_with Duration_Spec.digit (exponent_text (sci_exponent d))) by (apply no_digit_first; unfold Duration_Spec.digit; lia).
  destruct more as [|c2 more].
  - cbn [app]. replace (sci_exponent d - Z.of_nat p) with (sci_exponent d - Z.of_nat (length (@nil Z))) by (cbn [length] in *; lia).
    change (c :: exponent_text (sci_exponent d)) with ([c] ++ exponent_text (sci_exponent d)). change [c] with ([c] ++ []) at 2.
    apply (Unsigned [c] [] (exponent_text (sci_exponent d)) (exponent_text (sci_exponent d)) (sci_exponent d) []); auto.
    + split; auto.
    + left. split; [auto|]. split; [auto|]. intros (c' & r & E & <-). unfold exponent_text in E. discriminate E.
    + discriminate.
  - replace (sci_exponent d - Z.of_nat p) with (sci_exponent d - Z.of_nat (length (c2 :: more))) by lia.
    change (c :: (46 :: c2 :: more) ++ exponent_text (sci_exponent d)) with ([c] ++ 46 :: (c2 :: more) ++ exponent_text (sci_exponent d)). change (c :: c2 :: more) with ([c] ++ c2 :: more).
    apply (Unsigned [c] (c2 :: more) _ (exponent_text (sci_exponent d)) (sci_exponent d) []); auto.
    + split; [auto|]. apply no_digit_first. unfold Duration_Spec.digit; lia.
    + right. split; [reflexivity|]. split; auto.
    + discriminate.
Qed.

(** ** Reading back *)
Lemma powerRZ_2 k : powerRZ 2 k = bpow radix2 k.
Proof. rewrite bpow_powerRZ. reflexivity. Qed.
Lemma representable_format fmt x : supported fmt -> representable fmt x ->
  generic_format radix2 (fexp fmt) x /\ (0 <= x < bpow radix2 (emax fmt))%R.
Proof.
  intros (_ & _ & He & _) ((H0 & H1) & m & e & E & Hm & Hemin). split.
  - apply generic_format_FLT. exists (Float radix2 m e); cbn [Fnum Fexp]; auto; [|change (Zpower radix2 (prec fmt)) with (2 ^ prec fmt); lia].
    rewrite E, powerRZ_2. reflexivity.
  - split; [exact H0|]. rewrite <- (Z2Nat.id (emax fmt)) by lia. rewrite bpow_powerRZ, <- pow_powerRZ. exact H1.
Qed.
Section Roundtrip.
Context (fmt : format) (H : supported fmt).
Lemma fmt_prec : 0 < prec fmt. Proof using H. destruct H as (? & _). lia. Qed.
Instance fmt_prec_inst : Prec_gt_0 (prec fmt) := fmt_prec.
Lemma digits_enough : (0 < bpow radix10 (- Z.of_nat (max_digits10 fmt)) < bpow radix2 (- prec fmt))%R.
Proof using H.
  split; [apply bpow_gt_0|]. destruct H as (Hp & _ & _ & _ & Hd & _). rewrite !bpow_opp. apply Rinv_lt_contravar.
  - apply Rmult_lt_0_compat; apply bpow_gt_0.
  - rewrite <- (IZR_Zpower radix2) by lia. rewrite bpow10_Z by lia. apply IZR_lt. exact Hd.
Qed.
(** With p >= max_digits10 digits behind the first, the decimal is read as the number. *)
Lemma decimal_reads p x : representable fmt x -> (0 < x)%R -> (max_digits10 fmt <= p)%nat -> let d := decimal_round p x in
  round radix2 (fexp fmt) ZnearestE d = x /\ (bpow radix2 (emin fmt - 1) < d < bpow radix2 (emax fmt) - bpow radix2 (emax fmt - prec fmt - 1))%R.
Proof using H.
  intros Hr Hx Hp d. destruct (representable_format fmt x H Hr) as [Fx Bx].
  assert (Q : (0 < bpow radix10 (- Z.of_nat p) < bpow radix2 (- prec fmt))%R).
  { split; [apply bpow_gt_0|]. eapply Rle_lt_trans; [apply (bpow_le radix10 _ (- Z.of_nat (max_digits10 fmt))); lia|apply digits_enough]. }
  pose proof (decimal_round_error p x) as Er. fold d in Er. rewrite (Rabs_pos_eq x) in Er by lra.
  destruct (near (prec fmt) (emin fmt) fmt_prec x d _ Fx Hx Q Er) as [[B1 B2] R]. split; [exact R|]. split.
  - eapply Rle_lt_trans; [|exact B1]. assert (P0 : (0 <= pred radix2 (fexp fmt) x)%R) by (apply pred_ge_0; auto; typeclasses eauto).
    assert (P1 : (bpow radix2 (emin fmt) <= x)%R).
    { apply (generic_format_ge_bpow radix2 (fexp fmt)); auto. intros e. unfold fexp, FLT_exp. lia. }
    unfold Z.sub. rewrite bpow_plus. change (bpow radix2 (Z.opp 1)) with (/ 2)%R. unfold fexp in P0. lra.
  - eapply Rlt_le_trans; [exact B2|]. rewrite succ_eq_pos by lra.
    destruct H as (Hp2 & _ & _ & He & _).
    assert (C : cexp radix2 (fexp fmt) x <= emax fmt - prec fmt).
    { unfold cexp, fexp, FLT_exp. assert (mag radix2 x <= emax fmt) by (apply mag_le_bpow; [lra|rewrite Rabs_pos_eq; lra]). lia. }
    assert (U : (ulp radix2 (FLT_exp (emin fmt) (prec fmt)) x <= bpow radix2 (emax fmt - prec fmt))%R) by (rewrite ulp_neq_0 by lra; now apply bpow_le).
    assert (M : (x <= bpow radix2 (emax fmt) - bpow radix2 (emax fmt - prec fmt))%R).
    { assert (Fe : fexp fmt (emax fmt) = emax fmt - prec fmt) by (unfold fexp, FLT_exp; lia).
      rewrite <- Fe, <- (pred_bpow radix2 (fexp fmt)). apply pred_ge_gt; auto; try typeclasses eauto; [|lra].
      apply generic_format_bpow. unfold fexp, FLT_exp. lia. }
    replace (emax fmt - prec fmt - 1) with (-1 + (emax fmt - prec fmt)) by lia. rewrite bpow_plus. change (bpow radix2 (-1)) with (/ 2)%R. lra.
Qed.
Lemma double_range a : (bpow radix2 (emin fmt - 1) < a < bpow radix2 (emax fmt) - bpow radix2 (emax fmt - prec fmt - 1))%R ->
  (bpow radix2 (-1075) < a < bpow radix2 1024 - bpow radix2 970)%R.
Proof using H.
  intros [A1 A2]. destruct H as (Hp & Hm & He & _). split.
  - eapply Rle_lt_trans; [|exact A1]. apply bpow_le. lia.
  - eapply Rlt_le_trans; [exact A2|]. destruct (Z.eq_dec (emax fmt) 1024) as [->|N].
    + apply Rplus_le_compat_l, Ropp_le_contravar, bpow_le. lia.
    + apply Rle_trans with (bpow radix2 1023).
      * pose proof (bpow_ge_0 radix2 (emax fmt - prec fmt - 1)). assert (bpow radix2 (emax fmt) <= bpow radix2 1023)%R by (apply bpow_le; lia). lra.
      * assert (bpow radix2 970 <= bpow radix2 1023)%R by (apply bpow_le; lia). replace 1024 with (1 + 1023) by lia. rewrite bpow_plus. change (bpow radix2 1) with 2%R. lra.
Qed.
Lemma floating_fin (neg : bool) p x : representable fmt x -> (max_digits10 fmt <= p)%nat -> let d := decimal_round p x in
  floating (to_chars (Fin neg x) p) = Some (Dec neg (sci_digits p d) (sci_exponent d - Z.of_nat p), length (to_chars (Fin neg x) p)).
Proof using H.
  intros Hr Hp d. assert (X0 : (0 <= x)%R) by apply Hr. destruct (sci_split p x d eq_refl X0) as (E1 & E2 & E3).
  assert (U := scientific_at p x X0). cbv zeta in U. fold d in U.
  assert (N : number_at (to_chars (Fin neg x) p) (Dec neg (sci_digits p d) (sci_exponent d - Z.of_nat p)) []).
  { unfold to_chars. cbn [signbit]. replace ((if neg then [45] else []) ++ scientific p x) with (if neg then 45 :: scientific p x else scientific p x) by now destruct neg.
    apply Number; [exact U| |].
    - unfold in_range. rewrite <- E1. destruct (Req_dec x 0) as [->|Nx].
      + assert (D0 : d = 0%R) by apply decimal_round_0. rewrite D0 at 1. split; [|left; now apply E3].
        assert (bpow radix2 970 < bpow radix2 1024)%R by (apply bpow_lt; lia). lra.
      + destruct (decimal_reads p x Hr ltac:(lra) Hp) as [_ B]. apply double_range in B. fold d in B. split; [apply B|right; apply B].
    - intros _ (c & r & E & C). apply unsigned_first in U. destruct U as (c' & r' & E' & U). rewrite E in E'. injection E' as <- _. cbv beta in U. unfold Duration_Spec.digit in U. lia. }
  apply from_chars_complete in N. unfold floating. rewrite N. cbn [length]. now rewrite Nat.sub_0_r.
Qed.
Lemma from_chars_to_chars p v : value_in fmt v -> (max_digits10 fmt <= p)%nat -> from_chars_fp fmt (to_chars v p) = Some (v, length (to_chars v p)).
Proof using H.
  intros Hv Hp. destruct v as [neg x|neg|neg].
  - cbn [value_in] in Hv. assert (X0 : (0 <= x)%R) by apply Hv. unfold from_chars_fp. rewrite (floating_fin neg p x Hv Hp). set (d := decimal_round p x).
    destruct (sci_split p x d eq_refl X0) as (E1 & E2 & E3). rewrite <- E1.
    replace (match to_chars (Fin neg x) p with [] => false | c :: _ => c =? 45 end) with neg.
    2: { assert (U := scientific_at p x X0). cbv zeta in U. apply unsigned_first in U. destruct U as (c & r & E & C). unfold to_chars. cbn [signbit]. rewrite E. destruct neg; cbn [app]; [reflexivity|].
         symmetry. apply Z.eqb_neq. cbv beta in C. unfold Duration_Spec.digit in C. lia. }
    destruct (Req_dec x 0) as [Zx|Nx].
    + assert (D0 : d = 0%R) by (unfold d; rewrite Zx; apply decimal_round_0). rewrite (proj1 E3 D0), D0, Z.eqb_refl. destruct (Rle_dec _ 0) as [L|_]; [exfalso|now rewrite Zx].
      destruct H as (Hp2 & _). assert (bpow radix2 (emax fmt - prec fmt - 1) < bpow radix2 (emax fmt))%R by (apply bpow_lt; lia). lra.
    + destruct (decimal_reads p x Hv ltac:(lra) Hp) as [R B]. fold d in R, B. destruct (Rle_dec _ d) as [L|_]; [lra|].
      assert (NM : sci_digits p d <> 0) by (intros K; apply E3 in K; pose proof (bpow_ge_0 radix2 (emin fmt - 1)); lra).
      rewrite (proj2 (Z.eqb_neq _ _) NM). destruct (Rle_dec d _) as [L|_]; [lra|]. now rewrite R.
  - destruct neg; reflexivity.
  - destruct neg; reflexivity.
Qed.
(** ** Length and characters *)
Lemma exponent_small p x : representable fmt x -> (max_digits10 fmt <= p)%nat -> Z.abs (sci_exponent (decimal_round p x)) < 1000.
Proof using H.
  intros Hr Hp. set (d := decimal_round p x). unfold sci_exponent. destruct (Req_EM_T d 0) as [Z0|N]; [lia|].
  assert (Nx : x <> 0%R) by (intros Zx; apply N; unfold d; rewrite Zx; apply decimal_round_0). assert (X0 : (0 <= x)%R) by apply Hr.
  destruct (decimal_reads p x Hr ltac:(lra) Hp) as [_ B]. fold d in B. apply double_range in B. destruct B as [B1 B2].
  assert (P1 : (bpow radix2 1024 <= bpow radix10 309)%R).
  { rewrite bpow10_Z by lia. rewrite <- (IZR_Zpower radix2) by lia. apply IZR_le. vm_compute. discriminate. }
  assert (P2 : (bpow radix10 (-400) <= bpow radix2 (-1075))%R).
  { change (-400) with (- (400)). change (-1075) with (- (1075)). rewrite (bpow_opp radix10 400), (bpow_opp radix2 1075). rewrite bpow10_Z by lia. rewrite <- (IZR_Zpower radix2) by lia. apply Rinv_le; [apply IZR_lt; reflexivity|]. apply IZR_le. vm_compute. discriminate. }
  assert (D0 : (0 < d)%R) by (pose proof (bpow_gt_0 radix2 (-1075)); lra).
  assert (U : mag radix10 d <= 309). { apply mag_le_bpow; [lra|]. rewrite Rabs_pos_eq by lra. pose proof (bpow_ge_0 radix2 970). lra. }
  assert (L : -400 < mag radix10 d). { apply mag_gt_bpow. rewrite Rabs_pos_eq by lra. lra. }
  lia.
Qed.
End Roundtrip.
Lemma show_nat_short n : 0 <= n < 1000 -> (length (show_nat n) <= 3)%nat.
Proof. intros Hn. destruct (show_nat_ok n ltac:(lia)) as (_ & _ & _ & I & _). apply I; [lia|]. change (10 ^ Z.of_nat 3) with 1000. lia. Qed.
Lemma to_chars_length v p : (forall neg x, v = Fin neg x -> Z.abs (sci_exponent (decimal_round p x)) < 1000) ->
  (length (to_chars v p) <= (if signbit v then 1 else 0) + (7 + p))%nat.
Proof.
  intros Hs. unfold to_chars. rewrite app_length. apply Nat.add_le_mono; [now destruct (signbit v)|].
  destruct v as [neg x|neg|neg]; [|cbn; lia|cbn; lia]. unfold scientific. set (d := decimal_round p x) in *. specialize (Hs neg x eq_refl). fold d in Hs.
  pose proof (fixed_length (S p) (sci_digits p d)) as L. destruct (fixed (S p) (sci_digits p d)) as [|c more]; [discriminate L|]. cbn [length] in L.
  cbn [length]. rewrite app_length. assert (X : (length (exponent_text (sci_exponent d)) <= 5)%nat).
  { unfold exponent_text. cbn [length]. rewrite fixed_length. pose proof (show_nat_short (Z.abs (sci_exponent d)) ltac:(lia)). lia. }
  destruct more; cbn [length] in *; lia.
Qed.
Lemma to_chars_chars v p c : In c (to_chars v p) -> 48 <= c <= 57 \/ c = 45 \/ c = 43 \/ c = 46 \/ 97 <= c <= 122.
Proof.
  unfold to_chars. intros K. apply in_app_or in K. destruct K as [K|K]; [destruct (signbit v); cbn in K; intuition lia|].
  assert (FX : forall k n, In c (fixed k n) -> 48 <= c <= 57) by (intros k n Q; pose proof (fixed_digits k n) as F; rewrite Forall_forall in F; exact (F c Q)).
  destruct v as [neg x|neg|neg]; [|cbn in K; intuition lia|cbn in K; intuition lia]. unfold scientific in K.
  set (d := decimal_round p x) in *. specialize (FX) as FX'. specialize (FX' (S p) (sci_digits p d)). destruct (fixed (S p) (sci_digits p d)) as [|c0 more]; [easy|].
  destruct K as [<-|K]; [left; apply FX'; now left|]. apply in_app_or in K. destruct K as [K|K].
  - destruct more as [|c1 more]; [easy|]. destruct K as [<-|K]; [lia|]. left. apply FX'. now right.
  - unfold exponent_text in K. destruct K as [<-|[<-|K]]; [lia|destruct (sci_exponent d <? 0); lia|]. left. exact (FX _ _ K).
Qed.
Lemma to_chars_nonempty v p : exists c t, to_chars v p = c :: t /\ c <> 43 /\ c <> 35.
Proof.
  destruct v as [neg x|neg|neg]; unfold to_chars; cbn [signbit].
  - destruct neg; cbn [app]; [exists 45; eexists; split; [reflexivity|lia]|]. unfold scientific. pose proof (fixed_length (S p) (sci_digits p (decimal_round p x))) as L. pose proof (fixed_digits (S p) (sci_digits p (decimal_round p x))) as F.
    destruct (fixed _ _) as [|c more]; [discriminate L|]. apply Forall_inv in F. unfold Duration_Spec.digit in F. exists c. eexists. split; [reflexivity|lia].
  - destruct neg; [exists 45|exists 105]; eexists; (split; [reflexivity|lia]).
  - destruct neg; [exists 45|exists 110]; eexists; (split; [reflexivity|lia]).
Qed.

(** ** Any precision *)
Lemma decade p x : (bpow radix10 (-400) <= x <= bpow radix10 309)%R -> Z.abs (sci_exponent (decimal_round p x)) < 1000.
Proof.
  intros [B1 B2]. set (d := decimal_round p x).
  assert (FB : forall k, generic_format radix10 (FLX_exp (Z.of_nat p + 1)) (bpow radix10 k)) by (intros k; apply generic_format_bpow; unfold FLX_exp; lia).
  assert (D1 : (bpow radix10 (-400) <= d)%R) by (apply round_ge_generic; auto; typeclasses eauto).
  assert (D2 : (d <= bpow radix10 309)%R) by (apply round_le_generic; auto; typeclasses eauto).
  assert (D0 : (0 < d)%R) by (pose proof (bpow_gt_0 radix10 (-400)); lra).
  unfold sci_exponent. destruct (Req_EM_T d 0) as [Z0|N]; [lra|].
  assert (U : mag radix10 d <= 310). { apply mag_le_bpow; [lra|]. rewrite Rabs_pos_eq by lra. eapply Rle_lt_trans; [exact D2|]. apply bpow_lt. lia. }
  assert (L : -400 < mag radix10 d). { apply mag_gt_bpow. rewrite Rabs_pos_eq by lra. exact D1. }
  lia.
Qed.
Lemma representable_decade fmt x : supported fmt -> representable fmt x -> (0 < x)%R -> (bpow radix10 (-400) <= x <= bpow radix10 309)%R.
Proof.
  intros H Hr Hx. destruct (representable_format fmt x H Hr) as [Fx Bx]. destruct H as (Hp & Hm & He & _). split.
  - apply Rle_trans with (bpow radix2 (emin fmt)).
    + apply Rle_trans with (bpow radix2 (-1074)); [|apply bpow_le; lia].
      change (-400) with (- (400)). change (-1074) with (- (1074)). rewrite (bpow_opp radix10 400), (bpow_opp radix2 1074). rewrite bpow10_Z by lia. rewrite <- (IZR_Zpower radix2) by lia. apply Rinv_le; [apply IZR_lt; reflexivity|]. apply IZR_le. vm_compute. discriminate.
    + apply (generic_format_ge_bpow radix2 (fexp fmt)); auto. intros e. unfold fexp, FLT_exp. lia.
  - apply Rle_trans with (bpow radix2 1024).
    + apply Rlt_le. eapply Rlt_le_trans; [apply Bx|]. apply bpow_le. lia.
    + rewrite bpow10_Z by lia. rewrite <- (IZR_Zpower radix2) by lia. apply IZR_le. vm_compute. discriminate.
Qed.
Lemma exponent_any fmt p x : supported fmt -> representable fmt x -> Z.abs (sci_exponent (decimal_round p x)) < 1000.
Proof.
  intros H Hr. destruct (Req_dec x 0) as [->|N].
  - rewrite decimal_round_0. unfold sci_exponent. destruct (Req_EM_T 0 0); [lia|congruence].
  - assert (0 <= x)%R by apply Hr. apply decade. apply (representable_decade fmt); auto. lra.
Qed.
Lemma decimal_half_unit p x : (0 <= x)%R -> (Rabs (decimal_round p x - x) <= / 2 * powerRZ 10 (sci_exponent (decimal_round p x) - Z.of_nat p))%R.
Proof.
  intros Hx. set (d := decimal_round p x). unfold sci_exponent. destruct (Req_EM_T d 0) as [Z0|N].
  - destruct (Req_dec x 0) as [->|Nx].
    + rewrite Z0, Rminus_0_r, Rabs_R0. apply Rmult_le_pos; [lra|]. apply powerRZ_le. lra.
    + exfalso. apply Nx. apply (eq_0_round_0_FLX radix10 (Z.of_nat p + 1) ZnearestE); exact Z0.
  - pose proof (error_le_half_ulp_round radix10 (FLX_exp (Z.of_nat p + 1)) (fun n => negb (Z.even n)) x) as E. fold ZnearestE in E.
    change (round radix10 (FLX_exp (Z.of_nat p + 1)) ZnearestE x) with d in E. rewrite ulp_neq_0 in E by auto.
    unfold cexp, FLX_exp in E. rewrite bpow_powerRZ in E. change (IZR radix10) with 10%R in E.
    replace (mag radix10 d - 1 - Z.of_nat p) with (mag radix10 d - (Z.of_nat p + 1)) by lia. exact E.
Qed.
Lemma first_digit p x : (0 < x)%R -> 10 ^ Z.of_nat p <= sci_digits p (decimal_round p x).
Proof.
  intros Hx. set (d := decimal_round p x). destruct (sci_split p x d eq_refl ltac:(lra)) as (E1 & E2 & E3).
  assert (N : d <> 0%R). { intros Z0. assert (x = 0%R) by (apply (eq_0_round_0_FLX radix10 (Z.of_nat p + 1) ZnearestE); exact Z0). lra. }
  assert (D0 : (0 <= d)%R) by (apply round_ge_generic; try typeclasses eauto; [apply generic_format_0|lra]).
  assert (L : (bpow radix10 (mag radix10 d - 1) <= d)%R). { pose proof (bpow_mag_le radix10 d N) as Q. now rewrite Rabs_pos_eq in Q. }
  apply le_IZR. rewrite <- bpow10_Z by lia. unfold sci_exponent in *. destruct (Req_EM_T d 0) as [Z0|_]; [congruence|].
  apply Rmult_le_reg_r with (bpow radix10 (mag radix10 d - 1 - Z.of_nat p)); [apply bpow_gt_0|].
  rewrite <- bpow_plus. replace (Z.of_nat p + (mag radix10 d - 1 - Z.of_nat p)) with (mag radix10 d - 1) by lia.
  eapply Rle_trans; [exact L|]. rewrite E1 at 1. rewrite bpow_powerRZ. apply Rle_refl.
Qed.
