From Flocq Require Import Core.
From Coq Require Import Reals Lra.
From Verif Require Import Base Bytes Duration_Model Duration_Spec Duration_Proofs Csv_Numbers FloatIO_Model FloatIO_Spec FloatIO_Proofs
  FromChars_Model Stod_Model Stod_Spec.
Local Open Scope Z_scope.

(** ** Scanning *)
Lemma isspace_spec c : isspace c = true <-> space c.
Proof.
  unfold isspace, space. rewrite orb_true_iff, andb_true_iff, Z.eqb_eq, !Z.leb_le. reflexivity.
Qed.
Lemma skip_space_blanks b s n : Forall space b -> ~ starts_with space s -> fst (skip_space (b ++ s) n) = s.
Proof.
  intros Fb Hs. revert n. induction Fb as [|c b Hc Fb IH]; intros n; cbn [app].
  - destruct s as [|c s]; [reflexivity|]. cbn [skip_space]. destruct (isspace c) eqn:E; [|reflexivity].
    apply isspace_spec in E. exfalso. apply Hs. exists c, s. auto.
  - cbn [skip_space]. apply isspace_spec in Hc. rewrite Hc. apply IH.
Qed.
Lemma skip_space_none s : ~ starts_with space s -> fst (skip_space s 0) = s.
Proof. intros H. apply (skip_space_blanks [] s 0); auto. Qed.

Lemma digit_of_hex c : digit_of c <? 16 = true <-> is_hex c.
Proof.
  unfold digit_of, is_hex. rewrite Z.ltb_lt. split.
  - destruct ((48 <=? c) && (c <=? 57)) eqn:E1.
    { apply andb_true_iff in E1 as [A B]. apply Z.leb_le in A, B. intros _. exists (c - 48). replace c with (48 + (c - 48)) at 1 by lia. constructor. lia. }
    destruct ((97 <=? c) && (c <=? 122)) eqn:E2.
    { apply andb_true_iff in E2 as [A B]. apply Z.leb_le in A, B. intros H. exists (c - 97 + 10). replace c with (97 + ((c - 97 + 10) - 10)) at 1 by lia. constructor. lia. }
    destruct ((65 <=? c) && (c <=? 90)) eqn:E3; [|lia].
    apply andb_true_iff in E3 as [A B]. apply Z.leb_le in A, B. intros H. exists (c - 65 + 10). replace c with (65 + ((c - 65 + 10) - 10)) at 1 by lia. apply hd_upp. lia.
  - intros (v & H). destruct H as [v H|v H|v H];
    repeat match goal with |- context [?a <=? ?b] => destruct (Z.leb_spec a b) end; cbn [andb]; lia.
Qed.
Lemma digit_of_value c v : hex_digit c v -> digit_of c = v.
Proof.
  intros [w H|w H|w H]; unfold digit_of;
    repeat match goal with |- context [?a <=? ?b] => destruct (Z.leb_spec a b) end; cbn [andb]; lia.
Qed.

(** No hexadecimal number without a digit behind 0x. *)
Lemma scan_hex_some t x : scan_hex t = Some x -> exists point d rest, t = point ++ d :: rest /\ (point = [] \/ point = [46]) /\ is_hex d.
Proof.
  unfold scan_hex. intros H. destruct t as [|c t]; [discriminate H|]. cbn [hex_digits] in H.
  destruct (digit_of c <? 16) eqn:E.
  - exists [], c, t. split; [reflexivity|]. split; [now left|]. now apply digit_of_hex.
  - cbn [eat] in H. destruct (Z.eqb_spec c 46) as [->|N]; [|discriminate H].
    destruct t as [|d t]; [discriminate H|]. cbn [hex_digits] in H. destruct (digit_of d <? 16) eqn:E'; [|discriminate H].
    exists [46], d, t. split; [reflexivity|]. split; [now right|]. now apply digit_of_hex.
Qed.
Lemma after_0x_some s t : after_0x s = Some t -> exists x, s = 48 :: x :: t /\ (x = 120 \/ x = 88).
Proof.
  destruct s as [|z [|x u]]; cbn [after_0x]; try discriminate. destruct (Z.eqb_spec z 48) as [->|]; [|discriminate].
  destruct (Z.eqb_spec x 120) as [->|]; cbn [andb orb].
  - intros H. injection H as <-. exists 120. auto.
  - destruct (Z.eqb_spec x 88) as [->|]; [|discriminate]. intros H. injection H as <-. exists 88. auto.
Qed.
Definition hex_start (s : list Z) : Prop := exists x point d rest, s = 48 :: x :: point ++ d :: rest /\ (x = 120 \/ x = 88) /\ (point = [] \/ point = [46]) /\ is_hex d.
Lemma not_hex s : ~ hex_start s ->
  match after_0x s with Some t => match scan_hex t with Some x => Some x | None => scan_decimal s end | None => scan_decimal s end = scan_decimal s.
Proof.
  intros N. destruct (after_0x s) as [t|] eqn:E; [|reflexivity]. destruct (scan_hex t) as [x|] eqn:E2; [|reflexivity].
  exfalso. apply N. apply after_0x_some in E as (y & -> & Hy). apply scan_hex_some in E2 as (p & d & r & -> & Hp & Hd).
  exists y, p, d, r. auto.
Qed.

(** std::from_chars in terms of scan_decimal. *)
Lemma from_chars_scan neg s : from_chars_unsigned neg s =
  match strip_prefix (bytes "infinity") s, strip_prefix (bytes "inf") s, strip_prefix (bytes "nan") s with
  | Some r, _, _ => FcOk Inf r
  | _, Some r, _ => FcOk Inf r
  | _, _, Some r => FcOk NaN (nan_tail r)
  | None, None, None =>
    match scan_decimal s with
    | Some (MDec m e, r) => if too_large m e || too_small m e then FcRange else FcOk (Dec neg m e) r
    | _ => FcInvalid
    end
  end.
Proof.
  unfold from_chars_unsigned, scan_decimal. destruct (strip_prefix _ s); [reflexivity|]. destruct (strip_prefix _ s); [reflexivity|]. destruct (strip_prefix _ s); [reflexivity|].
  destruct (digits s) as [ip r1]. destruct (match eat 46 r1 with Some t => digits t | None => ([], r1) end) as [fp r2].
  destruct (ip ++ fp); [reflexivity|]. destruct (scan_exponent r2). reflexivity.
Qed.
Lemma scan_decimal_at s x r : scan_decimal s = Some (x, r) -> exists m e, x = MDec m e /\ unsigned_at s m e r /\ 0 <= m.
Proof.
  unfold scan_decimal. intros H. pose proof (unsigned_sound s) as U. destruct (digits_sound s) as [[F1 _] _].
  destruct (digits s) as [ip r1]. cbn [fst] in F1.
  assert (F2 : Forall digit (fst (match eat 46 r1 with Some t => digits t | None => ([], r1) end))).
  { destruct (eat 46 r1); [apply digits_sound|constructor]. }
  destruct (match eat 46 r1 with Some t => digits t | None => ([], r1) end) as [fp r2]. cbn [fst] in F2.
  destruct (ip ++ fp) as [|c d] eqn:D; [discriminate H|]. specialize (U ltac:(discriminate)).
  assert (V : 0 <= value (c :: d)) by (rewrite <- D; apply value_nonneg; now apply Forall_app).
  destruct (scan_exponent r2) as [e0 r0]. cbn [fst snd] in U. rewrite digits_value_spec in H.
  exists (value (c :: d)), (e0 - Z.of_nat (length fp)). injection H as <- <-. auto.
Qed.
Lemma scan_decimal_complete s m e r : unsigned_at s m e r -> scan_decimal s = Some (MDec m e, r).
Proof.
  intros U. destruct (unsigned_complete s m e r U) as (ip & fp & r1 & r2 & e0 & E1 & E2 & NE & FD & -> & E3 & ->).
  unfold scan_decimal. rewrite E1, E2. destruct (ip ++ fp) as [|c d] eqn:D; [congruence|]. now rewrite E3, digits_value_spec.
Qed.

(** ** Ranges *)
Section Fmt.
Context (fmt : format) (H : supported fmt).
Instance fmt_prec_i : Prec_gt_0 (prec fmt). Proof. destruct H as (? & _). unfold Prec_gt_0. lia. Qed.
Local Notation F := (generic_format radix2 (fexp fmt)).
Local Notation rd := (round radix2 (fexp fmt) ZnearestE).
Local Notation rx := (round radix2 (FLX_exp (prec fmt)) ZnearestE).

Lemma format_min a : F a -> (0 < a)%R -> (bpow radix2 (emin fmt) <= a)%R.
Proof using H.
  intros Fa Ha. apply generic_format_ge_bpow with (2 := Ha) (3 := Fa). intros e. unfold fexp, FLT_exp. lia.
Qed.
Lemma overflows_spec a : overflows fmt a = false <-> (a < bpow radix2 (emax fmt) - bpow radix2 (emax fmt - prec fmt - 1))%R.
Proof.
  unfold overflows. destruct (Rle_dec _ a) as [L|L]; split; intros K; try discriminate; try reflexivity; lra.
Qed.
Lemma underflows_zero : underflows fmt 0 = false.
Proof using H.
  unfold underflows. destruct (Rlt_dec _ _); [|reflexivity]. destruct (Req_EM_T _ _) as [_|N]; [reflexivity|].
  exfalso. apply N. apply round_0. typeclasses eauto.
Qed.
Lemma underflows_tiny a : (0 < a <= bpow radix2 (emin fmt - 1))%R -> underflows fmt a = true.
Proof using H.
  intros [A0 A1]. unfold underflows.
  assert (X : (rx a <= bpow radix2 (emin fmt - 1))%R).
  { apply round_le_generic; try typeclasses eauto; [|exact A1]. apply generic_format_bpow. unfold FLX_exp. pose proof fmt_prec_i as P. unfold Prec_gt_0 in P. lia. }
  assert (Y : (bpow radix2 (emin fmt - 1) < bpow radix2 (emin fmt + prec fmt - 1))%R).
  { apply bpow_lt. pose proof fmt_prec_i as P. unfold Prec_gt_0 in P. lia. }
  destruct (Rlt_dec _ _) as [_|L]; [|lra].
  destruct (Req_EM_T (rd a) a) as [E|_]; [|reflexivity]. exfalso.
  assert (Fa : F a) by (rewrite <- E; apply generic_format_round; typeclasses eauto).
  pose proof (format_min a Fa A0) as M. assert (bpow radix2 (emin fmt - 1) < bpow radix2 (emin fmt))%R by (apply bpow_lt; lia). lra.
Qed.
(** A number that rounds to more than the smallest normal number does not underflow. *)
Lemma underflows_normal a : (bpow radix2 (emin fmt + prec fmt - 1) < rd a)%R -> underflows fmt a = false.
Proof using H.
  intros A. unfold underflows. set (N := bpow radix2 (emin fmt + prec fmt - 1)) in *.
  assert (P : 2 <= prec fmt) by apply H.
  assert (FN : F N) by (apply generic_format_bpow; unfold fexp, FLT_exp; lia).
  assert (L : (N < a)%R).
  { apply Rnot_le_lt. intros L. assert (rd a <= N)%R by (apply round_le_generic; auto; typeclasses eauto). lra. }
  assert (G : (N <= rx a)%R).
  { apply round_ge_generic; try typeclasses eauto; [|lra]. apply generic_format_bpow. unfold FLX_exp. lia. }
  destruct (Rlt_dec _ _) as [K|_]; [|reflexivity]. lra.
Qed.
(** Above half of the smallest number, nothing rounds to zero. *)
Lemma rounds_positive a : (bpow radix2 (emin fmt - 1) < a)%R -> (0 < rd a)%R.
Proof using H.
  intros A. assert (P : 2 <= prec fmt) by apply H.
  assert (Hm : (0 < bpow radix2 (emin fmt))%R) by apply bpow_gt_0.
  assert (E : (bpow radix2 (emin fmt) = 2 * bpow radix2 (emin fmt - 1))%R).
  { replace (emin fmt) with (1 + (emin fmt - 1)) at 1 by lia. rewrite bpow_plus. reflexivity. }
  assert (FM : F (bpow radix2 (emin fmt))) by (apply generic_format_bpow; unfold fexp, FLT_exp; lia).
  destruct (round_N_pt radix2 (fexp fmt) (fun x => negb (Z.even x)) a) as [_ N].
  pose proof (N _ FM) as N1. set (y := rd a) in *.
  assert (Y0 : (0 <= y)%R).
  { unfold y. apply round_ge_generic; try typeclasses eauto; [apply generic_format_0|]. assert (0 < bpow radix2 (emin fmt - 1))%R by apply bpow_gt_0. lra. }
  destruct (Req_dec y 0) as [Z0|]; [|lra]. exfalso. rewrite Z0 in N1. revert N1. unfold Rabs.
  destruct (Rcase_abs (bpow radix2 (emin fmt) - a)), (Rcase_abs (0 - a)); lra.
Qed.

(** Below the smallest normal number only the numbers of the format do not underflow. *)
Lemma underflows_inexact x d : F x -> (0 < x < bpow radix2 (emin fmt + prec fmt - 1))%R -> rd d = x -> d <> x -> underflows fmt d = true.
Proof using H.
  intros Fx [X0 X1] R N. unfold underflows. set (M := bpow radix2 (emin fmt + prec fmt - 1)) in *.
  assert (P : 2 <= prec fmt) by apply H.
  assert (FM : F M) by (apply generic_format_bpow; unfold fexp, FLT_exp; lia).
  set (e := bpow radix2 (emin fmt - 1)).
  assert (E2 : (bpow radix2 (emin fmt) = 2 * e)%R).
  { unfold e. replace (emin fmt) with (1 + (emin fmt - 1)) at 1 by lia. rewrite bpow_plus. reflexivity. }
  assert (E0 : (0 < e)%R) by apply bpow_gt_0.
  (* x <= M - 2 e *)
  assert (XM : (x <= M - 2 * e)%R).
  { assert (exists k, x = (IZR k * bpow radix2 (emin fmt))%R) as (k & Ek).
    { exists (Ztrunc (scaled_mantissa radix2 (fexp fmt) x)). rewrite Fx at 1. unfold F2R. cbn [Fnum Fexp]. do 2 f_equal.
      unfold cexp, fexp, FLT_exp. assert (mag radix2 x <= emin fmt + prec fmt - 1); [|lia].
      apply mag_le_bpow; [lra|]. rewrite Rabs_pos_eq by lra. exact X1. }
    assert (M = IZR (2 ^ (prec fmt - 1)) * bpow radix2 (emin fmt))%R.
    { unfold M. replace (emin fmt + prec fmt - 1) with ((prec fmt - 1) + emin fmt) by lia. rewrite bpow_plus. f_equal.
      rewrite <- (IZR_Zpower radix2) by lia. reflexivity. }
    rewrite <- E2. rewrite H0, Ek in X1 |- *. apply Rmult_lt_reg_r in X1; [|apply bpow_gt_0]. apply lt_IZR in X1.
    assert (IZR k <= IZR (2 ^ (prec fmt - 1)) - 1)%R by (rewrite <- minus_IZR; apply IZR_le; lia).
    pose proof (bpow_gt_0 radix2 (emin fmt)). nra. }
  (* d is within e of x *)
  assert (D : (d <= M - e)%R).
  { apply Rnot_lt_le. intros L. destruct (round_N_pt radix2 (fexp fmt) (fun x => negb (Z.even x)) d) as [_ NN].
    pose proof (NN _ FM) as N1. rewrite R in N1. revert N1. unfold Rabs. destruct (Rcase_abs (x - d)), (Rcase_abs (M - d)); lra. }
  assert (RX : (rx d <= M - e)%R).
  { apply round_le_generic; try typeclasses eauto; [|exact D].
    replace (M - e)%R with (IZR (2 ^ prec fmt - 1) * bpow radix2 (emin fmt - 1))%R.
    - apply generic_format_FLX. exists (Float radix2 (2 ^ prec fmt - 1) (emin fmt - 1)); cbn [Fnum Fexp]; [reflexivity|].
      change (Zpower radix2 (prec fmt)) with (2 ^ prec fmt). assert (0 < 2 ^ prec fmt) by (apply Z.pow_pos_nonneg; lia). lia.
    - unfold M. replace (emin fmt + prec fmt - 1) with (prec fmt + (emin fmt - 1)) by lia. rewrite bpow_plus, minus_IZR. fold e.
      rewrite <- (IZR_Zpower radix2) by lia. change (Zpower radix2 (prec fmt)) with (2 ^ prec fmt). ring. }
  destruct (Rlt_dec _ _) as [_|K]; [|lra]. destruct (Req_EM_T _ _) as [E|_]; [|reflexivity]. congruence.
Qed.
End Fmt.
