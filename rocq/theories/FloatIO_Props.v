(** C69: floating-point numbers survive print_csv followed by csv_read. C70: float_to_str. *)
From Flocq Require Import Core.
From Coq Require Import Reals Lra.
From Verif Require Import Base Bytes MatView_Model MatView_Spec Duration_Spec Duration_Model Csv_Spec Csv_Model Csv_Proofs Csv_Numbers Csv_Props Print_Spec Print_Model Print_Proofs Print_Ints Print_Props.
From Verif Require Import FloatIO_Spec FloatIO_Model FloatIO_Proofs.
Local Open Scope Z_scope.

(** ** C69 *)
(** The formats that std::from_chars and std::to_chars support and that are not larger than double. *)
Theorem C69_formats : supported binary64 /\ supported binary32 /\ supported binary16 /\ supported bfloat16.
Proof. unfold supported. vm_compute. intuition (congruence || lia). Qed.
Print Assumptions C69_formats.

Lemma show_fp_text fmt junk v : supported fmt -> value_in fmt v -> (64 <= length junk)%nat ->
  show_fp fmt junk v = (if negb (signbit v) && negb (isnan v) then [43] else []) ++ to_chars v (max_digits10 fmt) /\ (length (show_fp fmt junk v) < 64)%nat.
Proof.
  intros H Hv Hj. unfold show_fp, float_to_str_vw, effective_precision. rewrite (proj2 (Z.ltb_ge _ _)) by lia. rewrite Nat2Z.id.
  assert (L : (length (to_chars v (max_digits10 fmt)) <= (if signbit v then 1 else 0) + (7 + max_digits10 fmt))%nat).
  { apply to_chars_length. intros neg x ->. now apply (exponent_any fmt). }
  assert (B : (max_digits10 fmt <= 50)%nat) by apply H. rewrite firstn_length.
  set (sign := if negb (signbit v) && negb (isnan v) then [43] else []).
  assert (Ls : (length sign + (if signbit v then 1 else 0) <= 1)%nat) by (unfold sign; destruct (signbit v), (isnan v); cbn; lia).
  rewrite (proj2 (Nat.leb_le _ _)) by lia. split; [reflexivity|]. rewrite app_length. lia.
Qed.
Lemma show_fp_value fmt junk v : supported fmt -> value_in fmt v -> (64 <= length junk)%nat -> value_of (from_chars_fp fmt) (show_fp fmt junk v) = Some v.
Proof.
  intros H Hv Hj. destruct (show_fp_text fmt junk v H Hv Hj) as [-> _].
  destruct (to_chars_nonempty v (max_digits10 fmt)) as (c & t & E & C1 & C2).
  assert (S : strip_plus ((if negb (signbit v) && negb (isnan v) then [43] else []) ++ to_chars v (max_digits10 fmt)) = to_chars v (max_digits10 fmt)).
  { rewrite E. destruct (negb (signbit v) && negb (isnan v)); cbn [app strip_plus]; [reflexivity|]. now rewrite (proj2 (Z.eqb_neq c plus)). }
  unfold value_of. rewrite S, (from_chars_to_chars fmt H) by auto. now rewrite Nat.eqb_refl.
Qed.
Lemma show_fp_chars fmt junk v c : supported fmt -> value_in fmt v -> (64 <= length junk)%nat -> In c (show_fp fmt junk v) -> 48 <= c <= 57 \/ c = 45 \/ c = 43 \/ c = 46 \/ 97 <= c <= 122.
Proof.
  intros H Hv Hj. destruct (show_fp_text fmt junk v H Hv Hj) as [-> _]. intros K. apply in_app_or in K. destruct K as [K|K]; [|now apply to_chars_chars in K].
  destruct (_ && _); cbn in K; intuition lia.
Qed.
Lemma show_fp_nonempty fmt junk v : supported fmt -> value_in fmt v -> (64 <= length junk)%nat -> show_fp fmt junk v <> [].
Proof.
  intros H Hv Hj. destruct (show_fp_text fmt junk v H Hv Hj) as [-> _]. destruct (to_chars_nonempty v (max_digits10 fmt)) as (c & t & -> & _). destruct (_ && _); discriminate.
Qed.
(** One number: its text, read as a CSV field, gives the same number (also the sign of zeros
    and nans, and infinities). *)
Theorem C69_number : forall fmt junk v, supported fmt -> value_in fmt v -> (64 <= length junk)%nat ->
  value_of (from_chars_fp fmt) (show_fp fmt junk v) = Some v.
Proof. exact show_fp_value. Qed.
Print Assumptions C69_number.
(** The characters in the buffer do not matter. *)
Theorem C69_buffer : forall fmt junk junk' v, supported fmt -> value_in fmt v -> (64 <= length junk)%nat -> (64 <= length junk')%nat ->
  show_fp fmt junk v = show_fp fmt junk' v.
Proof.
  intros fmt junk junk' v H Hv Hj Hj'. destruct (show_fp_text fmt junk v H Hv Hj) as [-> _]. now destruct (show_fp_text fmt junk' v H Hv Hj') as [-> _].
Qed.
Print Assumptions C69_buffer.
(** Different complex numbers are printed differently. *)
Theorem C69_complex : forall fmt junk z z', supported fmt -> value_in fmt (fst z) -> value_in fmt (snd z) -> value_in fmt (fst z') -> value_in fmt (snd z') ->
  (64 <= length junk)%nat -> show_complex fmt junk z = show_complex fmt junk z' -> z = z'.
Proof.
  intros fmt junk [a b] [a' b'] H Ha Hb Ha' Hb' Hj E. cbn [fst snd] in *. unfold show_complex in E. cbn [fst snd] in E.
  assert (Sp : forall v, value_in fmt v -> ~ In 32 (show_fp fmt junk v)) by (intros v Hv K; apply show_fp_chars in K; auto; lia).
  assert (Cut : forall (x y x' y' : list Z), ~ In 32 x -> ~ In 32 x' -> x ++ 32 :: y = x' ++ 32 :: y' -> x = x' /\ y = y').
  { induction x as [|c x IH]; intros y [|c' x'] y' N N' K; cbn [app] in K.
    - now injection K as <-.
    - injection K as <- _. exfalso. apply N'. now left.
    - injection K as -> _. exfalso. apply N. now left.
    - injection K as <- K. destruct (IH y x' y') as [-> ->]; auto; intros Q; [apply N|apply N']; now right. }
  change (bytes " + ") with (32 :: bytes "+ ") in E. cbn [app] in E. apply Cut in E; auto. destruct E as [E1 E2]. apply app_inv_head in E2.
  apply app_inv_tail in E2.
  assert (a = a') by (pose proof (show_fp_value fmt junk a H Ha Hj) as Q; rewrite E1, (show_fp_value fmt junk a' H Ha' Hj) in Q; congruence).
  assert (b = b') by (pose proof (show_fp_value fmt junk b H Hb Hj) as Q; rewrite E2, (show_fp_value fmt junk b' H Hb' Hj) in Q; congruence). congruence.
Qed.
Print Assumptions C69_complex.

Lemma from_chars_fp_separates fmt sep : number_char sep = false -> sep <> newline -> separates (from_chars_fp fmt) sep.
Proof.
  intros Hc Hn. destruct (floating_separates sep Hc Hn) as (S1 & S2 & S3 & S4). split; [auto|]. split; [auto|]. split.
  - intros s v k. unfold from_chars_fp. destruct (floating s) as [[x k']|] eqn:E; [|discriminate]. intros K. specialize (S3 s x k' E).
    enough (k' = k) by lia. destruct x as [neg m e| |]; [|congruence|congruence]. destruct (Rle_dec _ _); [discriminate|]. destruct (m =? 0); [congruence|]. destruct (Rle_dec _ _); congruence.
  - intros s t Ht. unfold from_chars_fp. rewrite (S4 s t Ht). destruct s as [|c s]; [|reflexivity]. reflexivity.
Qed.
Lemma document_of {V} (show : V -> list Z) M : M <> [] -> line_per_row [] [] [] (bytes ",") [10] [10] (map (map show) M) = document 44 (map (fun row => (map show row, false)) M).
Proof.
  intros HM. destruct M as [|first more]; [congruence|]. clear HM.
  assert (J : forall ts, joined (bytes ",") ts = line_of 44 ts false).
  { unfold line_of. intros ts. rewrite app_nil_r. induction ts as [|t [|u ts] IH]; auto. rewrite joined_more, IH. reflexivity. }
  cbn [map line_per_row app]. rewrite map_map. revert first. induction more as [|row more IH]; intros first.
  - cbn [map joined document List.concat]. unfold document. cbn [map List.concat]. rewrite app_nil_r. now rewrite J.
  - cbn [map]. rewrite joined_more. rewrite <- app_assoc. rewrite <- app_assoc. unfold document. cbn [map List.concat]. fold (document 44 (map (fun row => (map show row, false)) (row :: more))).
    rewrite <- app_assoc. rewrite J. f_equal. f_equal. cbn [map] in IH. exact (IH row).
Qed.
(** A matrix of floating-point numbers, printed and read back. Whatever is printed behind the
    matrix ([more]) remains unread. *)
Theorem C69_print_csv_read_identity : forall eager fmt junk v m M o more, supported fmt -> (64 <= length junk)%nat ->
  holds v m M -> Forall (Forall (value_in fmt)) M -> 1 <= rows v ->
  o = default_opts /\ cols v <> 1 \/
  o = Opts (bytes ",") [] [10] [] [10] 0 32 false false ->
  exists text st', print_csv_impl (show_fp fmt junk) v m o [] = Ok text /\
    csv_read eager (from_chars_fp fmt) 44 (Z.to_nat (rows v)) (Z.to_nat (cols v)) (open (text ++ more)) = Ok (M, st') /\ at_text st' more.
Proof.
  intros eager fmt junk v m M o more Hf Hj HM HF Hr Ho. pose proof HM as (L1 & L2 & _). set (show := show_fp fmt junk).
  assert (HN : M <> []) by (intros ->; cbn in L1; lia).
  assert (Ht : print_csv_impl show v m o [] = Ok (document 44 (map (fun row => (map show row, false)) M))).
  { rewrite <- document_of by auto. destruct Ho as [[-> Hc]| ->].
    - destruct (Z.eq_dec (rows v) 1) as [R|R].
      + rewrite (proj1 (C49_csv_layout fp show v m M default_opts [] HM)) by (cbn; auto). f_equal. unfold one_line. cbn [default_opts indent indent_char start delimiter end_ repeat app].
        destruct M as [|row [|row2 M']]; cbn [length] in L1; try lia. cbn [map List.concat line_per_row joined app]. now rewrite app_nil_r.
      + rewrite (proj2 (C49_csv_layout fp show v m M default_opts [] HM)) by (cbn; intuition). reflexivity.
    - rewrite (proj2 (C49_csv_layout fp show v m M _ [] HM)) by (cbn; intuition discriminate). reflexivity. }
  exists (document 44 (map (fun row => (map show row, false)) M)).
  assert (Tok : forall x, value_in fmt x -> value_of (from_chars_fp fmt) (show x) = Some x /\ ~ In 44 (show x) /\ ~ In newline (show x) /\ (length (show x) < 64)%nat).
  { intros x Hx. split; [now apply show_fp_value|]. split; [intros K; apply show_fp_chars in K; auto; lia|]. split; [intros K; apply show_fp_chars in K; auto; unfold newline in K; lia|].
    now apply show_fp_text. }
  destruct (C44_matrix_of_fields eager fp (from_chars_fp fmt) 44 (Z.to_nat (cols v)) (map (fun row => (map show row, false)) M) M more) as (st' & E & At).
  - apply from_chars_fp_separates; [reflexivity|discriminate].
  - clear Ht HM L1 Hr HN. induction M as [|row M' IH]; cbn [map]; constructor.
    + inversion HF as [|? ? F1 F2]; subst. inversion L2 as [|? ? W1 W2]; subst. split; [|split; [rewrite map_length; lia|split; [reflexivity|]]].
      * clear - F1 Tok. induction F1 as [|x row Hx Hrow IH2]; cbn [map]; constructor; [now apply Tok|exact IH2].
      * intros (body & Eb). unfold line_of in Eb. rewrite app_nil_r in Eb. destruct F1 as [|x row Hx Hrow]; [discriminate Eb|].
        pose proof (show_fp_nonempty fmt junk x Hf Hx Hj) as Nx. pose proof (fun c => show_fp_chars fmt junk x c Hf Hx Hj) as Hc. cbn [map Csv_Props.join] in Eb. fold (show x) in *. change (show_fp fmt junk x) with (show x) in *.
        destruct (show x) as [|c t]; [congruence|]. assert (c = hash) by (destruct (map show row); cbn in Eb; injection Eb as -> _; reflexivity). subst c.
        specialize (Hc hash (or_introl eq_refl)). unfold hash in Hc. lia.
    + apply IH; [now inversion HF|now inversion L2].
  - exists st'. split; [exact Ht|]. rewrite map_length in E. replace (Z.to_nat (rows v)) with (length M) by lia. auto.
Qed.
Print Assumptions C69_print_csv_read_identity.

(** Two finite numbers, minus zero, an infinity and a nan. *)
Definition example_values : list (list fp) := [[Fin false (3 / 2); Fin true 0; Infty true]; [Fin false (bpow radix2 (-1074)); Fin true (IZR (2 ^ 53 - 1)); Nan false]].
Example C69_nonvacuous : Forall (Forall (value_in binary64)) example_values.
Proof.
  assert (B : forall m e x, 0 <= m < 2 ^ 53 -> -1074 <= e <= 7 -> x = (IZR m * powerRZ 2 e)%R -> representable binary64 x).
  { intros m e x Hm He ->. split; [|exists m, e; cbn [prec emin binary64]; repeat split; lia]. rewrite powerRZ_2. split.
    - apply Rmult_le_pos; [apply IZR_le; lia|apply bpow_ge_0].
    - rewrite pow_powerRZ. rewrite Z2Nat.id by (cbn; lia). rewrite powerRZ_2. apply Rlt_le_trans with (bpow radix2 53 * bpow radix2 e)%R.
      + apply Rmult_lt_compat_r; [apply bpow_gt_0|]. change (bpow radix2 53) with (IZR (2 ^ 53)). apply IZR_lt. lia.
      + rewrite <- bpow_plus. apply bpow_le. cbn [emax binary64]. lia. }
  assert (V : value_in binary64 (Fin false (3 / 2)) /\ value_in binary64 (Fin true 0) /\ value_in binary64 (Fin false (bpow radix2 (-1074))) /\ value_in binary64 (Fin true (IZR (2 ^ 53 - 1)))).
  { cbn [value_in]. split; [|split; [|split]].
    - apply (B 3 (-1)); try lia. rewrite powerRZ_2. change (bpow radix2 (-1)) with (/ 2)%R. lra.
    - apply (B 0 0); try lia. lra.
    - apply (B 1 (-1074)); try lia. rewrite powerRZ_2. lra.
    - apply (B (2 ^ 53 - 1) 0); try lia. cbn [powerRZ]. lra. }
  destruct V as (V1 & V2 & V3 & V4). unfold example_values.
  constructor; [constructor; [exact V1|constructor; [exact V2|constructor; [exact I|constructor]]]|].
  constructor; [constructor; [exact V3|constructor; [exact V4|constructor; [exact I|constructor]]]|constructor].
Qed.
Example C69_text : to_chars (Fin false (3 / 2)) 17 = bytes "1.50000000000000000e+00" /\ to_chars (Fin true 0) 2 = bytes "-0.00e+00".
Proof.
  split.
  - unfold to_chars, scientific. cbn [signbit app].
    assert (M : mag radix10 (3 / 2) = 1 :> Z) by (apply mag_unique; rewrite Rabs_pos_eq by lra; change (bpow radix10 (1 - 1)) with 1%R; change (bpow radix10 1) with 10%R; lra).
    assert (D : decimal_round 17 (3 / 2) = (3 / 2)%R).
    { apply round_generic; [typeclasses eauto|]. apply generic_format_FLX. exists (Float radix10 15 (-1)); [unfold F2R; cbn [Fnum Fexp]; change (bpow radix10 (-1)) with (/ 10)%R; lra|cbn [Fnum]; reflexivity]. }
    rewrite D. assert (E : sci_exponent (3 / 2) = 0) by (unfold sci_exponent; destruct (Req_EM_T (3 / 2) 0); [lra|rewrite M; reflexivity]).
    assert (G : sci_digits 17 (3 / 2) = 150000000000000000).
    { unfold sci_digits. rewrite E. replace (3 / 2 * bpow radix10 (Z.of_nat 17 - 0))%R with (IZR 150000000000000000); [apply Ztrunc_IZR|].
      change (Z.of_nat 17 - 0) with 17. rewrite bpow10_Z by lia. change (10 ^ 17) with 100000000000000000. lra. }
    rewrite E, G. vm_compute. reflexivity.
  - unfold to_chars, scientific. cbn [signbit app]. rewrite decimal_round_0.
    assert (E : sci_exponent 0 = 0) by (unfold sci_exponent; destruct (Req_EM_T 0 0); [reflexivity|congruence]).
    assert (G : sci_digits 2 0 = 0) by (unfold sci_digits; rewrite Rmult_0_l; apply Ztrunc_IZR).
    rewrite E, G. vm_compute. reflexivity.
Qed.

(** ** C70: float_to_str *)
(** For precisions up to 56 the result is a sign and the nearest decimal with that many
    digits behind the point: within half a unit of the last digit; the digit in front of
    the point is not zero unless the number is. *)
Theorem C70_float_to_str_partial : forall fmt junk neg x precision, supported fmt -> representable fmt x -> (64 <= length junk)%nat -> precision <= 56 ->
  let p := if precision <? 0 then 6 else precision in
  exists text m e, float_to_str junk (Fin neg x) precision = (if neg then 45 else 43) :: text /\
    unsigned_at text m (e - p) [] /\ (Rabs (IZR m * powerRZ 10 (e - p) - x) <= / 2 * powerRZ 10 (e - p))%R /\
    (x = 0%R /\ m = 0 \/ 10 ^ p <= m < 10 ^ (p + 1)).
Proof.
  intros fmt junk neg x precision H Hr Hj Hp p. set (k := effective_precision precision).
  assert (Hk : p = Z.of_nat k /\ (k <= 56)%nat) by (unfold p, k, effective_precision; destruct (Z.ltb_spec precision 0); lia). destruct Hk as [-> Hk].
  assert (X0 : (0 <= x)%R) by apply Hr. set (d := decimal_round k x).
  exists (scientific k x), (sci_digits k d), (sci_exponent d). split; [|split; [|split]].
  - unfold float_to_str, float_to_str_vw. fold k.
    assert (L : (length (to_chars (Fin neg x) k) <= (if neg then 1 else 0) + (7 + k))%nat).
    { apply (to_chars_length (Fin neg x)). intros neg' x' K. injection K as <- <-. now apply (exponent_any fmt). }
    rewrite firstn_length. cbn [signbit isnan negb andb]. destruct neg; cbn [length negb andb]; rewrite (proj2 (Nat.leb_le _ _)) by (cbn [length]; lia); reflexivity.
  - exact (scientific_at k x X0).
  - destruct (sci_split k x d eq_refl X0) as (E1 & _). rewrite <- E1. exact (decimal_half_unit k x X0).
  - destruct (sci_split k x d eq_refl X0) as (_ & E2 & E3). destruct (Req_dec x 0) as [Zx|Nx].
    + left. split; [exact Zx|]. apply E3. unfold d. rewrite Zx. apply decimal_round_0.
    + right. split; [|lia]. apply first_digit. lra.
Qed.
Print Assumptions C70_float_to_str_partial.
(** With a precision of 58 or more the text does not fit into the 64 characters. The error
    is ignored, and what is returned does not depend on the number (except for its sign). *)
Theorem C70_large_precision_refuted : forall junk neg x precision, (64 <= length junk)%nat -> 58 <= precision ->
  float_to_str junk (Fin neg x) precision = if neg then firstn 64 junk else 43 :: skipn 1 (firstn 64 junk).
Proof.
  intros junk neg x precision Hj Hp. unfold float_to_str, float_to_str_vw, effective_precision. rewrite (proj2 (Z.ltb_ge _ _)) by lia. set (k := Z.to_nat precision).
  assert (L : (7 + k - (if neg then 0 else 1) <= length (to_chars (Fin neg x) k))%nat).
  { unfold to_chars, scientific. cbn [signbit]. pose proof (fixed_length (S k) (sci_digits k (decimal_round k x))) as L. destruct (fixed _ _) as [|c more]; [discriminate L|]. cbn [length] in L.
    rewrite app_length. cbn [length]. rewrite app_length. unfold exponent_text. cbn [length]. rewrite fixed_length.
    assert (2 <= Nat.max 2 (length (show_nat (Z.abs (sci_exponent (decimal_round k x))))))%nat by apply Nat.le_max_l.
    destruct more; [cbn [length] in L; lia|]. cbn [length] in *. destruct neg; cbn [length]; lia. }
  rewrite firstn_length. cbn [signbit isnan negb andb]. destruct neg; cbn [negb andb length]; rewrite (proj2 (Nat.leb_gt _ _)) by lia; reflexivity.
Qed.
Print Assumptions C70_large_precision_refuted.
Example C70_nonvacuous : representable binary32 (bpow radix2 (-149)) /\ supported binary32.
Proof.
  split; [|apply C69_formats]. split.
  - split; [apply bpow_ge_0|]. rewrite pow_powerRZ. rewrite Z2Nat.id by (cbn; lia). rewrite powerRZ_2. apply bpow_lt. cbn; lia.
  - exists 1, (-149). cbn [prec emin binary32]. split; [rewrite powerRZ_2; lra|]. lia.
Qed.
