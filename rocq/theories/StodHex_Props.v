(** C76: the values of hexadecimal texts in the fallback of from_chars. *)
From Flocq Require Import Core.
From Coq Require Import Reals Lra.
From Verif Require Import Base Bytes Duration_Model Duration_Spec Duration_Proofs FloatIO_Model FloatIO_Spec FloatIO_Proofs FloatIO_Props FromChars_Model Stod_Model Stod_Spec Stod_Proofs Stod_Props StodHex_Spec.
Local Open Scope Z_scope.

Lemma hex_digit_of c d : hex_digit c d -> digit_of c = d /\ 0 <= d <= 15.
Proof.
  intros [v Hv|v Hv|v Hv]; unfold digit_of;
    repeat match goal with |- context[?a <=? ?b] => destruct (Z.leb_spec a b) end; cbn [andb]; lia.
Qed.
Lemma hex_digits_run d v r : hex_text d v -> ~ starts_with is_hex r -> hex_digits (d ++ r) = (d, r).
Proof.
  intros H N. assert (F : Forall is_hex d). { clear N. induction H as [|ds v c x H IH Hx]; [constructor|]. apply Forall_app. split; [exact IH|]. constructor; [now exists x|constructor]. }
  clear H. induction F as [|c d [x Hx] F IH]; cbn [app].
  - destruct r as [|c r]; [reflexivity|]. cbn [hex_digits]. destruct (digit_of c <? 16) eqn:E; [|reflexivity]. exfalso. apply N. exists c, r. split; [reflexivity|]. now apply digit_of_hex.
  - cbn [hex_digits]. destruct (hex_digit_of c x Hx) as [E B]. rewrite E, (proj2 (Z.ltb_lt x 16)) by lia. now rewrite IH.
Qed.
Lemma hex_value_text d v : hex_text d v -> hex_value d = v.
Proof.
  unfold hex_value. induction 1 as [|ds v c x H IH Hx]; [reflexivity|]. rewrite fold_left_app, IH. cbn [fold_left]. now rewrite (proj1 (hex_digit_of c x Hx)).
Qed.
Lemma hex_text_nonneg d v : hex_text d v -> 0 <= v.
Proof. induction 1 as [|ds v c x H IH Hx]; [lia|]. destruct (hex_digit_of c x Hx). lia. Qed.
Lemma exponent_read ex e (hp : bool) rest : binary_exponent ex e -> ends_number hp (match ex with [] => false | _ => true end) rest -> scan_binary_exponent (ex ++ rest) = (e, rest).
Proof.
  intros H N. destruct H as [|p sign ds Hp Hs Nd Fd].
  - cbn [ends_number] in N. destruct N as (_ & N & _). cbn [app]. destruct rest as [|c r]; [reflexivity|]. cbn [scan_binary_exponent].
    destruct ((c =? 112) || (c =? 80)) eqn:E; [|reflexivity]. exfalso. apply N. exists c, r. split; [reflexivity|]. lia.
  - cbn [ends_number] in N. assert (D : digits (ds ++ rest) = (ds, rest)) by (apply digits_complete; now split). destruct ds as [|c ds]; [congruence|]. pose proof (Forall_inv Fd) as Dc. unfold Duration_Spec.digit in Dc. cbn [app] in *.
    assert (Ep : (p =? 112) || (p =? 80) = true) by lia. cbn [scan_binary_exponent]. rewrite Ep. destruct Hs as [->|[->| ->]]; cbn [app eat].
    + rewrite (proj2 (Z.eqb_neq c 43)), (proj2 (Z.eqb_neq c 45)) by lia. rewrite D. now rewrite digits_value_spec.
    + change (43 =? 43) with true. cbv iota. rewrite D. now rewrite digits_value_spec.
    + change (45 =? 43) with false. change (45 =? 45) with true. cbv iota. rewrite D. now rewrite digits_value_spec.
Qed.
Lemma no_start (P : Z -> Prop) c r : ~ P c -> ~ starts_with P (c :: r).
Proof. intros N (x & t & E & Px). injection E as -> _. auto. Qed.
Lemma not_hex c : ~ (48 <= c <= 57) -> ~ (97 <= c <= 102) -> ~ (65 <= c <= 70) -> ~ is_hex c.
Proof. intros A B C [v H]. inversion H; subst; lia. Qed.
(** The text of the number: sign 0x ip [. fp] exponent *)
Lemma strtod_hex (neg : bool) x ip fp (hp : bool) ex m e rest : x = 120 \/ x = 88 -> hex_text (ip ++ fp) m -> ip ++ fp <> [] -> (exists a, hex_text ip a) -> (exists a, hex_text fp a) -> (hp = false -> fp = []) ->
  binary_exponent ex e -> ends_number hp (match ex with [] => false | _ => true end) rest ->
  strtod ((if neg then [45] else []) ++ 48 :: x :: ip ++ (if hp then 46 :: fp else []) ++ ex ++ rest) = Some (neg, MHex m (e - 4 * Z.of_nat (length fp)), rest).
Proof.
  intros Hx Hm Nm (a & Ha) (b & Hb) Hp He Hr.
  assert (Nx : ~ starts_with is_hex (ex ++ rest)).
  { destruct He as [|p sign ds Hp' _ _ _]; [cbn [app]; apply Hr|]. cbn [app]. apply no_start. apply not_hex; lia. }
  assert (N46 : hp = false -> ~ starts_with (eq 46) (ex ++ rest)).
  { intros E. destruct He as [|p sign ds Hp' _ _ _]; [cbn [app]; now apply Hr|]. cbn [app]. apply no_start. lia. }
  assert (S1 : scan_hex (ip ++ (if hp then 46 :: fp else []) ++ ex ++ rest) = Some (MHex m (e - 4 * Z.of_nat (length fp)), rest)).
  { unfold scan_hex. assert (H1 : hex_digits (ip ++ (if hp then 46 :: fp else []) ++ ex ++ rest) = (ip, (if hp then 46 :: fp else []) ++ ex ++ rest)).
    { apply (hex_digits_run _ a); [exact Ha|]. destruct hp; [|exact Nx]. cbn [app]. apply no_start. apply not_hex; lia. }
    rewrite H1. destruct hp; cbn [app].
    - cbn [eat]. change (46 =? 46) with true. cbv iota. rewrite (hex_digits_run fp b _ Hb Nx). destruct (ip ++ fp) as [|c d] eqn:E; [congruence|]. rewrite (exponent_read ex e true rest He Hr). now rewrite (hex_value_text _ _ Hm).
    - rewrite (Hp eq_refl) in *. specialize (N46 eq_refl). assert (E46 : eat 46 (ex ++ rest) = None).
      { destruct (ex ++ rest) as [|c r]; [reflexivity|]. cbn [eat]. destruct (Z.eqb_spec c 46) as [->|]; [|reflexivity]. exfalso. apply N46. exists 46, r. auto. }
      rewrite E46. destruct (ip ++ []) as [|c d] eqn:E; [congruence|]. rewrite (exponent_read ex e false rest He Hr). now rewrite (hex_value_text _ _ Hm). }
  set (t := ip ++ (if hp then 46 :: fp else []) ++ ex ++ rest) in *.
  assert (Sm : scan_magnitude (48 :: x :: t) = Some (MHex m (e - 4 * Z.of_nat (length fp)), rest)).
  { unfold scan_magnitude. change (strip_prefix (bytes "infinity") (48 :: x :: t)) with (@None (list Z)). change (strip_prefix (bytes "inf") (48 :: x :: t)) with (@None (list Z)). change (strip_prefix (bytes "nan") (48 :: x :: t)) with (@None (list Z)).
    assert (A : after_0x (48 :: x :: t) = Some t) by (destruct Hx as [-> | ->]; reflexivity). now rewrite A, S1. }
  destruct neg; cbn [app].
  - unfold strtod. rewrite (skip_space_none (45 :: 48 :: x :: t)) by (rewrite starts_cons; unfold space; lia).
    change (eat 45 (45 :: 48 :: x :: t)) with (Some (48 :: x :: t)). cbv beta iota zeta. now rewrite Sm.
  - unfold strtod. rewrite (skip_space_none (48 :: x :: t)) by (rewrite starts_cons; unfold space; lia).
    change (eat 45 (48 :: x :: t)) with (@None (list Z)). change (eat 43 (48 :: x :: t)) with (@None (list Z)). cbv beta iota zeta. now rewrite Sm.
Qed.
Lemma normal_no_underflow fmt a : 1 <= prec fmt -> (min_normal fmt <= a)%R -> underflows fmt a = false.
Proof.
  intros P A. unfold min_normal in A. rewrite powerRZ_2 in A. unfold underflows. destruct (Rlt_dec _ _) as [L|]; [|reflexivity]. exfalso. apply (Rlt_not_le _ _ L).
  assert (Pf : Prec_gt_0 (prec fmt)) by (unfold Prec_gt_0; lia). apply round_ge_generic; [typeclasses eauto|typeclasses eauto| |exact A]. apply generic_format_bpow. unfold FLX_exp. lia.
Qed.

(** The fallback reads the number that is nearest to the value of the text, and stops behind the text; it reports
    numbers that are too large, for every format. *)
Theorem C76_hexadecimal_value : forall fmt (neg : bool) x ip fp (point : bool) ex m e rest, supported fmt ->
  x = 120 \/ x = 88 -> hex_text (ip ++ fp) m -> ip ++ fp <> [] -> (exists a, hex_text ip a) -> (exists a, hex_text fp a) -> (point = false -> fp = []) ->
  binary_exponent ex e -> ends_number point (match ex with [] => false | _ => true end) rest ->
  let text := (if neg then [45] else []) ++ 48 :: x :: ip ++ (if point then 46 :: fp else []) ++ ex in
  let a := (IZR m * powerRZ 2 (e - 4 * Z.of_nat (length fp)))%R in
  ((a = 0 \/ min_normal fmt <= a)%R -> (a < powerRZ 2 (emax fmt) - powerRZ 2 (emax fmt - prec fmt - 1))%R ->
     from_chars_stod fmt (text ++ rest) = FpNumber (Fin neg (Generic_fmt.round radix2 (FLT_exp (emin fmt) (prec fmt)) ZnearestE a)) (length text)) /\
  ((powerRZ 2 (emax fmt) - powerRZ 2 (emax fmt - prec fmt - 1) <= a)%R -> from_chars_stod fmt (text ++ rest) = FpOutOfRange 0).
Proof.
  intros fmt neg x ip fp point ex m e rest H Hx Hm Nm Ha Hb Hp He Hr text a. pose proof (strtod_hex neg x ip fp point ex m e rest Hx Hm Nm Ha Hb Hp He Hr) as St.
  assert (Et : text ++ rest = (if neg then [45] else []) ++ 48 :: x :: ip ++ (if point then 46 :: fp else []) ++ ex ++ rest).
  { unfold text. rewrite <- app_assoc. f_equal. cbn [app]. do 2 f_equal. now rewrite <- !app_assoc. }
  unfold from_chars_stod. rewrite Et, St, <- Et. cbv zeta. fold a. rewrite app_length. replace (length text + length rest - length rest)%nat with (length text) by lia.
  rewrite !powerRZ_2. split.
  - intros A B. rewrite (proj2 (overflows_spec fmt a) B). assert (U : underflows fmt a = false); [|rewrite U; reflexivity].
    destruct A as [-> |A]; [now apply underflows_zero|]. apply normal_no_underflow; [destruct H as (P & _); lia|exact A].
  - intros B. assert (O : overflows fmt a = true); [|now rewrite O]. apply not_false_is_true. rewrite overflows_spec. lra.
Qed.
Print Assumptions C76_hexadecimal_value.
(** "-0X1.8P+3;" is -12. *)
Example C76_hexadecimal_nonvacuous :
  hex_text (bytes "1" ++ bytes "8") 24 /\ binary_exponent (bytes "P+3") 3 /\ ends_number true true (bytes ";") /\
  (IZR 24 * powerRZ 2 (3 - 4 * Z.of_nat (length (bytes "8"))) = 12)%R /\ (min_normal FloatIO_Model.binary64 <= 12)%R.
Proof.
  split; [|split; [|split; [|split]]].
  - apply (ht_more (bytes "1") 1 56 8); [apply (ht_more [] 0 49 1 ht_none)|]; [apply (hd_dec 1); lia|apply (hd_dec 8); lia].
  - apply (be_some 80 [43] [51]); [auto|auto|discriminate|]. constructor; [unfold Duration_Spec.digit; lia|constructor].
  - cbn [ends_number]. change (bytes ";") with [59]. apply no_start. unfold Duration_Spec.digit. lia.
  - rewrite powerRZ_2. cbn. lra.
  - unfold min_normal. rewrite powerRZ_2. apply Rle_trans with 1%R; [|lra]. change 1%R with (bpow radix2 0). apply bpow_le. cbn. lia.
Qed.
