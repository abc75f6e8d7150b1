From Flocq Require Import Core.
From Coq Require Import Reals.
From Verif Require Import Base Bytes Csv_Spec Duration_Model Csv_Numbers FloatIO_Model FloatIO_Proofs FromChars_Model FloatStr_Model Stod_Model CsvStrtod_Model Locale_Model Locale_Spec.
Local Open Scope Z_scope.
Section Sw.
Context (dp : Z) (Hdp : number_char dp = false) (Hsp : isspace dp = false).
Local Notation sw := (exchange dp).
Let omap {A} (o : option (A * list Z)) : option (A * list Z) := match o with Some (x, r) => Some (x, map sw r) | None => None end.
Lemma dp_46 : dp <> 46. Proof using Hdp. intros K. pose proof Hdp as X. rewrite K in X. discriminate X. Qed.
Lemma sw_same (f : Z -> bool) c : f dp = f 46 -> f (sw c) = f c.
Proof using. intros H. unfold exchange. destruct (Z.eqb_spec c dp) as [->|N]; [auto|]. destruct (Z.eqb_spec c 46) as [->|N']; auto. Qed.
Lemma sw_id c : c <> dp -> c <> 46 -> sw c = c.
Proof using. intros A B. unfold exchange. now rewrite (proj2 (Z.eqb_neq _ _) A), (proj2 (Z.eqb_neq _ _) B). Qed.
Lemma nc_parts : word_char dp = false /\ is_digit dp = false /\ dp <> 43 /\ dp <> 45 /\ dp <> 40 /\ dp <> 41.
Proof using Hdp. pose proof Hdp as X. unfold number_char in X. destruct (word_char dp) eqn:W; [discriminate|]. split; [reflexivity|]. split; [unfold word_char in W; now destruct (is_digit dp)|]. cbn in X.
  destruct (Z.eqb_spec dp 43), (Z.eqb_spec dp 45), (Z.eqb_spec dp 46), (Z.eqb_spec dp 40), (Z.eqb_spec dp 41); cbn in X; try discriminate. auto. Qed.
Lemma word_of c : word_char c = true -> c <> dp /\ c <> 46.
Proof using Hdp. intros H. split; intros ->; [rewrite (proj1 nc_parts) in H; discriminate|discriminate]. Qed.
Lemma sw_word c : word_char c = true -> sw c = c.
Proof using Hdp. intros H. apply sw_id; now apply word_of. Qed.
Lemma sw_is_digit c : is_digit (sw c) = is_digit c.
Proof using Hdp. apply (sw_same is_digit). now rewrite (proj1 (proj2 nc_parts)). Qed.
Lemma digit_word c : is_digit c = true -> word_char c = true.
Proof using. unfold word_char. now intros ->. Qed.
Lemma sw_eqb c k : k <> dp -> k <> 46 -> (sw c =? k) = (c =? k).
Proof using. intros A B. apply (sw_same (fun c => c =? k)). rewrite (proj2 (Z.eqb_neq dp k)), (proj2 (Z.eqb_neq 46 k)) by congruence. reflexivity. Qed.
Lemma eat_sw k s : k <> dp -> k <> 46 -> eat k (map sw s) = option_map (map sw) (eat k s).
Proof using. intros A B. destruct s as [|c s]; [reflexivity|]. cbn [map eat]. rewrite sw_eqb by auto. now destruct (c =? k). Qed.
Lemma eat_dp s : eat 46 (map sw s) = option_map (map sw) (eat dp s).
Proof using Hdp. destruct s as [|c s]; [reflexivity|]. cbn [map eat]. unfold exchange at 1. destruct (Z.eqb_spec c dp) as [->|N]; [reflexivity|].
  destruct (Z.eqb_spec c 46) as [->|N']; [rewrite (proj2 (Z.eqb_neq dp 46)) by exact dp_46; reflexivity|]. now rewrite (proj2 (Z.eqb_neq _ _) N'). Qed.
Lemma digits_sw s : digits (map sw s) = (fst (digits s), map sw (snd (digits s))).
Proof using Hdp.
  induction s as [|c s IH]; [reflexivity|]. cbn [map digits]. rewrite sw_is_digit. destruct (is_digit c) eqn:E; [|reflexivity].
  rewrite IH. destruct (digits s) as [d r]. cbn [fst snd]. now rewrite (sw_word c (digit_word c E)).
Qed.
Lemma hexd_word c : digit_of c <? 16 = true -> word_char c = true.
Proof using.
  unfold digit_of, word_char, is_digit. destruct ((48 <=? c) && (c <=? 57)); [reflexivity|]. cbn [orb].
  destruct ((97 <=? c) && (c <=? 122)); [now rewrite orb_true_r|]. destruct ((65 <=? c) && (c <=? 90)); [reflexivity|]. discriminate.
Qed.
Lemma sw_hexd c : (digit_of (sw c) <? 16) = (digit_of c <? 16).
Proof using Hdp.
  apply (sw_same (fun c => digit_of c <? 16)). change (digit_of 46 <? 16) with false. destruct (digit_of dp <? 16) eqn:E; [|reflexivity]. apply hexd_word in E. rewrite (proj1 nc_parts) in E. discriminate.
Qed.
Lemma hex_digits_sw s : hex_digits (map sw s) = (fst (hex_digits s), map sw (snd (hex_digits s))).
Proof using Hdp.
  induction s as [|c s IH]; [reflexivity|]. cbn [map hex_digits]. rewrite sw_hexd. destruct (digit_of c <? 16) eqn:E; [|reflexivity].
  rewrite IH. destruct (hex_digits s) as [d r]. cbn [fst snd]. now rewrite (sw_word c (hexd_word c E)).
Qed.
Lemma letter_ne k : word_char k = true -> k <> dp /\ k <> 46. Proof using Hdp. apply word_of. Qed.
Lemma sign_sw s : match eat 43 (map sw s), eat 45 (map sw s) with Some t, _ => (false, t) | _, Some t => (true, t) | _, _ => (false, map sw s) end =
  (fun p => (fst p, map sw (snd p))) (match eat 43 s, eat 45 s with Some t, _ => (false, t) | _, Some t => (true, t) | _, _ => (false, s) end).
Proof using Hdp.
  destruct nc_parts as (_ & _ & A & B & _). rewrite !eat_sw by (congruence || lia). destruct (eat 43 s), (eat 45 s); reflexivity.
Qed.
Lemma scan_exponent_sw s : scan_exponent (map sw s) = (fst (scan_exponent s), map sw (snd (scan_exponent s))).
Proof using Hdp.
  destruct s as [|c s]; [reflexivity|]. cbn [map scan_exponent]. rewrite !sw_eqb by (apply letter_ne; reflexivity).
  destruct ((c =? 101) || (c =? 69)) eqn:E; [|reflexivity]. rewrite sign_sw. destruct (match eat 43 s, eat 45 s with Some t, _ => (false, t) | _, Some t => (true, t) | _, _ => (false, s) end) as [neg t].
  cbn [fst snd]. rewrite digits_sw. destruct (digits t) as [d r]. cbn [fst snd]. destruct d; reflexivity.
Qed.
Lemma scan_binary_exponent_sw s : scan_binary_exponent (map sw s) = (fst (scan_binary_exponent s), map sw (snd (scan_binary_exponent s))).
Proof using Hdp.
  destruct s as [|c s]; [reflexivity|]. cbn [map scan_binary_exponent]. rewrite !sw_eqb by (apply letter_ne; reflexivity).
  destruct ((c =? 112) || (c =? 80)) eqn:E; [|reflexivity]. rewrite sign_sw. destruct (match eat 43 s, eat 45 s with Some t, _ => (false, t) | _, Some t => (true, t) | _, _ => (false, s) end) as [neg t].
  cbn [fst snd]. rewrite digits_sw. destruct (digits t) as [d r]. cbn [fst snd]. destruct d; reflexivity.
Qed.
Lemma scan_decimal_sw s : scan_decimal (map sw s) = omap (scan_decimal_in dp s).
Proof using Hdp.
  unfold scan_decimal, scan_decimal_in. rewrite digits_sw. destruct (digits s) as [ip r1]. cbn [fst snd]. rewrite eat_dp. destruct (eat dp r1) as [t|]; cbn [option_map].
  - rewrite digits_sw. destruct (digits t) as [fr r2]. cbn [fst snd]. destruct (ip ++ fr) as [|d0 dd]; [reflexivity|]. rewrite scan_exponent_sw. now destruct (scan_exponent r2).
  - destruct (ip ++ []) as [|d0 dd]; [reflexivity|]. rewrite scan_exponent_sw. now destruct (scan_exponent r1).
Qed.
Lemma scan_hex_sw s : scan_hex (map sw s) = omap (scan_hex_in dp s).
Proof using Hdp.
  unfold scan_hex, scan_hex_in. rewrite hex_digits_sw. destruct (hex_digits s) as [ip r1]. cbn [fst snd]. rewrite eat_dp. destruct (eat dp r1) as [t|]; cbn [option_map].
  - rewrite hex_digits_sw. destruct (hex_digits t) as [fr r2]. cbn [fst snd]. destruct (ip ++ fr) as [|d0 dd]; [reflexivity|]. rewrite scan_binary_exponent_sw. now destruct (scan_binary_exponent r2).
  - destruct (ip ++ []) as [|d0 dd]; [reflexivity|]. rewrite scan_binary_exponent_sw. now destruct (scan_binary_exponent r1).
Qed.
Lemma lower_word c : word_char (lower c) = word_char c.
Proof using.
  unfold lower. destruct ((65 <=? c) && (c <=? 90)) eqn:E; [|reflexivity]. apply andb_true_iff in E. destruct E as [A B]. apply Z.leb_le in A, B. unfold word_char, is_digit.
  rewrite (proj2 (Z.leb_le 97 (c + 32))), (proj2 (Z.leb_le (c + 32) 122)), (proj2 (Z.leb_le 65 c)), (proj2 (Z.leb_le c 90)) by lia. cbn [andb]. now rewrite !orb_true_r.
Qed.
Lemma strip_sw p : Forall (fun c => word_char c = true) p -> forall s, strip_prefix p (map sw s) = option_map (map sw) (strip_prefix p s).
Proof using Hdp.
  induction 1 as [|a p Ha Hp IH]; intros s; [reflexivity|]. destruct s as [|b s]; [reflexivity|]. cbn [map strip_prefix].
  assert (E : (a =? lower (sw b)) = (a =? lower b)).
  { apply (sw_same (fun b => a =? lower b)). rewrite !(proj2 (Z.eqb_neq _ _)); [reflexivity| |]; intros K; rewrite K, lower_word in Ha; [discriminate|]. rewrite (proj1 nc_parts) in Ha. discriminate. }
  rewrite E. destruct (a =? lower b); [apply IH|reflexivity].
Qed.
Lemma skip_word_sw s : skip_word (map sw s) = map sw (skip_word s).
Proof using Hdp. induction s as [|c s IH]; [reflexivity|]. cbn [map skip_word]. rewrite (sw_same word_char) by (now rewrite (proj1 nc_parts)). destruct (word_char c); [exact IH|reflexivity]. Qed.
Lemma nan_tail_sw s : nan_tail (map sw s) = map sw (nan_tail s).
Proof using Hdp.
  destruct nc_parts as (_ & _ & _ & _ & A & B). destruct s as [|c s]; [reflexivity|]. cbn [map nan_tail]. rewrite sw_eqb by (congruence || lia). destruct (c =? 40); [|reflexivity].
  rewrite skip_word_sw. destruct (skip_word s) as [|d r]; [reflexivity|]. cbn [map]. rewrite sw_eqb by (congruence || lia). now destruct (d =? 41).
Qed.
Lemma after_0x_sw s : after_0x (map sw s) = option_map (map sw) (after_0x s).
Proof using Hdp.
  destruct s as [|z [|x t]]; try reflexivity. cbn [map after_0x]. rewrite !sw_eqb by (apply letter_ne; reflexivity). now destruct (_ && _).
Qed.
Lemma scan_magnitude_sw s : scan_magnitude (map sw s) = omap (scan_magnitude_in dp s).
Proof using Hdp.
  unfold scan_magnitude, scan_magnitude_in. rewrite !strip_sw by (repeat constructor).
  destruct (strip_prefix (bytes "infinity") s), (strip_prefix (bytes "inf") s), (strip_prefix (bytes "nan") s); cbn [option_map omap]; try reflexivity.
  - now rewrite nan_tail_sw.
  - rewrite after_0x_sw. destruct (after_0x s) as [t|]; cbn [option_map]; [|apply scan_decimal_sw]. rewrite scan_hex_sw. destruct (scan_hex_in dp t) as [[x r]|]; cbn [omap]; [reflexivity|apply scan_decimal_sw].
Qed.
Lemma skip_space_sw s : forall n, skip_space (map sw s) n = (map sw (fst (skip_space s n)), snd (skip_space s n)).
Proof using Hsp. induction s as [|c s IH]; intros n; [reflexivity|]. cbn [map skip_space]. rewrite (sw_same isspace) by (now rewrite Hsp). destruct (isspace c); [apply IH|reflexivity]. Qed.
Lemma strtod_sw s : strtod (map sw s) = omap (strtod_in dp s).
Proof using Hdp Hsp.
  unfold strtod, strtod_in. rewrite skip_space_sw. cbn [fst]. set (s1 := fst (skip_space s 0)). destruct nc_parts as (_ & _ & A & B & _). rewrite !eat_sw by (congruence || lia).
  destruct (eat 45 s1) as [t|]; cbn [option_map]; [rewrite scan_magnitude_sw; destruct (scan_magnitude_in dp t) as [[x r]|]; reflexivity|].
  destruct (eat 43 s1) as [t|]; cbn [option_map]; rewrite scan_magnitude_sw; [destruct (scan_magnitude_in dp t) as [[x r]|]|destruct (scan_magnitude_in dp s1) as [[x r]|]]; reflexivity.
Qed.
Lemma stod_sw fmt s : from_chars_stod_in dp fmt s = from_chars_stod fmt (map sw s).
Proof using Hdp Hsp.
  unfold from_chars_stod, from_chars_stod_in. rewrite strtod_sw. destruct (strtod_in dp s) as [[[neg x] r]|]; cbn [omap]; [|reflexivity]. now rewrite !map_length.
Qed.
Lemma sw_digits d : Forall Duration_Spec.digit d -> map sw d = d.
Proof using Hdp.
  induction 1 as [|c d H F IH]; [reflexivity|]. cbn [map]. rewrite IH, sw_word; [reflexivity|]. apply digit_word. unfold Duration_Spec.digit in H. unfold is_digit. apply andb_true_iff. split; apply Z.leb_le; lia.
Qed.
Lemma printf_sw v p : printf_e_in dp v p = map sw (printf_e v p).
Proof using Hdp.
  unfold printf_e_in, printf_e. cbn [map]. destruct nc_parts as (_ & _ & A & B & _). f_equal.
  - destruct (signbit v); rewrite sw_id; congruence || lia.
  - destruct v as [neg x|neg|neg].
    + pose proof (fixed_digits (S p) (sci_digits p (decimal_round p x))) as F. cbv zeta. destruct (fixed (S p) _) as [|c more]; [reflexivity|]. inversion F as [|? ? F1 F2]; subst.
      cbn [map]. rewrite map_app, (sw_digits more F2). assert (Ec : sw c = c) by (pose proof (sw_digits [c] (Forall_cons _ F1 (Forall_nil _))) as K; now injection K). rewrite Ec. f_equal.
      unfold exchange at 1. rewrite (proj2 (Z.eqb_neq 46 dp)) by (intros K; now apply dp_46). cbn [Z.eqb Pos.eqb]. f_equal. f_equal.
      unfold exponent_text. cbn [map]. rewrite (sw_digits _ (fixed_digits _ _)). rewrite (sw_id 101) by (apply letter_ne; reflexivity). destruct (_ <? 0); rewrite sw_id; congruence || lia.
    + cbn -[exchange]. rewrite !sw_word by reflexivity. reflexivity.
    + cbn -[exchange]. rewrite !sw_word by reflexivity. reflexivity.
Qed.
End Sw.
