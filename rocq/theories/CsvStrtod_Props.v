(** C77: the field reader of csv_read without std::from_chars. *)
From Flocq Require Import Core.
From Coq Require Import Reals Lra.
From Verif Require Import Base Bytes Duration_Model Duration_Spec Duration_Proofs Csv_Spec Csv_Model Csv_Numbers FloatIO_Model FloatIO_Spec FloatIO_Proofs FloatIO_Props
  Print_Model Print_Spec Print_Ints FromChars_Model Stod_Model Stod_Spec Stod_Proofs Stod_Props CsvStrtod_Model.
Local Open Scope Z_scope.

(** What follows a field: nothing, or a separator that cannot be part of a number
    (and is not white space in front of one, which does not matter here). *)
Definition ends_field (w : list Z) : Prop := w = [] \/ exists sep t, w = sep :: t /\ number_char sep = false.

Lemma to_chars_plain v p w : (1 <= p)%nat ->
  ~ starts_with space (to_chars v p ++ w) /\ ~ starts_with (eq 43) (to_chars v p ++ w) /\ ~ hexadecimal (to_chars v p ++ w).
Proof.
  intros Hp. assert (S : exists c1 c2 u, to_chars v p = (if signbit v then [45] else []) ++ c1 :: c2 :: u /\
     (48 <= c1 <= 57 /\ c2 = 46 \/ c1 = 105 \/ c1 = 110)).
  { unfold to_chars. destruct v as [neg x|neg|neg]; cbn [signbit].
    - unfold scientific. pose proof (fixed_length (S p) (sci_digits p (decimal_round p x))) as L. pose proof (fixed_digits (S p) (sci_digits p (decimal_round p x))) as F.
      destruct (fixed _ _) as [|c more]; [discriminate L|]. cbn [length] in L. destruct more as [|c' more]; [cbn [length] in L; lia|].
      apply Forall_inv in F. unfold Duration_Spec.digit in F. eexists c, 46, _. split; [reflexivity|]. left. auto.
    - eexists _, _, _. split; [reflexivity|]. right. left. reflexivity.
    - eexists _, _, _. split; [reflexivity|]. right. right. reflexivity. }
  destruct S as (c1 & c2 & u & -> & C). destruct (signbit v); cbn [app]; rewrite !starts_cons; unfold space.
  - split; [lia|]. split; [lia|]. intros (sg & y & pt & dd & rest & E & Hs & Hy & _).
    destruct Hs as [-> | ->]; cbn [app] in E; (discriminate E || (injection E; intros; lia)).
  - split; [lia|]. split; [lia|]. intros (sg & y & pt & dd & rest & E & Hs & Hy & _).
    destruct Hs as [-> | ->]; cbn [app] in E; (discriminate E || (injection E; intros; lia)).
Qed.

Lemma from_chars_fp_tail fmt s w v k : ends_field w -> from_chars_fp fmt s = Some (v, k) -> from_chars_fp fmt (s ++ w) = Some (v, k).
Proof.
  intros [->|(sep & t & -> & Hs)]; [now rewrite app_nil_r|]. unfold from_chars_fp.
  assert (Fl : floating (s ++ sep :: t) = floating s).
  { unfold floating. rewrite from_chars_local by exact Hs. destruct (from_chars s) as [x r| |]; auto.
    rewrite !app_length; f_equal; f_equal; lia. }
  rewrite Fl. destruct s as [|c s]; [|auto]. cbn [app]. change (floating []) with (@None (Duration_Model.number * nat)). discriminate.
Qed.

(** The numbers that the fallback can read back. *)
Definition zero_or_normal (fmt : format) (v : fp) : Prop :=
  match v with Fin _ x => x = 0%R \/ (min_normal fmt < x)%R | _ => True end.

(** A field printed by print_csv for a zero, an infinity, a nan or a number above the
    smallest normal one is read back, whatever follows it. *)
Theorem C77_printed_number_partial : forall fmt junk v w, supported fmt -> (1 <= max_digits10 fmt)%nat -> value_in fmt v -> (64 <= length junk)%nat -> zero_or_normal fmt v -> ends_field w ->
  read_single_fp fmt (show_fp fmt junk v ++ w) = Ok (v, length (show_fp fmt junk v)).
Proof.
  intros fmt junk v w H Hd Hv Hj Hz Hw. destruct (show_fp_text fmt junk v H Hv Hj) as [-> _].
  set (p := max_digits10 fmt) in *. set (s := to_chars v p).
  destruct (to_chars_plain v p w Hd) as (N1 & N2 & N3). fold s in N1, N2, N3.
  assert (FC : from_chars_fp fmt (s ++ w) = Some (v, length s)).
  { apply from_chars_fp_tail; [exact Hw|]. now apply (from_chars_to_chars fmt H). }
  pose proof (proj2 (C76_same_partial fmt (s ++ w) H N1 N2 N3) v (length s) FC Hz) as St.
  unfold read_single_fp. destruct (negb (signbit v) && negb (isnan v)) eqn:Sg; cbn [app]; [|now rewrite St].
  (* behind a plus sign *)
  assert (N4 : ~ starts_with (eq 45) (s ++ w)).
  { intros (c & t & E & <-). destruct v as [neg x|neg|neg]; cbn [signbit isnan] in Sg; try (destruct neg; discriminate Sg).
    - destruct neg; [discriminate Sg|]. unfold s, to_chars in E. cbn [signbit app] in E.
      unfold scientific in E. pose proof (fixed_length (S p) (sci_digits p (decimal_round p x))) as L. pose proof (fixed_digits (S p) (sci_digits p (decimal_round p x))) as F.
      destruct (fixed _ _) as [|c' more]; [discriminate L|]. apply Forall_inv in F. unfold Duration_Spec.digit in F. cbn [app] in E. injection E as -> _. lia.
    - destruct neg; [discriminate Sg|]. discriminate E. }
  unfold from_chars_stod in St |- *. rewrite (strtod_plus (s ++ w) N1 N2 N4).
  destruct (strtod (s ++ w)) as [[[neg x] r]|]; [|discriminate St]. cbv zeta in *.
  assert (K : forall v', FpNumber v' (length (s ++ w) - length r) = FpNumber v (length s) -> (1 <= length s)%nat ->
      match FpNumber v' (length (43 :: s ++ w) - length r) with FpNumber u j => Ok (u, j) | _ => Throw csv_read_error end = Ok (v, length (43 :: s))).
  { intros v' E L. injection E as -> E. cbn [length]. do 2 f_equal. lia. }
  assert (Ls : (1 <= length s)%nat).
  { destruct (to_chars_nonempty v p) as (c & t & E & _). unfold s. rewrite E. cbn. lia. }
  destruct x as [m e|m e| |].
  - destruct (_ || _); [discriminate St|]. now apply K.
  - destruct (_ || _); [discriminate St|]. now apply K.
  - now apply K.
  - now apply K.
Qed.
Print Assumptions C77_printed_number_partial.
Example C77_number_nonvacuous : zero_or_normal binary32 (Fin true 1) /\ value_in binary32 (Fin true 1) /\ ends_field (bytes ",2") /\ supported binary32.
Proof.
  split; [|split; [|split; [|apply C69_formats]]].
  - right. unfold min_normal. cbn [emin prec binary32]. rewrite powerRZ_2. apply (bpow_lt radix2 _ 0). reflexivity.
  - split; [split; [lra|]|exists 1, 0; cbn; split; [lra|lia]]. cbn [emax binary32]. change (Z.to_nat 128) with 128%nat. apply Rlt_pow_R1; [lra|lia].
  - right. eexists _, _. split; reflexivity.
Qed.

(** False for subnormal numbers: csv_read throws on the text that print_csv
    produces for any of them. *)
Theorem C77_subnormal_refuted : forall fmt junk neg x, fmt = FloatIO_Model.binary64 \/ fmt = binary32 -> representable fmt x -> (0 < x < min_normal fmt)%R -> (64 <= length junk)%nat ->
  read_single_fp fmt (show_fp fmt junk (Fin neg x)) = Throw csv_read_error.
Proof.
  intros fmt junk neg x Hf Hr Hx Hj.
  assert (H : supported fmt) by (destruct Hf as [-> | ->]; apply C69_formats).
  assert (Hd : (1 <= max_digits10 fmt)%nat) by (destruct Hf as [-> | ->]; cbn; lia).
  destruct (show_fp_text fmt junk (Fin neg x) H Hr Hj) as [-> _].
  destruct (C76_subnormal_refuted fmt neg x Hf Hr Hx) as [_ St]. cbv zeta in St.
  unfold read_single_fp. cbn [signbit isnan negb andb]. destruct neg; cbn [negb andb app]; [now rewrite St|].
  destruct (to_chars_plain (Fin false x) (max_digits10 fmt) [] Hd) as (N1 & N2 & _). rewrite app_nil_r in N1, N2.
  assert (N4 : ~ starts_with (eq 45) (to_chars (Fin false x) (max_digits10 fmt))).
  { intros (c & t & E & <-). unfold to_chars, scientific in E. cbn [signbit app] in E.
    pose proof (fixed_length (S (max_digits10 fmt)) (sci_digits (max_digits10 fmt) (decimal_round (max_digits10 fmt) x))) as L. pose proof (fixed_digits (S (max_digits10 fmt)) (sci_digits (max_digits10 fmt) (decimal_round (max_digits10 fmt) x))) as F.
    destruct (fixed _ _) as [|c' more]; [discriminate L|]. apply Forall_inv in F. unfold Duration_Spec.digit in F. cbn [app] in E. injection E as -> _. lia. }
  unfold from_chars_stod in St |- *. rewrite (strtod_plus _ N1 N2 N4).
  destruct (strtod _) as [[[neg y] r]|]; [|reflexivity]. cbv zeta in *.
  destruct y as [m e|m e| |]; try discriminate St; (destruct (_ || _); [reflexivity|discriminate St]).
Qed.
Print Assumptions C77_subnormal_refuted.

(** ** Integers *)
Lemma accumulate_digits d : forall w acc n, Forall (fun c => 48 <= c <= 57) d -> ~ starts_with Duration_Spec.digit w -> 
  (forall c t, w = c :: t -> digit_of c <? 10 = false) ->
  accumulate 10 (d ++ w) acc n = (fold_left (fun v c => 10 * v + (c - 48)) d acc, (n + length d)%nat).
Proof.
  induction d as [|c d IH]; intros w acc n F Nw Ew; cbn [app fold_left length].
  - rewrite Nat.add_0_r. destruct w as [|c t]; [reflexivity|]. cbn [accumulate]. now rewrite (Ew c t eq_refl).
  - inversion F as [|? ? Hc F']; subst. cbn [accumulate].
    assert (D : digit_of c = c - 48).
    { unfold digit_of. rewrite (proj2 (Z.leb_le 48 c)), (proj2 (Z.leb_le c 57)) by lia. reflexivity. }
    rewrite D. rewrite (proj2 (Z.ltb_lt _ _)) by lia. rewrite IH by auto. f_equal; [f_equal; lia|lia].
Qed.
Lemma digit_of_small c : ~ Duration_Spec.digit c -> digit_of c <? 10 = false.
Proof.
  intros N. unfold Duration_Spec.digit in N. apply Z.ltb_ge. unfold digit_of.
  destruct ((48 <=? c) && (c <=? 57)) eqn:E; [apply andb_true_iff in E as [A B]; apply Z.leb_le in A, B; lia|].
  destruct ((97 <=? c) && (c <=? 122)) eqn:E2; [apply andb_true_iff in E2 as [A B]; apply Z.leb_le in A, B; lia|].
  destruct ((65 <=? c) && (c <=? 90)) eqn:E3; [apply andb_true_iff in E3 as [A B]; apply Z.leb_le in A, B; lia|]. lia.
Qed.
Lemma strto_digits d w neg : d <> [] -> Forall (fun c => 48 <= c <= 57) d -> ~ starts_with Duration_Spec.digit w ->
  strto 10 ((if neg : bool then [45] else []) ++ d ++ w) = Some (neg, decimal d, length ((if neg then [45] else []) ++ d)).
Proof.
  intros Nd F Nw.
  assert (Ew : forall c t, w = c :: t -> digit_of c <? 10 = false).
  { intros c t ->. apply digit_of_small. intros K. apply Nw. now apply starts_cons. }
  assert (A : forall n, (match d ++ w with
     | c :: _ => if digit_of c <? 10 then let '(v, n) := accumulate 10 (d ++ w) 0 n in Some (neg, v, n) else None
     | [] => None end) = Some (neg, decimal d, (n + length d)%nat)).
  { intros n. rewrite (accumulate_digits d w 0 n F Nw Ew). destruct d as [|c d]; [congruence|]. cbn [app].
    apply Forall_inv in F. assert (D : digit_of c = c - 48) by (unfold digit_of; rewrite (proj2 (Z.leb_le 48 c)), (proj2 (Z.leb_le c 57)) by lia; reflexivity).
    rewrite D, (proj2 (Z.ltb_lt _ _)) by lia. reflexivity. }
  assert (Sk : forall s n, (exists c t, s = c :: t /\ (c = 45 \/ 48 <= c <= 57)) -> skip_space s n = (s, n)).
  { intros s n (c & t & -> & Hc). cbn [skip_space]. unfold isspace.
    destruct (Z.eqb_spec c 32); [lia|]. destruct (Z.leb_spec 9 c); [|reflexivity]. destruct (Z.leb_spec c 13); [lia|reflexivity]. }
  unfold strto. destruct neg; cbn [app].
  - rewrite Sk by (eexists _, _; split; [reflexivity|lia]). rewrite Z.eqb_refl. change (10 =? 16) with false. cbn [andb].
    assert (M : (match d ++ w with z :: x :: d' :: t => (d ++ w, 1%nat) | _ => (d ++ w, 1%nat) end) = (d ++ w, 1%nat)) by (destruct (d ++ w) as [|? [|? [|? ?]]]; reflexivity).
    rewrite M. exact (A 1%nat).
  - destruct d as [|c d0] eqn:Ed; [congruence|]. pose proof (Forall_inv F) as Hc. cbn beta in Hc. clear Ed. rename d0 into d'.
    rewrite (Sk ((c :: d') ++ w)) by (eexists c, _; split; [reflexivity|lia]).
    assert (Sg : (match (c :: d') ++ w with c0 :: t => if c0 =? 45 then (true, t, 1%nat) else if c0 =? 43 then (false, t, 1%nat) else (false, (c :: d') ++ w, 0%nat) | [] => (false, (c :: d') ++ w, 0%nat) end) = (false, (c :: d') ++ w, 0%nat)).
    { cbn [app]. destruct (Z.eqb_spec c 45); [lia|]. destruct (Z.eqb_spec c 43); [lia|]. reflexivity. }
    rewrite Sg. change (10 =? 16) with false. cbn [andb].
    assert (M : (match (c :: d') ++ w with z :: x :: y :: t => ((c :: d') ++ w, 0%nat) | _ => ((c :: d') ++ w, 0%nat) end) = ((c :: d') ++ w, 0%nat)) by (destruct ((c :: d') ++ w) as [|? [|? [|? ?]]]; reflexivity).
    rewrite M. exact (A 0%nat).
Qed.

Lemma strto_show n w : ~ starts_with Duration_Spec.digit w ->
  exists neg, strto 10 (show_int n ++ w) = Some (neg, Z.abs n, length (show_int n)) /\ (if neg : bool then - Z.abs n else Z.abs n) = n.
Proof.
  intros Nw. destruct (show_int_decimal n) as (d & -> & Nd & F & V & _). exists (n <? 0).
  pose proof (strto_digits d w (n <? 0) Nd F Nw) as S. fold (decimal d) in V. rewrite V in S.
  split; [|destruct (Z.ltb_spec n 0); lia]. destruct (n <? 0); exact S.
Qed.

(** The largest value of each type: SHRT_MAX, INT_MAX, LONG_MAX, LLONG_MAX. *)
Definition type_max (ty : csv_int) : Z :=
  match ty with CShort => 32767 | CInt => 2147483647 | CLong | CLongLong => 9223372036854775807 end.
Lemma bits_max ty : 2 ^ (bits ty - 1) = type_max ty + 1 /\ 2 ^ bits ty = 2 * type_max ty + 2.
Proof. destruct ty; split; reflexivity. Qed.

(** The text of a 64-bit integer n, whatever follows it (no digit): what is read
    is congruent to n modulo 2^bits and in the range of the type. *)
Theorem C77_integers : forall ty n w, - 2 ^ 63 <= n < 2 ^ 63 -> ~ starts_with Duration_Spec.digit w ->
  exists v q, read_single_int ty (show_int n ++ w) = Ok (v, length (show_int n)) /\
    - type_max ty - 1 <= v <= type_max ty /\ v = n + q * (2 * type_max ty + 2).
Proof.
  cut (forall ty n w, - 2 ^ 63 <= n < 2 ^ 63 -> ~ starts_with Duration_Spec.digit w ->
  exists v q, read_single_int ty (show_int n ++ w) = Ok (v, length (show_int n)) /\
    - 2 ^ (bits ty - 1) <= v < 2 ^ (bits ty - 1) /\ v = n + q * 2 ^ bits ty).
  { intros K ty n w Hn Nw. destruct (K ty n w Hn Nw) as (v & q & E & H & Hq). exists v, q. split; [exact E|].
    destruct (bits_max ty) as [M1 M2]. rewrite M1 in H. rewrite M2 in Hq. split; [lia|exact Hq]. }
  intros ty n w Hn Nw. destruct (strto_show n w Nw) as (neg & S & E). unfold read_single_int. rewrite S, E.
  rewrite (proj2 (Z.leb_le _ _)), (proj2 (Z.ltb_lt _ _)) by lia. cbn [andb].
  assert (B : 0 < bits ty) by (destruct ty; cbn; lia). assert (P : 2 ^ bits ty = 2 * 2 ^ (bits ty - 1)).
  { rewrite <- Z.pow_succ_r by lia. f_equal. lia. }
  assert (P0 : 0 < 2 ^ (bits ty - 1)) by (apply Z.pow_pos_nonneg; lia).
  exists (cast_signed (bits ty) n), (- ((n + 2 ^ (bits ty - 1)) / 2 ^ bits ty)). split; [reflexivity|]. unfold cast_signed.
  pose proof (Z.div_mod (n + 2 ^ (bits ty - 1)) (2 ^ bits ty) ltac:(lia)) as D. pose proof (Z.mod_pos_bound (n + 2 ^ (bits ty - 1)) (2 ^ bits ty) ltac:(lia)).
  split; lia.
Qed.
Print Assumptions C77_integers.
(** So an integer of the type is read back... *)
Theorem C77_printed_integer : forall ty n w, - type_max ty - 1 <= n <= type_max ty -> ~ starts_with Duration_Spec.digit w ->
  read_single_int ty (show_int n ++ w) = Ok (n, length (show_int n)).
Proof.
  intros ty n w Hn Nw. destruct (C77_integers ty n w) as (v & q & -> & Hv & E); [|exact Nw|].
  - destruct ty; cbn in *; lia.
  - assert (P : 0 <= type_max ty) by (destruct ty; cbn; lia).
    assert (q = 0) by nia. subst. do 2 f_equal. lia.
Qed.
Print Assumptions C77_printed_integer.
(** ...but one that is too large for the type is read as another integer without an
    error, while std::from_chars reports it (C47, C48). *)
Theorem C77_wrap_refuted : forall ty n, - 2 ^ 63 <= n < 2 ^ 63 -> ~ (- type_max ty - 1 <= n <= type_max ty) ->
  (exists v k, read_single_int ty (show_int n) = Ok (v, k) /\ v <> n) /\
  read_single (integer (- type_max ty - 1) (type_max ty)) (show_int n) = Throw csv_read_error.
Proof.
  intros ty n H1 H2. split.
  - destruct (C77_integers ty n [] H1 (not_starts_nil _)) as (v & q & E & Hv & _). rewrite app_nil_r in E. exists v. eexists. split; [exact E|]. lia.
  - assert (P0 : 0 < type_max ty) by (destruct ty; cbn; lia).
    destruct (show_int_decimal n) as (d & -> & Nd & F & V & _). fold (decimal d) in V. unfold read_single.
    destruct (Z.ltb_spec n 0) as [L|L].
    + change (45 =? plus) with false. cbv iota beta zeta. unfold integer. rewrite (proj2 (Z.ltb_lt _ 0)) by lia. change (45 =? 45) with true. cbn [andb]. cbv iota beta zeta.
      rewrite (leading_digits_of d F), V. destruct d as [|c d]; [congruence|]. destruct (_ && _) eqn:E; [|reflexivity]. apply andb_true_iff in E as [A B]. apply Z.leb_le in A, B. lia.
    + destruct d as [|c d']; [congruence|]. pose proof (Forall_inv F) as Hc. cbn beta in Hc.
      replace (c =? plus) with false by (symmetry; apply Z.eqb_neq; unfold plus; lia). cbv iota beta zeta. unfold integer.
      replace (c =? 45) with false by (symmetry; apply Z.eqb_neq; lia). cbn [andb]. cbv iota beta zeta. rewrite (leading_digits_of (c :: d') F), V.
      destruct (_ && _) eqn:E; [|reflexivity]. apply andb_true_iff in E as [A B]. apply Z.leb_le in A, B. lia.
Qed.
Print Assumptions C77_wrap_refuted.
(** 4294967301 is read as the int 5, 32768 as the short -32768. *)
Example C77_wrap_example : read_single_int CInt (bytes "4294967301") = Ok (5, 10%nat) /\ read_single_int CShort (bytes "32768,1") = Ok (-32768, 5%nat).
Proof. split; reflexivity. Qed.

(** A number outside the 64 bits of strtol is rejected, for every integer type. *)
Theorem C77_beyond_64_bits : forall ty n w, ~ (-9223372036854775808 <= n <= 9223372036854775807) -> ~ starts_with Duration_Spec.digit w ->
  read_single_int ty (show_int n ++ w) = Throw csv_read_error.
Proof.
  intros ty n w Hn Nw. destruct (strto_show n w Nw) as (neg & S & E). unfold read_single_int. rewrite S, E.
  destruct (_ && _) eqn:K; [|reflexivity]. apply andb_true_iff in K as [A B]. apply Z.leb_le in A. apply Z.ltb_lt in B.
  change (- 2 ^ 63) with (-9223372036854775808) in A. change (2 ^ 63) with 9223372036854775808 in B. lia.
Qed.
Print Assumptions C77_beyond_64_bits.
Example C77_beyond_64_bits_example : read_single_int CLong (bytes "9223372036854775808,1") = Throw csv_read_error /\ read_single_int CLongLong (bytes "-9223372036854775808") = Ok (-9223372036854775808, 20%nat).
Proof. split; reflexivity. Qed.
