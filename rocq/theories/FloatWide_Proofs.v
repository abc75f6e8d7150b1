(** Proofs for C96. *)
From Flocq Require Import Core Relative.
From Coq Require Import Reals Lra.
From Verif Require Import Base Bytes Duration_Spec Duration_Model Duration_Proofs Csv_Spec Csv_Model Csv_Proofs Csv_Numbers Print_Spec Print_Model Print_Ints
  FloatIO_Model FloatIO_Spec FloatIO_Proofs FloatIO_Props FromChars_Model Stod_Model Stod_Spec Stod_Proofs Stod_Props FloatStr_Model FloatStr_Spec FloatStr_Props
  FloatWide_Model FloatWide_Spec.
Local Open Scope Z_scope.

(** ** The grammar *)
Lemma convert_spec fmt neg m e v : 0 <= m -> 0 < prec fmt ->
  convert fmt neg m e = Some v <->
  (IZR m * powerRZ 10 e < largest fmt)%R /\ (m = 0 \/ (smallest fmt < IZR m * powerRZ 10 e)%R) /\ v = Fin neg (nearest fmt (IZR m * powerRZ 10 e)).
Proof.
  intros Hm Hp. unfold convert, largest, smallest, nearest. rewrite !powerRZ_2. set (a := (IZR m * powerRZ 10 e)%R).
  destruct (Rle_dec _ a) as [L|L]; [split; [discriminate|intros (K & _); lra]|].
  destruct (Z.eqb_spec m 0) as [E|N].
  - assert (A0 : a = 0%R) by (unfold a; rewrite E; apply Rmult_0_l). rewrite A0. rewrite round_0 by apply valid_rnd_N.
    split; [intros K; injection K as <-|intros (_ & _ & ->)]; [|reflexivity]. split; [rewrite <- A0; lra|]. auto.
  - destruct (Rle_dec a _) as [L2|L2]; [split; [discriminate|intros (_ & [K|K] & _); [congruence|lra]]|].
    split; [intros K; injection K as <-|intros (_ & _ & ->)]; [|reflexivity]. split; [lra|]. split; [right; lra|reflexivity].
Qed.
Lemma spelled_length w s r : spelled w s r -> length s = (length w + length r)%nat.
Proof. intros (p & -> & F). rewrite app_length. f_equal. induction F; cbn [length]; congruence. Qed.
Lemma unsigned_length s m e r : unsigned_at s m e r -> (length r < length s)%nat.
Proof.
  intros U. assert (N : number_at (45 :: s) (Dec true m e) r \/ True) by auto. clear N.
  destruct U as [ip fp tail tail' e' rest R1 Ht NE X].
  assert (L : (length rest <= length tail')%nat).
  { destruct X as [X|(_ & -> & _)]; [|lia]. destruct X as [c sign d rest _ _ _ _]. cbn [length]. rewrite !app_length. lia. }
  assert (L2 : (length tail' + length fp <= length tail)%nat).
  { destruct Ht as [(-> & -> & _)|(-> & _)]; cbn [length]; rewrite ?app_length; lia. }
  assert (L3 : (0 < length ip + length fp)%nat) by (rewrite <- app_length; destruct (ip ++ fp); [congruence|cbn; lia]).
  rewrite app_length. lia.
Qed.
Lemma in_parentheses_length t r : in_parentheses t r -> (length r <= length t)%nat.
Proof. intros (w & -> & _). cbn [length]. rewrite app_length. cbn [length]. lia. Qed.
Lemma reads_as_length fmt s v r : reads_as fmt s v r -> (length r < length s)%nat.
Proof.
  assert (IFL : forall (b : bool) (t : list Z), (length t <= length (if b then (45 :: t)%Z else t))%nat) by (intros [] t; cbn; lia).
  intros [neg s' m e rest U _ _ _|neg w s' rest Hw H|neg s' tail rest H Tl]; (eapply Nat.lt_le_trans; [|apply IFL]).
  - now apply unsigned_length in U.
  - apply spelled_length in H. destruct Hw as [->|[-> _]]; cbn in H; lia.
  - apply spelled_length in H. cbn in H. destruct Tl as [P|[-> _]]; [apply in_parentheses_length in P|]; lia.
Qed.
Lemma wide_complete fmt s v r : 0 < prec fmt -> reads_as fmt s v r -> from_chars_wide fmt s = Some (v, length s - length r)%nat.
Proof.
  intros Hp H. unfold from_chars_wide. destruct H as [neg s m e rest U N B1 B2|neg w s rest Hw Sp|neg s tail rest Sp Tl].
  - assert (E : match eat 45 (if neg then 45 :: s else s) with Some t => (true, t) | None => (false, if neg then 45 :: s else s) end = (neg, s)).
    { destruct neg; [cbn [eat]; now rewrite Z.eqb_refl|]. now rewrite (proj2 (eat_none 45 s) (N eq_refl)). }
    rewrite E.
    rewrite (no_word (bytes "infinity") 105 s m e rest (ex_intro _ _ eq_refl) ltac:(lia) word_infinity U).
    rewrite (no_word (bytes "inf") 105 s m e rest (ex_intro _ _ eq_refl) ltac:(lia) word_inf U).
    rewrite (no_word (bytes "nan") 110 s m e rest (ex_intro _ _ eq_refl) ltac:(lia) word_nan U).
    assert (Sc := scan_decimal_complete s m e rest U). rewrite Sc.
    destruct (scan_decimal_at s _ _ Sc) as (m' & e' & Em & _ & M0). injection Em as <- <-.
    now rewrite (proj2 (convert_spec fmt neg m e (Fin neg (nearest fmt (IZR m * powerRZ 10 e))) M0 Hp)) by auto.
  - assert (FS : starts_with (fun c => c = 105 \/ c + 32 = 105) s).
    { destruct Hw as [->|[-> _]]; eapply spelled_first; try exact Sp; try lia; eexists; reflexivity. }
    assert (E : match eat 45 (if neg then 45 :: s else s) with Some t => (true, t) | None => (false, if neg then 45 :: s else s) end = (neg, s)).
    { destruct neg; [cbn [eat]; now rewrite Z.eqb_refl|]. rewrite (proj2 (eat_none 45 s)); [reflexivity|]. intros (c & t & -> & <-). rewrite starts_cons in FS. lia. }
    rewrite E. destruct Hw as [->|[-> N]].
    + now rewrite (proj2 (strip_prefix_spec _ _ rest word_infinity) Sp).
    + rewrite (proj2 (strip_prefix_none _ s word_infinity) N). now rewrite (proj2 (strip_prefix_spec _ _ rest word_inf) Sp).
  - assert (FS : starts_with (fun c => c = 110 \/ c + 32 = 110) s).
    { eapply spelled_first; try exact Sp; try lia; eexists; reflexivity. }
    assert (E : match eat 45 (if neg then 45 :: s else s) with Some t => (true, t) | None => (false, if neg then 45 :: s else s) end = (neg, s)).
    { destruct neg; [cbn [eat]; now rewrite Z.eqb_refl|]. rewrite (proj2 (eat_none 45 s)); [reflexivity|]. intros (c & t & -> & <-). rewrite starts_cons in FS. lia. }
    rewrite E.
    assert (N1 : strip_prefix (bytes "infinity") s = None).
    { apply strip_prefix_none; [exact word_infinity|]. intros (r' & Sp').
      destruct (spelled_first _ 105 _ _ (ex_intro _ _ eq_refl) ltac:(lia) Sp') as (c & t & -> & C). rewrite starts_cons in FS. lia. }
    assert (N2 : strip_prefix (bytes "inf") s = None).
    { apply strip_prefix_none; [exact word_inf|]. intros (r' & Sp').
      destruct (spelled_first _ 105 _ _ (ex_intro _ _ eq_refl) ltac:(lia) Sp') as (c & t & -> & C). rewrite starts_cons in FS. lia. }
    rewrite N1, N2. rewrite (proj2 (strip_prefix_spec _ _ tail word_nan) Sp).
    replace (nan_tail tail) with rest; [reflexivity|]. symmetry.
    destruct Tl as [P|[-> P]]; [now apply nan_tail_complete|]. destruct (nan_tail_sound tail) as [Q|[Q _]]; [elim P; eauto|exact Q].
Qed.
Lemma wide_sound fmt s v k : 0 < prec fmt -> from_chars_wide fmt s = Some (v, k) -> exists r, reads_as fmt s v r /\ k = (length s - length r)%nat.
Proof.
  intros Hp. unfold from_chars_wide.
  assert (E : exists neg u, match eat 45 s with Some t => (true, t) | None => (false, s) end = (neg, u) /\ s = (if neg then 45 :: u else u) /\ (neg = false -> ~ starts_with (eq 45) u)).
  { destruct (eat 45 s) as [t|] eqn:E; [exists true, t|exists false, s]; (split; [reflexivity|]).
    - apply eat_some in E. split; [exact E|discriminate].
    - split; [reflexivity|]. intros _. now apply eat_none. }
  destruct E as (neg & u & -> & Es & N).
  destruct (strip_prefix (bytes "infinity") u) as [r1|] eqn:E1.
  { intros K. injection K as <- <-. exists r1. split; [|reflexivity]. rewrite Es. apply (ReadsInfinity fmt neg (bytes "infinity")); [now left|]. now apply strip_prefix_spec; [apply word_infinity|]. }
  destruct (strip_prefix (bytes "inf") u) as [r1|] eqn:E2.
  { intros K. injection K as <- <-. exists r1. split; [|reflexivity]. rewrite Es. apply (ReadsInfinity fmt neg (bytes "inf")).
    - right. split; [reflexivity|]. apply strip_prefix_none; [apply word_infinity|exact E1].
    - now apply strip_prefix_spec; [apply word_inf|]. }
  destruct (strip_prefix (bytes "nan") u) as [r1|] eqn:E3.
  { intros K. injection K as <- <-. exists (nan_tail r1). split; [|reflexivity]. rewrite Es. apply (ReadsNan fmt neg u r1); [now apply strip_prefix_spec; [apply word_nan|]|].
    destruct (nan_tail_sound r1) as [Q|[Q1 Q2]]; [now left|]. right. now rewrite Q1. }
  destruct (scan_decimal u) as [[x r]|] eqn:Sc; [|discriminate]. destruct (scan_decimal_at u x r Sc) as (m & e & -> & U & M0).
  destruct (convert fmt neg m e) as [v'|] eqn:C; [|discriminate]. intros K. injection K as <- <-.
  apply (convert_spec fmt neg m e v' M0 Hp) in C. destruct C as (B1 & B2 & ->). exists r. split; [|reflexivity]. rewrite Es. now apply ReadsNumber.
Qed.
Lemma scan_decimal_local sep t s : number_char sep = false ->
  scan_decimal (s ++ sep :: t) = match scan_decimal s with Some (x, r) => Some (x, r ++ sep :: t) | None => None end.
Proof.
  intros Hc. unfold scan_decimal. rewrite (digits_local sep t Hc). destruct (digits s) as [ip r1]. cbn [fst snd].
  rewrite (eat_local sep t Hc 46 r1 eq_refl). destruct (eat 46 r1) as [u|].
  - rewrite (digits_local sep t Hc). destruct (digits u) as [fp r2]. cbn [fst snd]. destruct (ip ++ fp); [reflexivity|].
    rewrite (scan_exponent_local sep t Hc). destruct (scan_exponent r2). reflexivity.
  - rewrite app_nil_r. destruct ip; [reflexivity|]. rewrite (scan_exponent_local sep t Hc). destruct (scan_exponent r1). reflexivity.
Qed.
Lemma wide_local fmt sep t s : number_char sep = false -> from_chars_wide fmt (s ++ sep :: t) = from_chars_wide fmt s.
Proof.
  intros Hc. unfold from_chars_wide. rewrite (eat_local sep t Hc 45 s eq_refl).
  set (p := match eat 45 s with Some t => (true, t) | None => (false, s) end).
  replace (match match eat 45 s with Some u => Some (u ++ sep :: t) | None => None end with Some u => (true, u) | None => (false, s ++ sep :: t) end)
    with (fst p, snd p ++ sep :: t) by (unfold p; now destruct (eat 45 s)).
  destruct p as [neg u]. cbn [fst snd]. rewrite (strip_prefix_local sep t Hc _ word_infinity), (strip_prefix_local sep t Hc _ word_inf), (strip_prefix_local sep t Hc _ word_nan).
  assert (L : forall r : list Z, (length (s ++ sep :: t) - length (r ++ sep :: t))%nat = (length s - length r)%nat) by (intros r; rewrite !app_length; lia).
  destruct (strip_prefix (bytes "infinity") u); [now rewrite L|]. destruct (strip_prefix (bytes "inf") u); [now rewrite L|].
  destruct (strip_prefix (bytes "nan") u); [now rewrite (nan_tail_local sep t Hc), L|].
  rewrite (scan_decimal_local sep t u Hc). destruct (scan_decimal u) as [[[m e|m e| |] r]|]; try reflexivity. now rewrite L.
Qed.
Lemma wide_separates fmt sep : 0 < prec fmt -> number_char sep = false -> sep <> newline -> separates (from_chars_wide fmt) sep.
Proof.
  intros Hp Hc Hn. split; [exact Hn|]. split; [intros ->; discriminate Hc|]. split.
  - intros s v k K. apply wide_sound in K; [|exact Hp]. destruct K as (r & R & ->). apply reads_as_length in R. lia.
  - intros s t _. now apply wide_local.
Qed.

(** ** Reading back *)
Section Wide.
Context (fmt : format) (H : wide fmt).
Lemma wide_prec : 0 < prec fmt. Proof using H. destruct H as (? & _). lia. Qed.
Instance wide_prec_inst : Prec_gt_0 (prec fmt) := wide_prec.
Lemma wide_digits_enough : (0 < bpow radix10 (- Z.of_nat (max_digits10 fmt)) < bpow radix2 (- prec fmt))%R.
Proof using H.
  split; [apply bpow_gt_0|]. destruct H as (Hp & _ & _ & _ & Hd & _). rewrite !bpow_opp. apply Rinv_lt_contravar.
  - apply Rmult_lt_0_compat; apply bpow_gt_0.
  - rewrite <- (IZR_Zpower radix2) by lia. rewrite bpow10_Z by lia. apply IZR_lt. exact Hd.
Qed.
Lemma wide_reads p x : representable fmt x -> (0 < x)%R -> (max_digits10 fmt <= p)%nat -> let d := decimal_round p x in
  nearest fmt d = x /\ (smallest fmt < d < largest fmt)%R.
Proof using H.
  intros Hr Hx Hp d. unfold nearest, smallest, largest. rewrite !powerRZ_2. destruct (wide_format fmt x H Hr) as [Fx Bx].
  assert (Q : (0 < bpow radix10 (- Z.of_nat p) < bpow radix2 (- prec fmt))%R).
  { split; [apply bpow_gt_0|]. eapply Rle_lt_trans; [apply (bpow_le radix10 _ (- Z.of_nat (max_digits10 fmt))); lia|apply wide_digits_enough]. }
  pose proof (decimal_round_error p x) as Er. fold d in Er. rewrite (Rabs_pos_eq x) in Er by lra.
  destruct (near (prec fmt) (emin fmt) wide_prec x d _ Fx Hx Q Er) as [[B1 B2] R]. split; [exact R|]. split.
  - eapply Rle_lt_trans; [|exact B1]. assert (P0 : (0 <= pred radix2 (fexp fmt) x)%R) by (apply pred_ge_0; auto; typeclasses eauto).
    assert (P1 : (bpow radix2 (emin fmt) <= x)%R).
    { apply (generic_format_ge_bpow radix2 (fexp fmt)); auto. intros e. unfold fexp, FLT_exp. lia. }
    unfold Z.sub. rewrite bpow_plus. change (bpow radix2 (Z.opp 1)) with (/ 2)%R. unfold fexp in P0. lra.
  - eapply Rlt_le_trans; [exact B2|]. rewrite succ_eq_pos by lra.
    destruct H as (Hp2 & _ & _ & He & _).
    assert (C : cexp radix2 (fexp fmt) x <= emax fmt - prec fmt).
    { unfold cexp, fexp, FLT_exp. assert (mag radix2 x <= emax fmt) by (apply mag_le_bpow; [lra|rewrite Rabs_pos_eq; lra]). lia. }
    assert (U : (ulp radix2 (FLT_exp (emin fmt) (prec fmt)) x <= bpow radix2 (emax fmt - prec fmt))%R) by (rewrite ulp_neq_0 by lra; now apply bpow_le).
    assert (M : (x <= bpow radix2 (emax fmt) - bpow radix2 (emax fmt - prec fmt))%R).
    { assert (Fe : fexp fmt (emax fmt) = emax fmt - prec fmt) by (unfold fexp, FLT_exp; lia).
      rewrite <- Fe, <- (pred_bpow radix2 (fexp fmt)). apply pred_ge_gt; auto; try typeclasses eauto; [|lra].
      apply generic_format_bpow. unfold fexp, FLT_exp. lia. }
    replace (emax fmt - prec fmt - 1) with (-1 + (emax fmt - prec fmt)) by lia. rewrite bpow_plus. change (bpow radix2 (-1)) with (/ 2)%R. lra.
Qed.
Lemma wide_convert neg p x : representable fmt x -> (max_digits10 fmt <= p)%nat -> let d := decimal_round p x in
  convert fmt neg (sci_digits p d) (sci_exponent d - Z.of_nat p) = Some (Fin neg x).
Proof using H.
  intros Hr Hp d. assert (X0 : (0 <= x)%R) by apply Hr. destruct (sci_split p x d eq_refl X0) as (E1 & E2 & E3).
  apply convert_spec; [lia|apply wide_prec|]. rewrite <- E1. destruct (Req_dec x 0) as [Zx|Nx].
  - assert (D0 : d = 0%R) by (unfold d; rewrite Zx; apply decimal_round_0). split; [|split; [left; now apply E3|]].
    + rewrite D0. unfold largest. rewrite !powerRZ_2. destruct H as (Hp2 & _). assert (bpow radix2 (emax fmt - prec fmt - 1) < bpow radix2 (emax fmt))%R by (apply bpow_lt; lia). lra.
    + rewrite D0, Zx. unfold nearest. now rewrite round_0 by apply valid_rnd_N.
  - destruct (wide_reads p x Hr ltac:(lra) Hp) as [R B]. fold d in R, B. split; [apply B|]. split; [right; apply B|]. now rewrite R.
Qed.
(** Any text of the grammar with the digits and the exponent of the decimal. *)
Lemma wide_text (neg : bool) p x u : representable fmt x -> (max_digits10 fmt <= p)%nat -> let d := decimal_round p x in
  unsigned_at u (sci_digits p d) (sci_exponent d - Z.of_nat p) [] ->
  from_chars_wide fmt (if neg then 45 :: u else u) = Some (Fin neg x, length (if neg then 45 :: u else u)).
Proof using H.
  intros Hr Hp d U. assert (C := wide_convert neg p x Hr Hp). cbv zeta in C. fold d in C.
  assert (Sc := scan_decimal_complete u _ _ _ U). destruct (scan_decimal_at u _ _ Sc) as (m' & e' & Em & _ & M0). injection Em as <- <-.
  apply convert_spec in C; [|exact M0|apply wide_prec]. destruct C as (B1 & B2 & E).
  rewrite (wide_complete fmt _ (Fin neg x) []); [now rewrite Nat.sub_0_r|apply wide_prec|]. rewrite E. apply ReadsNumber; auto.
  intros _ (c & r & -> & <-). apply unsigned_first in U. rewrite starts_cons in U. unfold Duration_Spec.digit in U. lia.
Qed.
Lemma wide_to_chars p v : value_in fmt v -> (max_digits10 fmt <= p)%nat -> from_chars_wide fmt (to_chars v p) = Some (v, length (to_chars v p)).
Proof using H.
  intros Hv Hp. destruct v as [neg x|neg|neg]; [|destruct neg; reflexivity|destruct neg; reflexivity].
  cbn [value_in] in Hv. assert (X0 : (0 <= x)%R) by apply Hv.
  assert (E : to_chars (Fin neg x) p = if neg then 45 :: scientific p x else scientific p x) by (unfold to_chars; cbn [signbit]; now destruct neg).
  rewrite E. apply (wide_text neg p x); auto. exact (scientific_at p x X0).
Qed.
End Wide.
Lemma to_chars_room v p : (p <= 50)%nat -> (forall neg x, v = Fin neg x -> Z.abs (sci_exponent (decimal_round p x)) < 10000) ->
  (length (to_chars v p) <= (if signbit v then 1 else 0) + 58)%nat.
Proof.
  intros Hp Hs. unfold to_chars. rewrite app_length. apply Nat.add_le_mono; [now destruct (signbit v)|].
  destruct v as [neg x|neg|neg]; [|cbn; lia|cbn; lia]. specialize (Hs neg x eq_refl). pose proof (scientific_length p x Hs) as L. cbv zeta in L.
  assert (R : 55 <= room (sci_exponent (decimal_round p x)) <= 57) by (unfold room; destruct (_ <? 100); [lia|]; destruct (_ <? 1000); lia).
  destruct (p =? 0)%nat; lia.
Qed.
(** ** The ranges of strtof, strtod, strtold *)
Section WideRange.
Context (fmt : format) (H : 2 <= prec fmt).
Instance wide_prec_i : Prec_gt_0 (prec fmt). Proof. unfold Prec_gt_0. lia. Qed.
Local Notation F := (generic_format radix2 (fexp fmt)).
Local Notation rd := (round radix2 (fexp fmt) ZnearestE).
Local Notation rx := (round radix2 (FLX_exp (prec fmt)) ZnearestE).

Lemma wide_format_min a : F a -> (0 < a)%R -> (bpow radix2 (emin fmt) <= a)%R.
Proof using H.
  intros Fa Ha. apply generic_format_ge_bpow with (2 := Ha) (3 := Fa). intros e. unfold fexp, FLT_exp. lia.
Qed.
Lemma wide_overflows_spec a : overflows fmt a = false <-> (a < bpow radix2 (emax fmt) - bpow radix2 (emax fmt - prec fmt - 1))%R.
Proof.
  unfold overflows. destruct (Rle_dec _ a) as [L|L]; split; intros K; try discriminate; try reflexivity; lra.
Qed.
Lemma wide_underflows_zero : underflows fmt 0 = false.
Proof using H.
  unfold underflows. destruct (Rlt_dec _ _); [|reflexivity]. destruct (Req_EM_T _ _) as [_|N]; [reflexivity|].
  exfalso. apply N. apply round_0. typeclasses eauto.
Qed.
Lemma wide_underflows_tiny a : (0 < a <= bpow radix2 (emin fmt - 1))%R -> underflows fmt a = true.
Proof using H.
  intros [A0 A1]. unfold underflows.
  assert (X : (rx a <= bpow radix2 (emin fmt - 1))%R).
  { apply round_le_generic; try typeclasses eauto; [|exact A1]. apply generic_format_bpow. unfold FLX_exp. pose proof wide_prec_i as P. unfold Prec_gt_0 in P. lia. }
  assert (Y : (bpow radix2 (emin fmt - 1) < bpow radix2 (emin fmt + prec fmt - 1))%R).
  { apply bpow_lt. pose proof wide_prec_i as P. unfold Prec_gt_0 in P. lia. }
  destruct (Rlt_dec _ _) as [_|L]; [|lra].
  destruct (Req_EM_T (rd a) a) as [E|_]; [|reflexivity]. exfalso.
  assert (Fa : F a) by (rewrite <- E; apply generic_format_round; typeclasses eauto).
  pose proof (wide_format_min a Fa A0) as M. assert (bpow radix2 (emin fmt - 1) < bpow radix2 (emin fmt))%R by (apply bpow_lt; lia). lra.
Qed.
(** A number that rounds to more than the smallest normal number does not underflow. *)
Lemma wide_underflows_normal a : (bpow radix2 (emin fmt + prec fmt - 1) < rd a)%R -> underflows fmt a = false.
Proof using H.
  intros A. unfold underflows. set (N := bpow radix2 (emin fmt + prec fmt - 1)) in *.
  assert (P : 2 <= prec fmt) by exact H.
  assert (FN : F N) by (apply generic_format_bpow; unfold fexp, FLT_exp; lia).
  assert (L : (N < a)%R).
  { apply Rnot_le_lt. intros L. assert (rd a <= N)%R by (apply round_le_generic; auto; typeclasses eauto). lra. }
  assert (G : (N <= rx a)%R).
  { apply round_ge_generic; try typeclasses eauto; [|lra]. apply generic_format_bpow. unfold FLX_exp. lia. }
  destruct (Rlt_dec _ _) as [K|_]; [|reflexivity]. lra.
Qed.
End WideRange.
