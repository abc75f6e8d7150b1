(** Proofs about duration parsing: the scanner. *)
From Flocq Require Import Core.
From Coq Require Import Reals Lra.
From Verif Require Import Base Bytes Duration_Model Duration_Spec.
Local Open Scope Z_scope.
Local Arguments Z.add : simpl never.
Local Arguments Z.sub : simpl never.
Local Arguments Z.mul : simpl never.
Local Arguments Z.pow : simpl never.
Local Arguments Z.eqb : simpl never.
Local Arguments Z.leb : simpl never.

Lemma is_digit_spec c : is_digit c = true <-> digit c.
Proof. unfold is_digit, digit. rewrite andb_true_iff, !Z.leb_le. tauto. Qed.

Lemma not_starts_nil P : ~ starts_with P [].
Proof. intros (c & r & [=] & _). Qed.

Lemma starts_cons (P : Z -> Prop) c r : starts_with P (c :: r) <-> P c.
Proof. split; [intros (c' & r' & [= <- <-] & H); exact H|intros H; exists c, r; auto]. Qed.

Lemma digits_sound s : run_of_digits (fst (digits s)) (snd (digits s)) /\ s = fst (digits s) ++ snd (digits s).
Proof.
  induction s as [|c s [[F N] E]]; cbn [digits].
  - split; [split; [constructor|apply not_starts_nil]|reflexivity].
  - destruct (is_digit c) eqn:D.
    + destruct (digits s) as [d r]. cbn [fst snd] in *. split; [split; [constructor; [now apply is_digit_spec|exact F]|exact N]|].
      cbn. now rewrite <- E.
    + cbn [fst snd]. split; [split; [constructor|rewrite starts_cons, <- is_digit_spec; now rewrite D]|reflexivity].
Qed.

Lemma digits_complete d r : run_of_digits d r -> digits (d ++ r) = (d, r).
Proof.
  intros [F N]. induction F as [|c d C F IH]; cbn [app].
  - destruct r as [|c r]; [reflexivity|]. cbn [digits]. destruct (is_digit c) eqn:D; [|reflexivity].
    exfalso. apply N. rewrite starts_cons. now apply is_digit_spec.
  - cbn [digits]. rewrite (proj2 (is_digit_spec c) C), IH. reflexivity.
Qed.

Lemma digits_value_acc d v : fold_left (fun v c => 10 * v + (c - 48)) d v = v * 10 ^ Z.of_nat (length d) + value d.
Proof.
  revert v; induction d as [|c d IH]; intros v; cbn [fold_left value length].
  - cbn. lia.
  - rewrite IH, Nat2Z.inj_succ, Z.pow_succ_r by lia. ring.
Qed.

Lemma digits_value_spec d : digits_value d = value d.
Proof. unfold digits_value. rewrite digits_value_acc. lia. Qed.

Lemma value_nonneg d : Forall digit d -> 0 <= value d.
Proof.
  induction 1 as [|c d C _ IH]; cbn [value]; [lia|]. unfold digit in C.
  pose proof (Z.pow_nonneg 10 (Z.of_nat (length d)) ltac:(lia)). nia.
Qed.

Lemma eat_some k s t : eat k s = Some t <-> s = k :: t.
Proof.
  destruct s as [|c s]; cbn; [split; discriminate|]. destruct (Z.eqb_spec c k) as [->|N].
  - split; congruence.
  - split; congruence.
Qed.

Lemma eat_none k s : eat k s = None <-> ~ starts_with (eq k) s.
Proof.
  destruct s as [|c s]; cbn.
  - split; [intros _; apply not_starts_nil|reflexivity].
  - rewrite starts_cons. destruct (Z.eqb_spec c k) as [->|N]; split; try congruence.
Qed.

(** Exponents. *)
Lemma scan_exponent_complete s e r : exponent s e r -> scan_exponent s = (e, r).
Proof.
  intros [c sign d rest Hc Hs Nd R]. unfold scan_exponent.
  assert (Ec : (c =? 101) || (c =? 69) = true) by (destruct Hc as [-> | ->]; reflexivity). rewrite Ec. clear Ec.
  assert (Dc : digits (d ++ rest) = (d, rest)) by now apply digits_complete.
  destruct d as [|x d]; [congruence|].
  assert (X : digit x) by (destruct R as [F _]; now apply Forall_inv in F). unfold digit in X.
  destruct Hs as [-> | [-> | ->]].
  - cbn [app]. cbn [app] in Dc. cbn [eat]. destruct (Z.eqb_spec x 43); [lia|]. destruct (Z.eqb_spec x 45); [lia|].
    rewrite Dc. rewrite digits_value_spec. reflexivity.
  - cbn [app]. cbn [app] in Dc. cbn [eat]. rewrite Z.eqb_refl, Dc, digits_value_spec. reflexivity.
  - cbn [app]. cbn [app] in Dc. cbn [eat]. change (45 =? 43) with false. cbn match. rewrite Z.eqb_refl, Dc, digits_value_spec. reflexivity.
Qed.

Lemma scan_exponent_sound s : exponent s (fst (scan_exponent s)) (snd (scan_exponent s)) \/
  (scan_exponent s = (0, s) /\ ~ exists e' r, exponent s e' r).
Proof.
  assert (X : (exists e' r, exponent s e' r) \/ scan_exponent s = (0, s)).
  { unfold scan_exponent. destruct s as [|c s]; [now right|].
    destruct ((c =? 101) || (c =? 69)) eqn:Ec; [|now right].
    assert (Hc : c = 101 \/ c = 69) by (rewrite orb_true_iff, !Z.eqb_eq in Ec; exact Ec).
    destruct (eat 43 s) as [t|] eqn:E1; [|destruct (eat 45 s) as [t|] eqn:E2].
    - apply eat_some in E1 as ->. destruct (digits_sound t) as [R E]. destruct (digits t) as [d r]. cbn [fst snd] in *.
      destruct d as [|x d]; [now right|]. left. exists (value (x :: d)), r. rewrite E.
      exact (Exponent c [43] (x :: d) r Hc (or_intror (or_introl eq_refl)) ltac:(discriminate) R).
    - apply eat_some in E2 as ->. destruct (digits_sound t) as [R E]. destruct (digits t) as [d r]. cbn [fst snd] in *.
      destruct d as [|x d]; [now right|]. left. exists (- value (x :: d)), r. rewrite E.
      exact (Exponent c [45] (x :: d) r Hc (or_intror (or_intror eq_refl)) ltac:(discriminate) R).
    - destruct (digits_sound s) as [R E]. destruct (digits s) as [d r]. cbn [fst snd] in *.
      destruct d as [|x d]; [now right|]. left. exists (value (x :: d)), r. rewrite E.
      exact (Exponent c [] (x :: d) r Hc (or_introl eq_refl) ltac:(discriminate) R). }
  destruct X as [(e & r & H)|X].
  - left. now rewrite (scan_exponent_complete s e r H).
  - destruct (scan_exponent s) as [e0 r0] eqn:S0. injection X as -> ->.
    destruct s as [|c s']; [right; split; [reflexivity|intros (e' & r' & H); inversion H]|].
    right. split; [reflexivity|]. intros (e' & r' & H). pose proof (scan_exponent_complete _ _ _ H) as C.
    rewrite S0 in C. injection C as <- <-. 
    assert (L : forall s e r, exponent s e r -> (length r < length s)%nat).
    { intros s0 e0 r0 [c0 sign d rest Hc Hs Nd R]. cbn [length]. rewrite !app_length. lia. }
    apply L in H. lia.
Qed.

(** Words. *)
Lemma lower_spec a b : (97 <= a <= 122) -> (a =? lower b) = true <-> same_letter a b.
Proof.
  intros A. unfold lower, same_letter. rewrite Z.eqb_eq.
  destruct ((65 <=? b) && (b <=? 90)) eqn:E.
  - apply andb_true_iff in E as [E1 E2]. apply Z.leb_le in E1, E2. lia.
  - apply andb_false_iff in E. rewrite !Z.leb_gt in E. lia.
Qed.

Lemma strip_prefix_spec p s r : Forall (fun a => 97 <= a <= 122) p -> strip_prefix p s = Some r <-> spelled p s r.
Proof.
  intros F. revert s; induction F as [|a p A F IH]; intros s; cbn [strip_prefix].
  - split.
    + intros [= ->]. exists []. split; [reflexivity|constructor].
    + intros (q & -> & H). inversion H. reflexivity.
  - destruct s as [|b s].
    + split; [discriminate|]. intros (q & E & H). inversion H; subst. discriminate.
    + destruct (a =? lower b) eqn:E.
      * rewrite IH. apply lower_spec in E; [|exact A]. split.
        -- intros (q & -> & H). exists (b :: q). split; [reflexivity|now constructor].
        -- intros (q & E2 & H). inversion H as [|? b' ? q' L Fq]; subst. injection E2 as -> ->. exists q'. auto.
      * split; [discriminate|]. intros (q & E2 & H). inversion H as [|? b' ? q' L Fq]; subst. injection E2 as -> ->.
        apply lower_spec in L; [|exact A]. congruence.
Qed.

Lemma strip_prefix_none p s : Forall (fun a => 97 <= a <= 122) p -> strip_prefix p s = None <-> ~ exists r, spelled p s r.
Proof.
  intros F. split.
  - intros E (r & H). apply (strip_prefix_spec p s r F) in H. congruence.
  - intros N. destruct (strip_prefix p s) as [r|] eqn:E; [|reflexivity]. exfalso. apply N. exists r. now apply strip_prefix_spec.
Qed.

Lemma word_inf : Forall (fun a => 97 <= a <= 122) (bytes "inf").
Proof. repeat constructor; vm_compute; discriminate. Qed.
Lemma word_infinity : Forall (fun a => 97 <= a <= 122) (bytes "infinity").
Proof. repeat constructor; vm_compute; discriminate. Qed.
Lemma word_nan : Forall (fun a => 97 <= a <= 122) (bytes "nan").
Proof. repeat constructor; vm_compute; discriminate. Qed.

(** The range check. *)
Lemma pow10_pos e : 0 < 10 ^ e \/ e < 0.
Proof. destruct (Z_lt_le_dec e 0); [now right|left]. apply Z.pow_pos_nonneg; lia. Qed.

Lemma powerRZ_nonneg e : 0 <= e -> powerRZ 10 e = IZR (10 ^ e).
Proof.
  intros H. destruct e as [|p|p]; [reflexivity| |lia]. cbn [powerRZ].
  rewrite pow_IZR. f_equal. now rewrite positive_nat_Z.
Qed.
Lemma powerRZ_neg' e : e < 0 -> powerRZ 10 e = (/ IZR (10 ^ (- e)))%R.
Proof.
  intros H. destruct e as [|p|p]; try lia. cbn [powerRZ Z.opp].
  rewrite pow_IZR. do 2 f_equal. now rewrite positive_nat_Z.
Qed.

Lemma bpow2_nonneg e : 0 <= e -> bpow radix2 e = IZR (2 ^ e).
Proof. intros H. rewrite <- IZR_Zpower by exact H. reflexivity. Qed.

Lemma too_large_spec m e : too_large m e = false <-> (IZR m * powerRZ 10 e < bpow radix2 1024 - bpow radix2 970)%R.
Proof.
  unfold too_large. rewrite (bpow2_nonneg 1024), (bpow2_nonneg 970) by lia. rewrite <- minus_IZR.
  generalize (2 ^ 1024 - 2 ^ 970). intros B. destruct (Z.leb_spec 0 e) as [H|H].
  - rewrite powerRZ_nonneg, <- mult_IZR by exact H. rewrite Z.leb_gt. split; [apply IZR_lt|apply lt_IZR].
  - rewrite powerRZ_neg' by exact H. rewrite Z.leb_gt.
    assert (P : 0 < 10 ^ (- e)) by (apply Z.pow_pos_nonneg; lia). apply IZR_lt in P.
    split.
    + intros L. apply IZR_lt in L. rewrite mult_IZR in L. apply Rmult_lt_reg_r with (IZR (10 ^ (- e))); [exact P|].
      rewrite Rmult_assoc, Rinv_l by lra. lra.
    + intros L. apply lt_IZR. rewrite mult_IZR. apply Rmult_lt_compat_r with (r := IZR (10 ^ (- e))) in L; [|exact P].
      rewrite Rmult_assoc, Rinv_l in L by lra. lra.
Qed.

Lemma too_small_spec m e : 0 <= m -> too_small m e = false <-> (m = 0 \/ (bpow radix2 (-1075) < IZR m * powerRZ 10 e)%R).
Proof.
  intros M. unfold too_small. destruct (Z.eqb_spec m 0) as [->|N]; [cbn; tauto|]. cbn [negb andb].
  change (-1075) with (- (1075)). rewrite bpow_opp, bpow2_nonneg by lia.
  assert (P2 : (1 < IZR (2 ^ 1075))%R).
  { apply (IZR_lt 1). apply Z.pow_gt_1; lia. }
  destruct (Z.leb_spec 0 e) as [H|H].
  - split; [intros _; right|reflexivity]. rewrite powerRZ_nonneg, <- mult_IZR by exact H.
    apply Rlt_le_trans with 1%R.
    + rewrite <- Rinv_1. apply Rinv_lt_contravar; lra.
    + apply (IZR_le 1). destruct (pow10_pos e); [nia|lia].
  - rewrite Z.leb_gt, powerRZ_neg' by exact H.
    assert (P : 0 < 10 ^ (- e)) by (apply Z.pow_pos_nonneg; lia). apply IZR_lt in P. revert P P2.
    generalize (10 ^ - e) (2 ^ 1075). intros a b P P2. split.
    + intros L. right. apply IZR_lt in L. rewrite mult_IZR in L.
      apply Rmult_lt_reg_r with (IZR a); [exact P|]. rewrite Rmult_assoc, Rinv_l by lra.
      apply Rmult_lt_reg_r with (IZR b); [lra|]. rewrite (Rmult_comm (/ IZR b)), Rmult_assoc, Rinv_l by lra. lra.
    + intros [->|L]; [congruence|]. apply lt_IZR. rewrite mult_IZR.
      apply Rmult_lt_compat_r with (r := IZR a) in L; [|exact P]. rewrite Rmult_assoc, Rinv_l in L by lra.
      apply Rmult_lt_compat_r with (r := IZR b) in L; [|lra]. rewrite (Rmult_comm (/ IZR b)), Rmult_assoc, Rinv_l in L by lra. lra.
Qed.

Lemma range_spec m e : 0 <= m -> too_large m e || too_small m e = false <-> in_range m e.
Proof. intros M. unfold in_range. rewrite orb_false_iff, too_large_spec, too_small_spec by exact M. reflexivity. Qed.

(** from_chars on what follows the sign. *)
Definition from_chars_unsigned (neg : bool) (s : list Z) : fc_result :=
  match strip_prefix (bytes "infinity") s, strip_prefix (bytes "inf") s, strip_prefix (bytes "nan") s with
  | Some r, _, _ => FcOk Inf r
  | _, Some r, _ => FcOk Inf r
  | _, _, Some r => FcOk NaN (nan_tail r)
  | None, None, None =>
    let '(ip, r1) := digits s in
    let '(fp, r2) := match eat 46 r1 with Some t => digits t | None => ([], r1) end in
    match ip ++ fp with
    | [] => FcInvalid
    | d =>
      let '(e, r) := scan_exponent r2 in
      let m := digits_value d in
      let e := e - Z.of_nat (length fp) in
      if too_large m e || too_small m e then FcRange else FcOk (Dec neg m e) r
    end
  end.

Lemma from_chars_split s : from_chars s = match eat 45 s with Some t => from_chars_unsigned true t | None => from_chars_unsigned false s end.
Proof. unfold from_chars. destruct (eat 45 s); reflexivity. Qed.

Lemma spelled_first w a s r : (exists w', w = a :: w') -> 97 <= a <= 122 -> spelled w s r -> starts_with (fun c => c = a \/ c + 32 = a) s.
Proof.
  intros (w' & ->) A (p & -> & H). inversion H as [|? b ? q L Fq]; subst. cbn [app]. apply starts_cons. unfold same_letter in L. lia.
Qed.

Lemma unsigned_first s m e r : unsigned_at s m e r -> starts_with (fun c => digit c \/ c = 46) s.
Proof.
  intros [ip fp tail tail' e' rest [F N] H NE _]. destruct F as [|c ip C F].
  - cbn [app] in *. destruct H as [(-> & _)|(-> & _)]; [congruence|]. apply starts_cons. now right.
  - cbn [app]. apply starts_cons. now left.
Qed.

Lemma unsigned_sound s : match (let '(ip, r1) := digits s in
    let '(fp, r2) := match eat 46 r1 with Some t => digits t | None => ([], r1) end in
    (ip, fp, r2)) with (ip, fp, r2) => ip ++ fp <> [] ->
      unsigned_at s (value (ip ++ fp)) (fst (scan_exponent r2) - Z.of_nat (length fp)) (snd (scan_exponent r2)) end.
Proof.
  destruct (digits_sound s) as [R1 E1]. destruct (digits s) as [ip r1]. cbn [fst snd] in *.
  destruct (eat 46 r1) as [t|] eqn:Et.
  - apply eat_some in Et as ->. destruct (digits_sound t) as [R2 E2]. destruct (digits t) as [fp r2]. cbn [fst snd] in *.
    intros NE. rewrite E1. apply (Unsigned ip fp (46 :: t) r2); auto.
    + right. now rewrite <- E2.
    + destruct (scan_exponent_sound r2) as [X|[X1 X2]]; [now left|right; rewrite X1; auto].
  - apply eat_none in Et. rewrite app_nil_r. intros NE. rewrite E1.
    replace ip with (ip ++ []) at 2 by apply app_nil_r.
    apply (Unsigned ip [] r1 r1); auto; [now rewrite app_nil_r|].
    destruct (scan_exponent_sound r1) as [X|[X1 X2]]; [now left|right; rewrite X1; auto].
Qed.

Lemma unsigned_complete s m e r : unsigned_at s m e r ->
  exists ip fp r1 r2 e0, digits s = (ip, r1) /\ match eat 46 r1 with Some t => digits t | None => ([], r1) end = (fp, r2) /\
    ip ++ fp <> [] /\ Forall digit (ip ++ fp) /\ m = value (ip ++ fp) /\ scan_exponent r2 = (e0, r) /\ e = e0 - Z.of_nat (length fp).
Proof.
  intros [ip fp tail tail' e0 rest R H NE X]. exists ip, fp, tail, tail', e0.
  split; [now apply digits_complete|]. split.
  - destruct H as [(-> & -> & N)|(-> & R2)].
    + now rewrite (proj2 (eat_none 46 tail) N).
    + cbn [eat]. rewrite Z.eqb_refl. now apply digits_complete.
  - split; [exact NE|]. split.
    { apply Forall_app. split; [apply R|]. destruct H as [(-> & _)|(_ & R2)]; [constructor|apply R2]. }
    split; [reflexivity|]. split; [|reflexivity].
    destruct X as [X|(-> & -> & X)]; [now apply scan_exponent_complete|].
    destruct (scan_exponent_sound tail') as [Y|[Y _]]; [exfalso; apply X; eauto|exact Y].
Qed.

Lemma no_word w a s m e r : (exists w', w = a :: w') -> 97 <= a <= 122 -> Forall (fun a => 97 <= a <= 122) w ->
  unsigned_at s m e r -> strip_prefix w s = None.
Proof.
  intros W A F U. apply strip_prefix_none; [exact F|]. intros (r' & Sp).
  destruct (spelled_first w a s r' W A Sp) as (c & t & -> & C). apply unsigned_first in U. rewrite starts_cons in U. unfold digit in U. lia.
Qed.

Lemma from_chars_unsigned_complete neg s m e r : unsigned_at s m e r -> in_range m e -> from_chars_unsigned neg s = FcOk (Dec neg m e) r.
Proof.
  intros U R. unfold from_chars_unsigned.
  rewrite (no_word (bytes "infinity") 105 s m e r (ex_intro _ _ eq_refl) ltac:(lia) word_infinity U).
  rewrite (no_word (bytes "inf") 105 s m e r (ex_intro _ _ eq_refl) ltac:(lia) word_inf U).
  rewrite (no_word (bytes "nan") 110 s m e r (ex_intro _ _ eq_refl) ltac:(lia) word_nan U).
  destruct (unsigned_complete s m e r U) as (ip & fp & r1 & r2 & e0 & -> & -> & NE & FD & -> & -> & ->).
  destruct (ip ++ fp) as [|c d] eqn:D; [congruence|]. rewrite digits_value_spec.
  now rewrite (proj2 (range_spec _ _ (value_nonneg _ FD)) R).
Qed.

Lemma word_char_spec c : word_char c = true <-> word c.
Proof. unfold word_char, word, is_digit, digit. rewrite !orb_true_iff, !andb_true_iff, !Z.leb_le, Z.eqb_eq. intuition. Qed.
Lemma skip_word_sound s : exists w, s = w ++ skip_word s /\ Forall word w.
Proof.
  induction s as [|c s (w & E & F)]; [exists []; split; [reflexivity|constructor]|]. cbn [skip_word]. destruct (word_char c) eqn:W.
  - exists (c :: w). split; [cbn [app]; now rewrite <- E|]. constructor; [now apply word_char_spec|exact F].
  - exists []. split; [reflexivity|constructor].
Qed.
Lemma skip_word_complete w r : Forall word w -> skip_word (w ++ 41 :: r) = 41 :: r.
Proof.
  induction w as [|c w IH]; intros F; [reflexivity|]. inversion F; subst. cbn [app skip_word]. rewrite (proj2 (word_char_spec c)) by assumption. auto.
Qed.
Lemma nan_tail_complete s r : in_parentheses s r -> nan_tail s = r.
Proof. intros (w & -> & F). cbn [nan_tail]. rewrite Z.eqb_refl, (skip_word_complete w r F), Z.eqb_refl. reflexivity. Qed.
Lemma nan_tail_sound s : in_parentheses s (nan_tail s) \/ (nan_tail s = s /\ ~ exists r, in_parentheses s r).
Proof.
  destruct s as [|c t]; [right; split; [reflexivity|]; intros (r & w & E & _); discriminate E|].
  assert (K : nan_tail (c :: t) <> c :: t -> in_parentheses (c :: t) (nan_tail (c :: t))).
  { cbn [nan_tail]. destruct (Z.eqb_spec c 40) as [->|]; [|congruence]. destruct (skip_word_sound t) as (w & E & F).
    destruct (skip_word t) as [|d r]; [congruence|]. destruct (Z.eqb_spec d 41) as [->|]; [|congruence]. intros _. exists w. split; [|exact F]. now rewrite E at 1. }
  destruct (list_eq_dec Z.eq_dec (nan_tail (c :: t)) (c :: t)) as [E|N]; [|left; auto]. right. split; [exact E|].
  intros (r & P). pose proof (nan_tail_complete _ _ P) as E2. rewrite E in E2. destruct P as (w & P & _). rewrite <- E2 in P.
  apply (f_equal (@length Z)) in P. cbn in P. rewrite app_length in P. cbn in P. lia.
Qed.

Lemma from_chars_complete s x r : number_at s x r -> from_chars s = FcOk x r.
Proof.
  intros H. rewrite from_chars_split. destruct H as [neg s m e rest U R N|neg w s rest Hw Sp|neg s tail rest Sp Tl].
  - destruct neg.
    + cbn [eat]. rewrite Z.eqb_refl. now apply from_chars_unsigned_complete.
    + rewrite (proj2 (eat_none 45 s) (N eq_refl)). now apply from_chars_unsigned_complete.
  - assert (E : forall b, from_chars_unsigned b s = FcOk Inf rest).
    { intros b. unfold from_chars_unsigned. destruct Hw as [->|[-> N]].
      - now rewrite (proj2 (strip_prefix_spec _ _ rest word_infinity) Sp).
      - rewrite (proj2 (strip_prefix_none _ s word_infinity) N). now rewrite (proj2 (strip_prefix_spec _ _ rest word_inf) Sp). }
    destruct neg; [cbn [eat]; now rewrite Z.eqb_refl|].
    assert (F : eat 45 s = None); [|now rewrite F].
    apply eat_none. intros S45. assert (FS : starts_with (fun c => c = 105 \/ c + 32 = 105) s).
    { destruct Hw as [->|[-> _]]; eapply spelled_first; try exact Sp; try lia; eexists; reflexivity. }
    destruct S45 as (c & t & -> & <-). rewrite starts_cons in FS. lia.
  - assert (FS : starts_with (fun c => c = 110 \/ c + 32 = 110) s).
    { eapply spelled_first; try exact Sp; try lia; eexists; reflexivity. }
    assert (E : forall b, from_chars_unsigned b s = FcOk NaN rest).
    { intros b. unfold from_chars_unsigned.
      assert (N1 : strip_prefix (bytes "infinity") s = None).
      { apply strip_prefix_none; [exact word_infinity|]. intros (r' & Sp').
        destruct (spelled_first _ 105 _ _ (ex_intro _ _ eq_refl) ltac:(lia) Sp') as (c & t & -> & C). rewrite starts_cons in FS. lia. }
      assert (N2 : strip_prefix (bytes "inf") s = None).
      { apply strip_prefix_none; [exact word_inf|]. intros (r' & Sp').
        destruct (spelled_first _ 105 _ _ (ex_intro _ _ eq_refl) ltac:(lia) Sp') as (c & t & -> & C). rewrite starts_cons in FS. lia. }
      rewrite N1, N2. rewrite (proj2 (strip_prefix_spec _ _ tail word_nan) Sp). f_equal.
      destruct Tl as [P|[-> P]]; [now apply nan_tail_complete|]. destruct (nan_tail_sound tail) as [Q|[Q _]]; [elim P; eauto|exact Q]. }
    destruct neg; [cbn [eat]; now rewrite Z.eqb_refl|].
    assert (F : eat 45 s = None); [|now rewrite F].
    apply eat_none. intros (c & t & -> & <-). rewrite starts_cons in FS. lia.
Qed.

Lemma from_chars_unsigned_sound (neg : bool) s x r : from_chars_unsigned neg s = FcOk x r -> (neg = false -> ~ starts_with (eq 45) s) ->
  number_at (if neg then 45 :: s else s) x r.
Proof.
  intros H N. unfold from_chars_unsigned in H.
  destruct (strip_prefix (bytes "infinity") s) as [r1|] eqn:E1.
  { injection H as <- <-. apply (Infinity neg (bytes "infinity")); [now left|]. now apply strip_prefix_spec; [apply word_infinity|]. }
  destruct (strip_prefix (bytes "inf") s) as [r1|] eqn:E2.
  { injection H as <- <-. apply (Infinity neg (bytes "inf")).
    - right. split; [reflexivity|]. apply strip_prefix_none; [apply word_infinity|exact E1].
    - now apply strip_prefix_spec; [apply word_inf|]. }
  destruct (strip_prefix (bytes "nan") s) as [r1|] eqn:E3.
  { injection H as <- <-. apply (Nan neg s r1); [now apply strip_prefix_spec; [apply word_nan|]|]. destruct (nan_tail_sound r1) as [Q|[Q1 Q2]]; [now left|]. right. now rewrite Q1. }
  pose proof (unsigned_sound s) as U. destruct (digits_sound s) as [[F1 _] _].
  destruct (digits s) as [ip r1]. cbn [fst] in F1.
  assert (F2 : Forall digit (fst (match eat 46 r1 with Some t => digits t | None => ([], r1) end))).
  { destruct (eat 46 r1); [apply digits_sound|constructor]. }
  destruct (match eat 46 r1 with Some t => digits t | None => ([], r1) end) as [fp r2]. cbn [fst] in F2.
  destruct (ip ++ fp) as [|c d] eqn:D; [discriminate|]. specialize (U ltac:(discriminate)).
  destruct (scan_exponent r2) as [e0 r0]. cbn [fst snd] in U. rewrite digits_value_spec in H.
  destruct (too_large _ _ || too_small _ _) eqn:R; [discriminate|]. injection H as <- <-.
  assert (V : 0 <= value (c :: d)) by (rewrite <- D; apply value_nonneg; now apply Forall_app).
  apply Number; auto. exact (proj1 (range_spec _ _ V) R).
Qed.

Lemma from_chars_sound s x r : from_chars s = FcOk x r -> number_at s x r.
Proof.
  rewrite from_chars_split. destruct (eat 45 s) as [t|] eqn:E; intros H.
  - apply eat_some in E as ->. apply (from_chars_unsigned_sound true t x r H). discriminate.
  - apply (from_chars_unsigned_sound false s x r H). intros _. now apply eat_none.
Qed.

Lemma from_chars_fail s : (from_chars s = FcInvalid \/ from_chars s = FcRange) <-> ~ exists x r, number_at s x r.
Proof.
  split.
  - intros H (x & r & N). apply from_chars_complete in N. rewrite N in H. destruct H; discriminate.
  - intros N. destruct (from_chars s) as [x r| |] eqn:E; [|now left|now right].
    exfalso. apply N. exists x, r. now apply from_chars_sound.
Qed.

Lemma digits_length s : (length (snd (digits s)) <= length s)%nat.
Proof. destruct (digits_sound s) as [_ E]. rewrite E at 2. rewrite app_length. lia. Qed.

Lemma number_progress s x r : number_at s x r -> (length r < length s)%nat.
Proof.
  assert (Sp : forall w s r, w <> [] -> spelled w s r -> (length r < length s)%nat).
  { intros w s' r' W (p & -> & FF). assert (F : length w = length p) by (clear - FF; induction FF; cbn [length]; congruence). rewrite app_length. destruct w; [congruence|]. cbn in F. lia. }
  assert (IFL : forall (b : bool) (t : list Z), (length t <= length (if b then (45 :: t)%Z else t))%nat) by (intros [] t; cbn; lia).
  intros [neg s' m e rest U R N|neg w s' rest Hw H|neg s' tail rest H Tl].
  - eapply Nat.lt_le_trans; [|apply IFL]. destruct U as [ip fp tail tail' e' rest' R1 H NE X].
    assert (L : (length rest' <= length tail')%nat).
    { destruct X as [X|(_ & -> & _)]; [|lia]. inversion X; subst. cbn [length]. rewrite !app_length. lia. }
    rewrite app_length. destruct H as [(-> & -> & _)|(-> & _)].
    + rewrite app_nil_r in NE. destruct ip; [congruence|]. cbn [length]. lia.
    + cbn [length]. rewrite app_length. lia.
  - eapply Nat.lt_le_trans; [|apply IFL]. apply (Sp w); auto. destruct Hw as [->|[-> _]]; discriminate.
  - eapply Nat.lt_le_trans; [|apply IFL]. eapply Nat.le_lt_trans with (length tail); [|apply (Sp (bytes "nan")); auto; discriminate].
    destruct Tl as [(w & -> & _)|[-> _]]; [cbn [length]; rewrite app_length; cbn [length]; lia|lia].
Qed.

(** ** Searching *)
Lemma ffno_spec set s : match find_first_not_of set s with
  | None => Forall (fun c => In c set) s
  | Some i => exists b t, s = b ++ t /\ length b = i /\ Forall (fun c => In c set) b /\ t <> [] /\ ~ starts_with (fun c => In c set) t
  end.
Proof.
  unfold find_first_not_of.
  assert (G : forall s k, match (fix go s i := match s with [] => None | c :: s => if existsb (Z.eqb c) set then go s (S i) else Some i end) s k with
    | None => Forall (fun c => In c set) s
    | Some i => exists b t, s = b ++ t /\ (k + length b)%nat = i /\ Forall (fun c => In c set) b /\ t <> [] /\ ~ starts_with (fun c => In c set) t
    end).
  { clear s. induction s as [|c s IH]; intros k; [constructor|].
    destruct (existsb (Z.eqb c) set) eqn:E.
    - apply existsb_exists in E as (x & I & Ex). apply Z.eqb_eq in Ex. subst x. specialize (IH (S k)).
      destruct (_ s (S k)) as [i|].
      + destruct IH as (b & t & -> & L & F & NE & N). exists (c :: b), t. cbn [length]. split; [reflexivity|]. split; [lia|]. split; [now constructor|auto].
      + now constructor.
    - exists [], (c :: s). split; [reflexivity|]. split; [cbn; lia|]. split; [constructor|]. split; [discriminate|].
      rewrite starts_cons. intros I. assert (existsb (Z.eqb c) set = true); [|congruence].
      apply existsb_exists. exists c. split; [exact I|apply Z.eqb_refl]. }
  exact (G s 0%nat).
Qed.

Lemma ffo_spec set s : match find_first_of set s with
  | None => Forall (fun c => ~ In c set) s
  | Some i => Forall (fun c => ~ In c set) (firstn i s) /\ starts_with (fun c => In c set) (skipn i s)
  end.
Proof.
  unfold find_first_of.
  assert (G : forall s k, match (fix go s i := match s with [] => None | c :: s => if existsb (Z.eqb c) set then Some i else go s (S i) end) s k with
    | None => Forall (fun c => ~ In c set) s
    | Some i => exists j, i = (k + j)%nat /\ Forall (fun c => ~ In c set) (firstn j s) /\ starts_with (fun c => In c set) (skipn j s)
    end).
  { clear s. induction s as [|c s IH]; intros k; [constructor|].
    destruct (existsb (Z.eqb c) set) eqn:E.
    - apply existsb_exists in E as (x & I & Ex). apply Z.eqb_eq in Ex. subst x.
      exists 0%nat. split; [lia|]. cbn [firstn skipn]. split; [constructor|]. now rewrite starts_cons.
    - assert (NI : ~ In c set).
      { intros I. assert (existsb (Z.eqb c) set = true); [|congruence].
        apply existsb_exists. exists c. split; [exact I|apply Z.eqb_refl]. }
      specialize (IH (S k)). destruct (_ s (S k)) as [i|].
      + destruct IH as (j & -> & F & St). exists (S j). split; [lia|]. cbn [firstn skipn]. split; [now constructor|exact St].
      + now constructor. }
  specialize (G s 0%nat). destruct (_ s 0%nat) as [i|]; [|exact G].
  destruct G as (j & -> & H). exact H.
Qed.

(** Uniqueness of the decompositions. *)
Lemma split_unique (P : Z -> Prop) : forall b1 b2 t1 t2, Forall P b1 -> Forall P b2 -> ~ starts_with P t1 -> ~ starts_with P t2 ->
  b1 ++ t1 = b2 ++ t2 -> b1 = b2 /\ t1 = t2.
Proof.
  induction b1 as [|x b1 IH]; intros [|y b2] t1 t2 F1 F2 N1 N2 E; cbn [app] in E.
  - auto.
  - subst t1. exfalso. apply N1. rewrite starts_cons. now apply Forall_inv in F2.
  - subst t2. exfalso. apply N2. rewrite starts_cons. now apply Forall_inv in F1.
  - injection E as -> E. destruct (IH b2 t1 t2) as [-> ->]; auto.
    + now apply Forall_inv_tail in F1.
    + now apply Forall_inv_tail in F2.
Qed.

Lemma unit_of_spec u un ud : unit_of u = Some (un, ud) <-> unit_period u un ud.
Proof.
  unfold unit_of, eqb_bytes. split.
  - intros H.
    repeat match type of H with context [list_eq_dec Z.eq_dec ?a ?b] =>
      is_var a; destruct (list_eq_dec Z.eq_dec a b) as [->|?]; [vm_compute in H; injection H as <- <-; constructor|] end.
    discriminate H.
  - intros []; reflexivity.
Qed.

Lemma unit_of_none u : unit_of u = None <-> ~ exists un ud, unit_period u un ud.
Proof.
  split.
  - intros H (un & ud & U). apply unit_of_spec in U. congruence.
  - intros N. destruct (unit_of u) as [[un ud]|] eqn:E; [|reflexivity]. exfalso. apply N. exists un, ud. now apply unit_of_spec.
Qed.

Definition split_units (r : list Z) : list Z * list Z :=
  match find_first_of (bytes "+-0123456789. ") r with Some i => (firstn i r, skipn i r) | None => (r, []) end.

Lemma split_units_sound r : let '(u, rest) := split_units r in
  r = u ++ rest /\ Forall (fun c => ~ stop c) u /\ (rest = [] \/ starts_with stop rest).
Proof.
  unfold split_units. pose proof (ffo_spec (bytes "+-0123456789. ") r) as H.
  destruct (find_first_of _ r) as [i|].
  - destruct H as [F S]. split; [symmetry; apply firstn_skipn|]. split; [exact F|now right].
  - split; [now rewrite app_nil_r|]. split; [exact H|now left].
Qed.

Lemma split_units_complete u rest : Forall (fun c => ~ stop c) u -> (rest = [] \/ starts_with stop rest) -> split_units (u ++ rest) = (u, rest).
Proof.
  intros F S. pose proof (split_units_sound (u ++ rest)) as H. destruct (split_units (u ++ rest)) as [u' rest'].
  destruct H as (E & F' & S').
  assert (X : forall r, r = [] \/ starts_with stop r -> ~ starts_with (fun c => ~ stop c) r).
  { intros r [->|(c & t & -> & C)]; [apply not_starts_nil|]. rewrite starts_cons. tauto. }
  destruct (split_unique _ u u' rest rest' F F' (X _ S) (X _ S') E) as [-> ->]. reflexivity.
Qed.

(** parse_single_duration in terms of the grammar. *)
Lemma skipn_exact {A} (b t : list A) : skipn (length b) (b ++ t) = t.
Proof. rewrite skipn_app, skipn_all, Nat.sub_diag. reflexivity. Qed.

Lemma single_spec tg t s :
  (Forall blank s /\ parse_single_duration tg t s = (t, Ok [])) \/
  (exists blanks s', s = blanks ++ s' /\ Forall blank blanks /\ s' <> [] /\ ~ starts_with blank s' /\
     (~ exists x rest, number_at s' x rest) /\ parse_single_duration tg t s = (t, Throw invalid_duration_value)) \/
  (exists x units rest, first_term s x units rest /\ (length rest < length s)%nat /\
     ((~ (exists un ud, unit_period units un ud) /\ parse_single_duration tg t s = (t, Throw invalid_duration_units)) \/
      (exists un ud, unit_period units un ud /\
         parse_single_duration tg t s =
         match bind (cast tg un ud x) (fun k => represent (lo tg) (hi tg) (t + k)) with
         | Ok t' => (t', Ok rest) | Throw e => (t, Throw e) | Abort => (t, Abort) | UB => (t, UB) end))).
Proof.
  unfold parse_single_duration. pose proof (ffno_spec (bytes "+0 ") s) as H.
  destruct (find_first_not_of (bytes "+0 ") s) as [i|]; [|left; split; [exact H|reflexivity]].
  right. destruct H as (b & s' & -> & <- & F & NE & N). rewrite skipn_exact.
  destruct (from_chars s') as [x r| |] eqn:FC.
  - right. apply from_chars_sound in FC. pose proof (split_units_sound r) as SU. unfold split_units in SU.
    set (en := find_first_of (bytes "+-0123456789. ") r) in *.
    assert (E : match en with Some i => (firstn i r, skipn i r) | None => (r, []) end =
                (match en with Some i => firstn i r | None => r end, match en with Some i => skipn i r | None => [] end)).
    { now destruct en. }
    rewrite E in SU. set (u := match en with Some i => firstn i r | None => r end) in *.
    set (rest := match en with Some i => skipn i r | None => [] end) in *.
    destruct SU as (Er & Fu & Sr). exists x, u, rest.
    assert (FT : first_term (b ++ s') x u rest) by (constructor; auto; now rewrite <- Er).
    split; [exact FT|]. split.
    { apply number_progress in FC. rewrite app_length. apply (f_equal (@length Z)) in Er. rewrite app_length in Er. lia. }
    destruct (unit_of u) as [[un ud]|] eqn:U.
    + right. exists un, ud. split; [now apply unit_of_spec|reflexivity].
    + left. split; [now apply unit_of_none|reflexivity].
  - left. exists b, s'. repeat split; auto. apply from_chars_fail. now left.
  - left. exists b, s'. repeat split; auto. apply from_chars_fail. now right.
Qed.

Lemma first_term_unique s x u r x' u' r' : first_term s x u r -> first_term s x' u' r' -> x = x' /\ u = u' /\ r = r'.
Proof.
  intros [b s1 x1 u1 r1 F N NU FU SR] H2. inversion H2 as [b2 s2 x2 u2 r2 F2 N2 NU2 FU2 SR2 E]. subst.
  destruct (split_unique _ _ _ _ _ F2 F N2 N E) as [-> ->].
  apply from_chars_complete in NU, NU2. rewrite NU in NU2. injection NU2 as <- E2.
  split; [reflexivity|]. pose proof (split_units_complete _ _ FU SR) as A. rewrite E2 in A.
  rewrite (split_units_complete _ _ FU2 SR2) in A. injection A as -> ->. auto.
Qed.

Lemma first_term_not_blank s x u r : first_term s x u r -> ~ Forall blank s.
Proof.
  intros [b s1 x1 u1 r1 F N NU FU SR] FB. apply Forall_app in FB as [_ FB]. destruct s1 as [|c s1].
  - apply number_progress in NU. cbn in NU. lia.
  - apply N. rewrite starts_cons. now apply Forall_inv in FB.
Qed.

Lemma unit_unique u a b c d : unit_period u a b -> unit_period u c d -> a = c /\ b = d.
Proof. intros H1 H2. apply unit_of_spec in H1, H2. rewrite H1 in H2. now injection H2. Qed.

Definition castR (tg : target) : Z -> Z -> number -> Z -> Prop := fun un ud x k => cast tg un ud x = Ok k.

Lemma cast_ok_or_ub tg un ud x : (exists k, cast tg un ud x = Ok k) \/ cast tg un ud x = UB.
Proof.
  destruct x as [neg m e| |]; [|now right|now right]. cbn [cast]. unfold chrono_round, represent.
  repeat match goal with
  | |- context [if ?b then _ else _] => destruct b; cbn [bind]; eauto
  end.
Qed.

(** The loop: complete description of its outcomes. *)
Lemma loop_spec tg : forall fuel t s, (length s <= fuel)%nat ->
  match parse_loop fuel tg t s with
  | (t', Ok tt) => exists total, sums (castR tg) s total /\ t' = t + total
  | (t', Throw e) => exists total, bad_at (castR tg) s total e /\ t' = t + total
  | (_, Abort) => False
  | (_, UB) => True
  end.
Proof.
  induction fuel as [|fuel IH]; intros t s L.
  { destruct s; [|cbn in L; lia]. cbn. exists 0. split; [constructor; constructor|lia]. }
  destruct s as [|c0 s0]; [cbn; exists 0; split; [constructor; constructor|lia]|].
  set (s := c0 :: s0) in *.
  change (parse_loop (S fuel) tg t s) with (match parse_single_duration tg t s with
      | (t, Ok s) => parse_loop fuel tg t s | (t, Throw e) => (t, Throw e) | (t, Abort) => (t, Abort) | (t, UB) => (t, UB) end).
  destruct (single_spec tg t s) as [[B ->]|[(b & s' & E & F & NE & N & NN & ->)|(x & u & rest & FT & PL & H)]].
  - destruct fuel; cbn; exists 0; (split; [now constructor|lia]).
  - exists 0. split; [|lia]. rewrite E. now constructor.
  - destruct H as [(NU & ->)|(un & ud & U & ->)].
    + exists 0. split; [|lia]. eapply bad_units; eauto.
    + destruct (cast_ok_or_ub tg un ud x) as [(k & C)|C]; rewrite C; cbn [bind]; [|exact Logic.I].
      unfold represent. destruct (_ && _); [|exact Logic.I].
      assert (Lr : (length rest <= fuel)%nat) by lia. specialize (IH (t + k) rest Lr).
      destruct (parse_loop fuel tg (t + k) rest) as [t' [[]|e| |]]; auto.
      * destruct IH as (total & S & ->). exists (k + total). split; [|lia]. eapply sums_term; eauto.
      * destruct IH as (total & S & ->). exists (k + total). split; [|lia]. eapply bad_later; eauto.
Qed.

Lemma loop_fuel tg : forall fuel fuel' t s, (length s <= fuel)%nat -> (length s <= fuel')%nat ->
  parse_loop fuel tg t s = parse_loop fuel' tg t s.
Proof.
  induction fuel as [|fuel IH]; intros fuel' t s L L'.
  { destruct s; [|cbn in L; lia]. destruct fuel'; reflexivity. }
  destruct s as [|c0 s0]; [destruct fuel'; reflexivity|]. destruct fuel' as [|fuel']; [cbn in L'; lia|].
  set (s := c0 :: s0) in *.
  change (parse_loop (S fuel) tg t s) with (match parse_single_duration tg t s with
      | (t, Ok s) => parse_loop fuel tg t s | (t, Throw e) => (t, Throw e) | (t, Abort) => (t, Abort) | (t, UB) => (t, UB) end).
  change (parse_loop (S fuel') tg t s) with (match parse_single_duration tg t s with
      | (t, Ok s) => parse_loop fuel' tg t s | (t, Throw e) => (t, Throw e) | (t, Abort) => (t, Abort) | (t, UB) => (t, UB) end).
  destruct (single_spec tg t s) as [[B ->]|[(b & s' & E & F & NE & N & NN & ->)|(x & u & rest & FT & PL & H)]]; auto.
  - apply IH; cbn; lia.
  - destruct H as [(NU & ->)|(un & ud & U & ->)]; [reflexivity|].
    destruct (bind _ _); auto. apply IH; lia.
Qed.

Lemma parse_step tg t s x u rest un ud k : first_term s x u rest -> unit_period u un ud -> cast tg un ud x = Ok k ->
  parse_duration tg t s = if (lo tg <=? t + k) && (t + k <=? hi tg) then parse_duration tg (t + k) rest else (t, UB).
Proof.
  intros FT U C. unfold parse_duration.
  destruct s as [|c0 s0] eqn:Es.
  { exfalso. apply (first_term_not_blank _ _ _ _ FT). constructor. }
  rewrite <- Es in *. replace (length s) with (S (length s0)) by (subst; reflexivity).
  assert (E : parse_loop (S (length s0)) tg t s = match parse_single_duration tg t s with
      | (t, Ok s) => parse_loop (length s0) tg t s | (t, Throw e) => (t, Throw e) | (t, Abort) => (t, Abort) | (t, UB) => (t, UB) end).
  { rewrite Es. reflexivity. }
  rewrite E. clear E.
  destruct (single_spec tg t s) as [[B ->]|[(b & s' & E & F & NE & N & NN & ->)|(x' & u' & rest' & FT' & PL & H)]].
  - destruct (first_term_not_blank _ _ _ _ FT B).
  - exfalso. destruct FT as [b2 s2 x u r F2 N2 NU FU SR]. destruct (split_unique _ _ _ _ _ F F2 N N2 (eq_sym E)) as [-> ->].
    apply NN. eauto.
  - destruct (first_term_unique _ _ _ _ _ _ _ FT FT') as (<- & <- & <-).
    destruct H as [(NU & _)|(un' & ud' & U' & ->)]; [exfalso; apply NU; eauto|].
    destruct (unit_unique _ _ _ _ _ U U') as [<- <-]. rewrite C. cbn [bind]. unfold represent.
    destruct ((lo tg <=? t + k) && (t + k <=? hi tg)); [|reflexivity].
    apply loop_fuel; [|lia]. rewrite Es in PL. cbn [length] in PL. lia.
Qed.

Lemma parse_blank tg t s : Forall blank s -> parse_duration tg t s = (t, Ok tt).
Proof.
  intros B. unfold parse_duration. destruct s as [|c0 s0] eqn:Es; [reflexivity|]. rewrite <- Es in *.
  replace (length s) with (S (length s0)) by (subst; reflexivity).
  assert (E : parse_loop (S (length s0)) tg t s = match parse_single_duration tg t s with
      | (t, Ok s) => parse_loop (length s0) tg t s | (t, Throw e) => (t, Throw e) | (t, Abort) => (t, Abort) | (t, UB) => (t, UB) end).
  { rewrite Es. reflexivity. }
  rewrite E. destruct (single_spec tg t s) as [[_ ->]|[(b & s' & E' & F & NE & N & NN & ->)|(x' & u' & rest' & FT' & PL & H)]].
  - now destruct (length s0).
  - exfalso. rewrite E' in B. apply Forall_app in B as [_ B]. destruct s' as [|c s']; [congruence|].
    apply N. rewrite starts_cons. now apply Forall_inv in B.
  - destruct (first_term_not_blank _ _ _ _ FT' B).
Qed.

(** Sequences of terms are accepted unless the sum leaves the range. *)
Lemma sums_accepted tg s total : sums (castR tg) s total -> forall t,
  parse_duration tg t s = (t + total, Ok tt) \/ snd (parse_duration tg t s) = UB.
Proof.
  induction 1 as [s B|s x u un ud k rest total FT U C S IH]; intros t.
  - left. rewrite parse_blank by exact B. f_equal. lia.
  - rewrite (parse_step tg t s x u rest un ud k FT U C). destruct (_ && _); [|now right].
    destruct (IH (t + k)) as [->|R]; [left; f_equal; lia|now right].
Qed.

Lemma bad_rejected tg s total e : bad_at (castR tg) s total e -> forall t,
  parse_duration tg t s = (t + total, Throw e) \/ snd (parse_duration tg t s) = UB.
Proof.
  assert (ST : forall t c0 s0, parse_duration tg t (c0 :: s0) = match parse_single_duration tg t (c0 :: s0) with
      | (t, Ok s) => parse_loop (length s0) tg t s | (t, Throw e) => (t, Throw e) | (t, Abort) => (t, Abort) | (t, UB) => (t, UB) end) by reflexivity.
  induction 1 as [b s F NE N NN|s x u rest FT NU|s x u un ud k rest total e FT U C S IH]; intros t.
  - left. destruct (b ++ s) as [|c0 s0] eqn:Es.
    { apply app_eq_nil in Es as [_ ->]. congruence. }
    rewrite ST, <- Es.
    destruct (single_spec tg t (b ++ s)) as [[B _]|[(b' & s' & E & F' & NE' & N' & NN' & ->)|(x & u & rest & FT & PL & H)]].
    + exfalso. apply Forall_app in B as [_ B]. destruct s as [|c s]; [congruence|]. apply N. rewrite starts_cons. now apply Forall_inv in B.
    + f_equal. lia.
    + exfalso. inversion FT as [b2 s2 x2 u2 r2 F2 N2 NU2 FU2 SR2 E]. subst.
      destruct (split_unique _ _ _ _ _ F2 F N2 N E) as [-> ->]. apply NN. eauto.
  - left. destruct s as [|c0 s0] eqn:Es.
    { exfalso. apply (first_term_not_blank _ _ _ _ FT). constructor. }
    rewrite ST, <- Es in *.
    destruct (single_spec tg t s) as [[B _]|[(b' & s' & E & F' & NE' & N' & NN' & _)|(x' & u' & rest' & FT' & PL & H)]].
    + destruct (first_term_not_blank _ _ _ _ FT B).
    + exfalso. destruct FT as [b2 s2 x u r F2 N2 NU2 FU SR]. destruct (split_unique _ _ _ _ _ F' F2 N' N2 (eq_sym E)) as [-> ->].
      apply NN'. eauto.
    + destruct (first_term_unique _ _ _ _ _ _ _ FT FT') as (<- & <- & <-).
      destruct H as [(_ & ->)|(un' & ud' & U' & _)]; [f_equal; lia|exfalso; apply NU; eauto].
  - rewrite (parse_step tg t s x u rest un ud k FT U C). destruct (_ && _); [|now right].
    destruct (IH (t + k)) as [->|R]; [left; f_equal; lia|now right].
Qed.
