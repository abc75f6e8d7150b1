(** The number parsers meet what the CSV theorems ask of them; long integer fields. *)
From Verif Require Import Base Bytes Csv_Spec Csv_Model Csv_Proofs.
From Verif Require Import Duration_Model.
Local Arguments Nat.eqb : simpl never.
Local Arguments Nat.sub : simpl never.
Local Arguments Z.eqb : simpl never.
Local Arguments Z.leb : simpl never.

(** ** Integers *)
Lemma leading_digits_length s : length (leading_digits s) <= length s.
Proof. induction s as [|c s IH]; cbn; [lia|]. destruct (digit c); cbn; lia. Qed.
Lemma leading_digits_app s sep t : digit sep = false -> leading_digits (s ++ sep :: t) = leading_digits s.
Proof. intros H. induction s as [|c s IH]; cbn; [now rewrite H|]. destruct (digit c); [now rewrite IH|reflexivity]. Qed.
Lemma integer_length lo hi s v k : integer lo hi s = Some (v, k) -> 1 <= k <= length s.
Proof.
  unfold integer. destruct s as [|c s].
  - cbn. discriminate.
  - destruct ((c =? 45) && (lo <? 0))%Z.
    + pose proof (leading_digits_length s) as L. destruct (leading_digits s) as [|d ds] eqn:E; [discriminate|].
      destruct (_ && _)%bool; [|discriminate]. intros K. injection K as <- <-. cbn [length] in *. lia.
    + pose proof (leading_digits_length (c :: s)) as L. destruct (leading_digits (c :: s)) as [|d ds] eqn:E; [discriminate|].
      destruct (_ && _)%bool; [|discriminate]. intros K. injection K as <- <-. cbn [length] in *. lia.
Qed.
Lemma integer_local lo hi sep s t : digit sep = false -> sep <> 45%Z -> integer lo hi (s ++ sep :: t) = integer lo hi s.
Proof.
  intros Hd Hm. unfold integer. destruct s as [|c s]; cbn [app].
  - rewrite (proj2 (Z.eqb_neq sep 45) Hm). cbn [andb leading_digits]. rewrite Hd. reflexivity.
  - destruct ((c =? 45) && (lo <? 0))%Z.
    + rewrite leading_digits_app by auto. cbn [length]. rewrite !app_length. cbn [length].
      replace (S (length s + S (length t)) - (length s + S (length t))) with (S (length s) - length s) by lia. reflexivity.
    + change (c :: s ++ sep :: t) with ((c :: s) ++ sep :: t). rewrite leading_digits_app by auto. rewrite !Nat.sub_diag. reflexivity.
Qed.
Lemma integer_separates lo hi sep : digit sep = false -> sep <> 45%Z -> sep <> newline -> sep <> plus -> separates (integer lo hi) sep.
Proof.
  intros H1 H2 H3 H4. split; [auto|]. split; [auto|]. split; [apply integer_length|]. intros s t _. now apply integer_local.
Qed.
(** Without a leading zero, 61 digits are too large for any integer type. *)
Lemma decimal_app d c : decimal (d ++ [c]) = (10 * decimal d + (c - 48))%Z.
Proof. unfold decimal. now rewrite fold_left_app. Qed.
Lemma decimal_lower c d : (49 <= c)%Z -> Forall (fun c => digit c = true) d -> (10 ^ Z.of_nat (length d) <= decimal (c :: d))%Z.
Proof.
  intros Hc. induction d as [|x d IH] using rev_ind; intros Hd.
  - cbn. lia.
  - apply Forall_app in Hd. destruct Hd as [Hd Hx]. inversion Hx as [|? ? Hx1 _]; subst.
    change (c :: d ++ [x]) with ((c :: d) ++ [x]). rewrite decimal_app, app_length. cbn [length]. specialize (IH Hd).
    replace (Z.of_nat (length d + 1)) with (Z.succ (Z.of_nat (length d))) by lia. rewrite Z.pow_succ_r by lia.
    unfold digit in Hx1. lia.
Qed.
Lemma leading_digits_all s : Forall (fun c => digit c = true) (leading_digits s).
Proof. induction s as [|c s IH]; cbn; [constructor|]. destruct (digit c) eqn:E; constructor; auto. Qed.
Definition after_sign (f : list Z) : list Z := match f with c :: t => if Z.eqb c 45 then t else f | [] => f end.
Lemma long_integer_no_value lo hi f : (- 10 ^ 60 < lo)%Z -> (hi < 10 ^ 60)%Z -> 64 <= length f ->
  hd 0%Z (after_sign (strip_plus f)) <> 48%Z -> value_of (integer lo hi) f = None.
Proof.
  intros Hlo Hhi Hl Hz. unfold value_of. assert (Hs : 63 <= length (strip_plus f)).
  { unfold strip_plus. destruct f as [|c f]; auto with arith. destruct (Z.eqb c plus); cbn [length] in *; lia. }
  set (g := strip_plus f) in *. destruct (integer lo hi g) as [[v k]|] eqn:E; auto. destruct (Nat.eqb_spec k (length g)) as [->|N]; auto. exfalso.
  assert (Main : forall u w : list Z, leading_digits u = w -> 61 < length w -> hd 0%Z u <> 48%Z -> (10 ^ 61 <= decimal w)%Z).
  { intros u w Ew Lw Hu. destruct u as [|c u]; [subst w; cbn in Lw; lia|]. cbn [leading_digits] in Ew. destruct (digit c) eqn:Ec; [|subst w; cbn in Lw; lia].
    assert (49 <= c)%Z by (unfold digit in Ec; cbn in Hu; lia). subst w. cbn [length] in Lw.
    eapply Z.le_trans; [|apply decimal_lower; [lia|apply leading_digits_all]]. apply Z.pow_le_mono_r; lia. }
  assert (B : (10 ^ 60 < 10 ^ 61)%Z) by (apply Z.pow_lt_mono_r; lia).
  unfold integer in E. destruct g as [|c t] eqn:Eg; [cbn in Hs; lia|]. cbn [after_sign] in Hz.
  destruct (Z.eqb_spec c 45) as [->|Nc].
  - destruct (lo <? 0)%Z; cbn [andb] in E.
    + destruct (leading_digits t) as [|d ds] eqn:Ed; [discriminate E|]. destruct (_ && _)%bool eqn:R; [|discriminate E]. injection E as <- Ek.
      cbn [length] in Ek, Hs. specialize (Main t (d :: ds) Ed). cbn [length] in Main. specialize (Main ltac:(lia) Hz). lia.
    + cbn [leading_digits] in E. change (digit 45) with false in E. discriminate E.
  - cbn [andb] in E. destruct (leading_digits (c :: t)) as [|d ds] eqn:Ed; [discriminate E|]. destruct (_ && _)%bool eqn:R; [|discriminate E]. injection E as <- Ek.
    cbn [length] in Ek, Hs. specialize (Main (c :: t) (d :: ds) Ed). cbn [length] in Main. specialize (Main ltac:(lia) Hz). lia.
Qed.
Lemma after_sign_firstn n f : 3 <= n -> hd 0%Z (after_sign (strip_plus (firstn n f))) = hd 0%Z (after_sign (strip_plus f)).
Proof.
  intros Hn. destruct n as [|[|[|n]]]; try lia. destruct f as [|a [|b [|c f]]]; try reflexivity;
  cbn [firstn strip_plus]; destruct (Z.eqb a plus); cbn [after_sign]; try destruct (Z.eqb a 45); try destruct (Z.eqb b 45); reflexivity.
Qed.
Lemma integer_readable lo hi f : (- 10 ^ 60 < lo)%Z -> (hi < 10 ^ 60)%Z -> hd 0%Z (after_sign (strip_plus f)) <> 48%Z -> readable (integer lo hi) f.
Proof.
  intros H1 H2 Hz. destruct (Nat.lt_ge_cases (length f) 64) as [L|L]; [now left|right]. split; apply long_integer_no_value; auto.
  - rewrite firstn_length. lia.
  - rewrite after_sign_firstn by lia. exact Hz.
Qed.

(** ** Floating-point numbers: std::from_chars as in Duration_Model. *)
Definition floating (s : list Z) : option (Duration_Model.number * nat) :=
  match from_chars s with
  | FcOk x r => Some (x, length s - length r)
  | _ => None
  end.
(** Characters that can be part of a number. *)
Definition number_char (c : Z) : bool := (word_char c || (c =? 43) || (c =? 45) || (c =? 46) || (c =? 40) || (c =? 41))%Z.

Lemma word_digit c : digit c = true -> word_char c = true. Proof. unfold word_char. intros H. change (is_digit c) with (digit c). now rewrite H. Qed.
Section Local.
Context (sep : Z) (t : list Z) (Hc : number_char sep = false).
Lemma not_char c : number_char c = true -> Z.eqb sep c = false.
Proof using Hc. intros H. apply Z.eqb_neq. intros ->. congruence. Qed.
Lemma sep_digit : is_digit sep = false.
Proof using Hc. unfold number_char, word_char in Hc. unfold is_digit. unfold is_digit in Hc. destruct ((48 <=? sep) && (sep <=? 57))%Z; [discriminate|reflexivity]. Qed.
Lemma sep_word : word_char sep = false.
Proof using Hc. unfold number_char in Hc. now destruct (word_char sep). Qed.
Lemma digits_local s : digits (s ++ sep :: t) = (fst (digits s), snd (digits s) ++ sep :: t).
Proof using Hc.
  induction s as [|c s IH]; cbn [app digits fst snd].
  - now rewrite sep_digit.
  - destruct (is_digit c); [|reflexivity]. rewrite IH. now destruct (digits s).
Qed.
Lemma eat_local k s : number_char k = true -> eat k (s ++ sep :: t) = match eat k s with Some u => Some (u ++ sep :: t) | None => None end.
Proof using Hc. intros H. destruct s as [|c s]; cbn [app eat]; [now rewrite (not_char k H)|]. now destruct (c =? k)%Z. Qed.
Lemma scan_exponent_local s : scan_exponent (s ++ sep :: t) = (fst (scan_exponent s), snd (scan_exponent s) ++ sep :: t).
Proof using Hc.
  destruct s as [|c s]; cbn [app scan_exponent].
  - rewrite (not_char 101), (not_char 69) by reflexivity. reflexivity.
  - destruct ((c =? 101) || (c =? 69))%Z; [|reflexivity]. rewrite !eat_local by reflexivity.
    destruct (eat 43 s) as [u|]; [|destruct (eat 45 s) as [u|]]; rewrite digits_local; destruct (digits _) as [[|d ds] r]; reflexivity.
Qed.
Lemma lower_sep c : (97 <= c <= 122)%Z -> Z.eqb c (lower sep) = false.
Proof using Hc.
  intros H. apply Z.eqb_neq. intros ->. pose proof sep_word as W. unfold word_char in W. unfold lower in H.
  destruct ((65 <=? sep) && (sep <=? 90))%Z eqn:E; [|].
  - rewrite orb_true_r in W. discriminate.
  - assert (L : ((97 <=? sep) && (sep <=? 122) = true)%Z) by (apply andb_true_intro; split; apply Z.leb_le; lia). rewrite L in W. rewrite orb_true_r in W. discriminate.
Qed.
Lemma strip_prefix_local w : Forall (fun c => (97 <= c <= 122)%Z) w -> forall s,
  strip_prefix w (s ++ sep :: t) = match strip_prefix w s with Some u => Some (u ++ sep :: t) | None => None end.
Proof using Hc.
  induction 1 as [|a w Ha Hw IH]; intros s; [reflexivity|]. destruct s as [|c s]; cbn [app strip_prefix].
  - now rewrite lower_sep.
  - destruct (a =? lower c)%Z; [apply IH|reflexivity].
Qed.
Lemma skip_word_local s : skip_word (s ++ sep :: t) = skip_word s ++ sep :: t.
Proof using Hc. induction s as [|c s IH]; cbn; [now rewrite sep_word|]. now destruct (word_char c). Qed.
Lemma nan_tail_local s : nan_tail (s ++ sep :: t) = nan_tail s ++ sep :: t.
Proof using Hc.
  destruct s as [|c s]; cbn [app nan_tail]; [now rewrite (not_char 40) by reflexivity|]. destruct (Z.eqb c 40); [|reflexivity].
  rewrite skip_word_local. destruct (skip_word s) as [|d r]; cbn [app]; [now rewrite (not_char 41) by reflexivity|]. now destruct (Z.eqb d 41).
Qed.
Lemma from_chars_local s : from_chars (s ++ sep :: t) =
  match from_chars s with FcOk x r => FcOk x (r ++ sep :: t) | FcInvalid => FcInvalid | FcRange => FcRange end.
Proof using Hc.
  unfold from_chars. rewrite eat_local by reflexivity.
  assert (G : forall (neg : bool) u,
    match strip_prefix (bytes "infinity") (u ++ sep :: t), strip_prefix (bytes "inf") (u ++ sep :: t), strip_prefix (bytes "nan") (u ++ sep :: t) with
    | Some r, _, _ => FcOk Inf r
    | _, Some r, _ => FcOk Inf r
    | _, _, Some r => FcOk NaN (nan_tail r)
    | None, None, None =>
      let '(ip, r1) := digits (u ++ sep :: t) in
      let '(fp, r2) := match eat 46 r1 with Some t => digits t | None => ([], r1) end in
      match ip ++ fp with
      | [] => FcInvalid
      | d => let '(e, r) := scan_exponent r2 in
        let m := digits_value d in
        let e := (e - Z.of_nat (length fp))%Z in
        if too_large m e || too_small m e then FcRange else FcOk (Dec neg m e) r
      end
    end =
    match match strip_prefix (bytes "infinity") u, strip_prefix (bytes "inf") u, strip_prefix (bytes "nan") u with
    | Some r, _, _ => FcOk Inf r
    | _, Some r, _ => FcOk Inf r
    | _, _, Some r => FcOk NaN (nan_tail r)
    | None, None, None =>
      let '(ip, r1) := digits u in
      let '(fp, r2) := match eat 46 r1 with Some t => digits t | None => ([], r1) end in
      match ip ++ fp with
      | [] => FcInvalid
      | d => let '(e, r) := scan_exponent r2 in
        let m := digits_value d in
        let e := (e - Z.of_nat (length fp))%Z in
        if too_large m e || too_small m e then FcRange else FcOk (Dec neg m e) r
      end
    end with FcOk x r => FcOk x (r ++ sep :: t) | FcInvalid => FcInvalid | FcRange => FcRange end).
  { intros neg u. assert (Hw : forall w, Forall (fun c => (97 <= c <= 122)%Z) w -> Forall (fun c => (97 <= c <= 122)%Z) w) by auto.
    rewrite (strip_prefix_local (bytes "infinity")), (strip_prefix_local (bytes "inf")), (strip_prefix_local (bytes "nan")) by (cbn; repeat constructor; lia).
    destruct (strip_prefix (bytes "infinity") u); [reflexivity|]. destruct (strip_prefix (bytes "inf") u); [reflexivity|]. destruct (strip_prefix (bytes "nan") u); [cbn [option_map]; now rewrite ?nan_tail_local|].
    rewrite digits_local. destruct (digits u) as [ip r1]. cbn [fst snd]. rewrite eat_local by reflexivity.
    destruct (eat 46 r1) as [r|].
    - rewrite digits_local. destruct (digits r) as [fp r2]. cbn [fst snd]. destruct (ip ++ fp) as [|d ds]; [reflexivity|].
      rewrite scan_exponent_local. destruct (scan_exponent r2) as [e r3]. cbn [fst snd]. now destruct (_ || _)%bool.
    - destruct (ip ++ []) as [|d ds]; [reflexivity|]. rewrite scan_exponent_local. destruct (scan_exponent r1) as [e r3]. cbn [fst snd]. now destruct (_ || _)%bool. }
  destruct (eat 45 s) as [u|]; apply G.
Qed.
End Local.

(** What is left is shorter. *)
Lemma digits_length s : length s = length (fst (digits s)) + length (snd (digits s)).
Proof. induction s as [|c s IH]; cbn [digits]; [reflexivity|]. destruct (is_digit c); [|reflexivity]. destruct (digits s). cbn in *. lia. Qed.
Lemma eat_length k s u : eat k s = Some u -> length s = S (length u).
Proof. destruct s as [|c s]; cbn; [discriminate|]. destruct (c =? k)%Z; [|discriminate]. intros H. injection H as <-. reflexivity. Qed.
Lemma scan_exponent_length s : length (snd (scan_exponent s)) <= length s.
Proof.
  destruct s as [|c s]; cbn [scan_exponent]; [auto|]. destruct ((c =? 101) || (c =? 69))%Z; [|auto].
  destruct (eat 43 s) as [u|] eqn:E1; [|destruct (eat 45 s) as [u|] eqn:E2].
  - apply eat_length in E1. pose proof (digits_length u). destruct (digits u) as [[|d ds] r]; cbn in *; lia.
  - apply eat_length in E2. pose proof (digits_length u). destruct (digits u) as [[|d ds] r]; cbn in *; lia.
  - pose proof (digits_length s). destruct (digits s) as [[|d ds] r]; cbn in *; lia.
Qed.
Lemma strip_prefix_length w : forall s u, strip_prefix w s = Some u -> length s = length w + length u.
Proof.
  induction w as [|a w IH]; intros s u; cbn; [intros H; injection H as <-; reflexivity|]. destruct s as [|b s]; [discriminate|].
  destruct (a =? lower b)%Z; [|discriminate]. intros H. apply IH in H. cbn. lia.
Qed.
Lemma skip_word_length s : length (skip_word s) <= length s.
Proof. induction s as [|c s IH]; cbn; [auto|]. destruct (word_char c); cbn; lia. Qed.
Lemma nan_tail_length s : length (nan_tail s) <= length s.
Proof.
  destruct s as [|c s]; cbn [nan_tail]; [auto|]. destruct (Z.eqb c 40); [|auto]. pose proof (skip_word_length s). destruct (skip_word s) as [|d r]; [auto|].
  destruct (Z.eqb d 41); [|auto]. cbn in *. lia.
Qed.
Lemma from_chars_length s x r : from_chars s = FcOk x r -> length r < length s.
Proof.
  unfold from_chars. set (p := match eat 45 s with Some u => (true, u) | None => (false, s) end).
  assert (Hp : length (snd p) <= length s). { unfold p. destruct (eat 45 s) eqn:E; [apply eat_length in E|]; cbn; lia. }
  destruct p as [neg u]. cbn [snd] in Hp.
  destruct (strip_prefix (bytes "infinity") u) eqn:E1; [intros H; injection H as _ <-; apply strip_prefix_length in E1; cbn in E1; lia|].
  destruct (strip_prefix (bytes "inf") u) eqn:E2; [intros H; injection H as _ <-; apply strip_prefix_length in E2; cbn in E2; lia|].
  destruct (strip_prefix (bytes "nan") u) as [v|] eqn:E3; [intros H; injection H as _ <-; apply strip_prefix_length in E3; pose proof (nan_tail_length v); cbn in E3; lia|].
  pose proof (digits_length u) as L1. destruct (digits u) as [ip r1]. cbn [fst snd] in L1.
  destruct (eat 46 r1) as [u2|] eqn:E4.
  - apply eat_length in E4. pose proof (digits_length u2) as L2. destruct (digits u2) as [fp r2]. cbn [fst snd] in L2.
    destruct (ip ++ fp) as [|d ds] eqn:E5; [discriminate|]. pose proof (scan_exponent_length r2) as L3. destruct (scan_exponent r2) as [e r3]. cbn [snd] in L3.
    destruct (_ || _)%bool; [discriminate|]. intros H. injection H as _ <-. lia.
  - rewrite app_nil_r. destruct ip as [|d ds]; [discriminate|]. pose proof (scan_exponent_length r1) as L3. destruct (scan_exponent r1) as [e r3]. cbn [snd] in L3.
    destruct (_ || _)%bool; [discriminate|]. intros H. injection H as _ <-. cbn [length] in L1. lia.
Qed.
Lemma floating_separates sep : number_char sep = false -> sep <> newline -> separates floating sep.
Proof.
  intros Hc Hn. split; [exact Hn|]. split; [intros ->; discriminate|]. split.
  - intros s v k. unfold floating. destruct (from_chars s) as [x r| |] eqn:E; try discriminate. apply from_chars_length in E.
    intros H1; injection H1 as <- <-; lia.
  - intros s t _. unfold floating. rewrite from_chars_local by exact Hc. destruct (from_chars s) as [x r| |]; auto.
    rewrite !app_length; f_equal; f_equal; lia.
Qed.
