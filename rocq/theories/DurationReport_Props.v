(** C110: the exceptions of parse_duration say what could not be read, and where. *)
From Flocq Require Import Core.
From Coq Require Import Reals.
From Verif Require Import Base Bytes Duration_Model Duration_Spec Duration_Proofs Duration_Props DurationExact_Props DurationReport_Model DurationReport_Spec.
Local Open Scope Z_scope.

Lemma from_chars_why s : match from_chars s with
  | FcOk x r => number_at s x r
  | FcInvalid => (~ exists x rest, number_at s x rest) /\ ~ exists m e rest, numeral_at s m e rest
  | FcRange => exists m e, numeral_at s m e (after_numeral s) /\ ~ in_range m e
  end.
Proof.
  destruct (from_chars s) as [x r| |] eqn:E; [now apply from_chars_sound| |].
  - split; [apply from_chars_fail; now left|]. intros (m & e & rest & neg & u & -> & N & U).
    rewrite from_chars_split in E.
    assert (K : forall b, from_chars_unsigned b u <> FcInvalid).
    { intros b. unfold from_chars_unsigned.
      rewrite (no_word (bytes "infinity") 105 u m e rest (ex_intro _ _ eq_refl) ltac:(lia) word_infinity U).
      rewrite (no_word (bytes "inf") 105 u m e rest (ex_intro _ _ eq_refl) ltac:(lia) word_inf U).
      rewrite (no_word (bytes "nan") 110 u m e rest (ex_intro _ _ eq_refl) ltac:(lia) word_nan U).
      destruct (unsigned_complete _ _ _ _ U) as (ip & fp & r1 & r2 & e0 & -> & -> & NE & _ & _ & -> & _).
      destruct (ip ++ fp); [congruence|]. destruct (_ || _); discriminate. }
    destruct neg.
    + cbn [eat] in E. rewrite Z.eqb_refl in E. now apply (K true).
    + rewrite (proj2 (eat_none 45 u) (N eq_refl)) in E. now apply (K false).
  - rewrite from_chars_split in E. unfold after_numeral, numeral_at.
    assert (K : forall b u, from_chars_unsigned b u = FcRange -> exists m e, unsigned_at u m e
       (let '(ip, r1) := digits u in let '(fp, r2) := match eat 46 r1 with Some t => digits t | None => ([], r1) end in snd (scan_exponent r2)) /\ ~ in_range m e).
    { intros b u H. unfold from_chars_unsigned in H.
      destruct (strip_prefix (bytes "infinity") u); [discriminate H|]. destruct (strip_prefix (bytes "inf") u); [discriminate H|].
      destruct (strip_prefix (bytes "nan") u); [discriminate H|].
      pose proof (unsigned_sound u) as U. destruct (digits u) as [ip r1] eqn:D1.
      destruct (match eat 46 r1 with Some t => digits t | None => ([], r1) end) as [fp r2] eqn:D2.
      assert (F : Forall digit (ip ++ fp)).
      { apply Forall_app. pose proof (digits_sound u) as [[Fi _] _]. rewrite D1 in Fi. cbn [fst] in Fi. split; [exact Fi|].
        destruct (eat 46 r1) as [t|]; [|injection D2 as <- <-; constructor].
        pose proof (digits_sound t) as [[Ff _] _]. rewrite D2 in Ff. exact Ff. }
      destruct (ip ++ fp) as [|c d] eqn:Ed; [discriminate H|].
      specialize (U ltac:(discriminate)). destruct (scan_exponent r2) as [e0 r]. cbn [fst snd] in *.
      destruct (too_large _ _ || too_small _ _) eqn:T; [|discriminate H].
      eexists _, _. split; [exact U|]. intros R. rewrite digits_value_spec in T.
      rewrite (proj2 (range_spec _ _ (value_nonneg _ F)) R) in T. discriminate T. }
    destruct (eat 45 s) as [t|] eqn:Et.
    + apply eat_some in Et as ->. destruct (K true t E) as (m & e & U & R). exists m, e. split; [|exact R].
      exists true, t. split; [reflexivity|]. split; [discriminate|exact U].
    + destruct (K false s E) as (m & e & U & R). exists m, e. split; [|exact R].
      exists false, s. split; [reflexivity|]. split; [|exact U]. intros _. now apply eat_none.
Qed.

Section Texts.
Context (typename : list Z) (message : errc -> list Z).

(** One call: as Duration_Model, with the exception described. *)
Lemma single_report_spec tg t s :
  match parse_single_duration tg t s with
  | (t', Ok r) => single_report typename message tg t s = (t', Continue r)
  | (t', Throw e) => t' = t /\ exists rep, single_report typename message tg t s = (t, Failed rep) /\ describes typename message s rep
  | (t', _) => single_report typename message tg t s = (t', Undefined)
  end.
Proof.
  unfold parse_single_duration, single_report. pose proof (ffno_spec (bytes "+0 ") s) as H.
  destruct (find_first_not_of (bytes "+0 ") s) as [i|]; [|reflexivity].
  destruct H as (b & s' & -> & <- & F & NE & N). rewrite skipn_exact.
  pose proof (from_chars_why s') as W. destruct (from_chars s') as [x r| |].
  - pose proof (split_units_sound r) as SU. unfold split_units in SU.
    set (en := find_first_of (bytes "+-0123456789. ") r) in *.
    assert (E : match en with Some i => (firstn i r, skipn i r) | None => (r, []) end =
                (match en with Some i => firstn i r | None => r end, match en with Some i => skipn i r | None => [] end)).
    { now destruct en. }
    rewrite E in SU. set (u := match en with Some i => firstn i r | None => r end) in *.
    set (rest := match en with Some i => skipn i r | None => [] end) in *.
    destruct SU as (Er & Fu & Sr).
    assert (FT : first_term (b ++ s') x u rest) by (constructor; auto; now rewrite <- Er).
    destruct (unit_of u) as [[un ud]|] eqn:U.
    + destruct (bind (cast tg un ud x) _) as [t'|e| |] eqn:B; try reflexivity. exfalso.
      destruct (cast_ok_or_ub tg un ud x) as [(k & C)|C]; rewrite C in B; cbn [bind] in B; [|discriminate B].
      unfold represent in B. destruct (_ && _); discriminate B.
    + split; [reflexivity|]. eexists. split; [reflexivity|]. unfold invalid_units.
      replace (length r) with (length u + length rest)%nat by (rewrite Er at 1; rewrite app_length; reflexivity).
      apply bad_units with (x := x) (rest := rest); [exact FT|]. now apply unit_of_none.
  - split; [reflexivity|]. eexists. split; [reflexivity|]. destruct W as [W1 W2]. now constructor.
  - split; [reflexivity|]. eexists. split; [reflexivity|]. destruct W as (m & e & W1 & W2). now apply (too_big _ _ b s' m e).
Qed.

Lemma report_loop_spec tg : forall fuel t s,
  match parse_loop fuel tg t s with
  | (t', Ok _) => report_loop typename message fuel tg t s = (t', Some None)
  | (t', Throw e) => exists ks r rep, reads (castR tg) s ks r /\ in_bounds tg t ks /\ t' = t + total ks /\
      report_loop typename message fuel tg t s = (t', Some (Some rep)) /\ describes typename message r rep
  | (t', _) => report_loop typename message fuel tg t s = (t', None)
  end.
Proof.
  induction fuel as [|fuel IH]; intros t s.
  { destruct s; reflexivity. }
  destruct s as [|c s0] eqn:Es; [reflexivity|]. rewrite <- Es.
  assert (E : parse_loop (S fuel) tg t s = match parse_single_duration tg t s with
      | (t, Ok s) => parse_loop fuel tg t s | (t, Throw e) => (t, Throw e) | (t, Abort) => (t, Abort) | (t, UB) => (t, UB) end).
  { rewrite Es. reflexivity. }
  assert (E' : report_loop typename message (S fuel) tg t s = match single_report typename message tg t s with
      | (t, Continue s) => report_loop typename message fuel tg t s | (t, Failed r) => (t, Some (Some r)) | (t, Undefined) => (t, None) end).
  { rewrite Es. reflexivity. }
  rewrite E, E'. clear E E' Es. pose proof (single_report_spec tg t s) as H.
  assert (B0 : in_bounds tg t []) by (intros j Hj; cbn in Hj; lia).
  destruct (parse_single_duration tg t s) as [t1 [r|e| |]] eqn:P.
  - rewrite H. specialize (IH t1 r). destruct (parse_loop fuel tg t1 r) as [t2 [[]|e| |]]; try exact IH.
    destruct IH as (ks & r' & rep & R & B & -> & L & D).
    destruct (single_spec tg t s) as [[_ Q]|[(b & s' & _ & _ & _ & _ & _ & Q)|(x & u & rest & FT & PL & [(_ & Q)|(un & ud & U & Q)])]];
      rewrite P in Q; try discriminate Q.
    + injection Q as -> ->. exfalso.
      assert (Z0 : parse_loop fuel tg t [] = (t, Ok tt)) by (destruct fuel; reflexivity).
      assert (Z1 : report_loop typename message fuel tg t [] = (t, Some None)) by (destruct fuel; reflexivity).
      rewrite Z1 in L. discriminate L.
    + destruct (cast_ok_or_ub tg un ud x) as [(k & C)|C]; rewrite C in Q; cbn [bind] in Q; [|discriminate Q].
      unfold represent in Q. destruct ((lo tg <=? t + k) && (t + k <=? hi tg)) eqn:Bd; [|discriminate Q].
      injection Q as -> ->. apply andb_true_iff in Bd as [Bl Bh]. apply Z.leb_le in Bl, Bh.
      exists (k :: ks), r', rep. split; [exact (reads_term (castR tg) s x u un ud k rest ks r' FT U C R)|].
      split; [apply in_bounds_cons; auto|]. split; [cbn [total fold_right]; fold (total ks); lia|]. split; [exact L|exact D].
  - destruct H as (-> & rep & -> & D). exists [], s, rep. split; [constructor|]. split; [exact B0|].
    split; [cbn; lia|]. split; [reflexivity|exact D].
  - now rewrite H.
  - now rewrite H.
Qed.
End Texts.

(** If the call throws, then for some terms at the start of the string: they have been added to
    t, and the exception describes what follows them: its text quotes the part of the argument
    from the place that cannot be read, its pointer or view is that place. *)
Theorem C110_exceptions_describe_the_failure typename message tg t s t' rep :
  parse_report typename message tg t s = (t', Some (Some rep)) ->
  exists ks r, reads (fun un ud x k => cast tg un ud x = Ok k) s ks r /\ in_bounds tg t ks /\ t' = t + total ks /\
    describes typename message r rep.
Proof.
  intros H. unfold parse_report in H. pose proof (report_loop_spec typename message tg (length s) t s) as L.
  destruct (parse_loop (length s) tg t s) as [t1 [u|e| |]]; rewrite ?L in H; try discriminate H.
  destruct L as (ks & r & rep' & R & B & -> & L & D). rewrite L in H. injection H as <- <-. exists ks, r. auto.
Qed.
Print Assumptions C110_exceptions_describe_the_failure.

Lemma out_of_range_not_a_number s m e rest : numeral_at s m e rest -> ~ in_range m e -> ~ exists x r, number_at s x r.
Proof.
  intros (neg & u & -> & Nn & U) NR (x & r & X). apply from_chars_complete in X.
  assert (G : forall r0 r1, from_chars_unsigned neg u = FcOk r0 r1 -> in_range m e).
  { intros r0 r1 G. unfold from_chars_unsigned in G.
    rewrite (no_word (bytes "infinity") 105 u m e rest (ex_intro _ _ eq_refl) ltac:(lia) word_infinity U) in G.
    rewrite (no_word (bytes "inf") 105 u m e rest (ex_intro _ _ eq_refl) ltac:(lia) word_inf U) in G.
    rewrite (no_word (bytes "nan") 110 u m e rest (ex_intro _ _ eq_refl) ltac:(lia) word_nan U) in G.
    destruct (unsigned_complete _ _ _ _ U) as (ip & fp & r2 & r3 & e0 & E1 & E2 & NE & Fd & Em & E3 & Ee).
    rewrite E1, E2 in G. destruct (ip ++ fp) as [|c d] eqn:Ed; [congruence|]. rewrite E3 in G. rewrite digits_value_spec in G.
    rewrite <- Em, <- Ee in G. destruct (too_large m e || too_small m e) eqn:T; [discriminate G|].
    apply range_spec; [|exact T]. rewrite Em. now apply value_nonneg. }
  rewrite from_chars_split in X. destruct neg.
  - cbn [eat] in X. rewrite Z.eqb_refl in X. exact (NR (G _ _ X)).
  - rewrite (proj2 (eat_none 45 u) (Nn eq_refl)) in X. exact (NR (G _ _ X)).
Qed.
Lemma described_not_a_term typename message r rep : describes typename message r rep ->
  not_a_term r (match rep with ValueError _ _ _ => invalid_duration_value | UnitsError _ _ _ => invalid_duration_units end).
Proof.
  intros [b s F NE N N1 N2|b s m e rest F N NU NR|s x u rest FT NU].
  - now constructor.
  - constructor; [exact F| |exact N|now apply (out_of_range_not_a_number s m e rest)].
    destruct NU as ([] & u & -> & _ & U); [discriminate|]. intros ->. apply unsigned_first in U. now apply not_starts_nil in U.
  - exact (no_units s x u rest FT NU).
Qed.

(** The kind of exception, the value of t and success are those of C16 to C18. *)
Theorem C110_same_calls_fail typename message tg t s :
  match parse_duration tg t s with
  | (t', Ok _) => parse_report typename message tg t s = (t', Some None)
  | (t', Throw invalid_duration_value) => exists what ptr ec, parse_report typename message tg t s = (t', Some (Some (ValueError what ptr ec)))
  | (t', Throw invalid_duration_units) => exists what start len, parse_report typename message tg t s = (t', Some (Some (UnitsError what start len)))
  | (t', Throw _) => False
  | (t', _) => parse_report typename message tg t s = (t', None)
  end.
Proof.
  unfold parse_report. pose proof (report_loop_spec typename message tg (length s) t s) as L.
  destruct (parse_duration tg t s) as [t' o] eqn:P. pose proof P as P0. unfold parse_duration in P. rewrite P in L.
  destruct o as [u|e| |]; try exact L.
  destruct L as (ks & r & rep & R & B & Et & L & D). rewrite L. apply described_not_a_term in D.
  pose proof (proj2 (proj1 (proj2 (C18_exact tg t s (t + total ks))) _) (ex_intro _ ks (ex_intro _ r (conj R (conj B (conj D eq_refl)))))) as X.
  rewrite <- Et, P0 in X. injection X as ->.
  destruct rep as [what ptr ec|what start len]; cbv iota beta; eexists _, _, _; reflexivity.
Qed.
Print Assumptions C110_same_calls_fail.

(** The text about a number that is too large does not quote the number: "1e999s" gives
    Invalid value 's'. *)
Theorem C110_out_of_range_text_refuted typename message tg t : exists what,
  parse_report typename message tg t (bytes "1e999s") = (t, Some (Some (ValueError what 1 OutOfRange))) /\
  what = bytes "Invalid value 's' for type '" ++ typename ++ bytes "': " ++ message OutOfRange.
Proof.
  eexists. split; [|reflexivity]. unfold parse_report.
  change (length (bytes "1e999s")) with 6%nat. cbn [report_loop bytes list_ascii_of_string map].
  unfold single_report.
  replace (find_first_not_of _ _) with (Some 0%nat) by (vm_compute; reflexivity). cbn [skipn].
  replace (from_chars _) with FcRange by (vm_compute; reflexivity). unfold invalid_value.
  replace (after_numeral _) with (bytes "s") by (vm_compute; reflexivity). reflexivity.
Qed.
Print Assumptions C110_out_of_range_text_refuted.

(** Unknown units in the middle of a string, and something that is not a number. *)
Example C110_nonvacuous :
  snd (single_report [] (fun _ => []) seconds 0 (bytes " 2fortnights 3")) = Failed (UnitsError (bytes "Invalid units 'fortnights' for duration") 12 10) /\
  snd (single_report (bytes "T") (fun _ => bytes "bad") seconds 0 (bytes "+x1")) = Failed (ValueError (bytes "Invalid value 'x1' for type 'T': bad") 2 InvalidArgument).
Proof. split; vm_compute; reflexivity. Qed.
