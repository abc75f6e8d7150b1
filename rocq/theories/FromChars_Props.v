(** C59: the integer fallback of from_chars against std::from_chars. *)
From Verif Require Import Base Bytes FromChars_Model FromChars_Spec FromChars_Proofs.
Local Open Scope Z_scope.
Local Arguments Z.pow : simpl never.
Local Arguments Z.modulo : simpl never.

(** std::from_chars has one answer for every text. *)
Lemma std_from_chars_fun base ty text r r' : std_from_chars base ty text r -> std_from_chars base ty text r' -> r = r'.
Proof.
  assert (G : forall r sign ds rest v, std_from_chars base ty text r -> integer_at base ty text sign ds rest ->
            denotes base ds v ->
            r = Number (match sign with [] => v | _ => - v end) (length sign + length ds) /\
              representable ty (match sign with [] => v | _ => - v end) \/
            r = OutOfRange (length sign + length ds) /\ ~ representable ty (match sign with [] => v | _ => - v end)).
  { intros r0 sign ds rest v H I D. destruct H as [N|s1 d1 r1 v1 x1 I1 D1 E1 R1|s1 d1 r1 v1 x1 I1 D1 E1 R1].
    - exfalso. now apply (N sign ds rest).
    - destruct (integer_at_fun _ _ _ _ _ _ _ _ _ I I1) as (<- & <- & <-).
      rewrite (denotes_fun _ _ _ _ D1 D) in E1. left. subst x1. auto.
    - destruct (integer_at_fun _ _ _ _ _ _ _ _ _ I I1) as (<- & <- & <-).
      rewrite (denotes_fun _ _ _ _ D1 D) in E1. right. subst x1. auto. }
  intros H H'. pose proof H as H0.
  destruct H0 as [N|s1 d1 r1 v1 x1 I1 D1 E1 R1|s1 d1 r1 v1 x1 I1 D1 E1 R1].
  - destruct H' as [N'|s1 d1 r1 v1 x1 I1 D1 E1 R1|s1 d1 r1 v1 x1 I1 D1 E1 R1]; [reflexivity| |]; exfalso; eapply N; eassumption.
  - destruct (G _ _ _ _ _ H' I1 D1) as [[-> _]|[-> C]]; [now subst x1|]. subst x1. contradiction.
  - destruct (G _ _ _ _ _ H' I1 D1) as [[-> C]|[-> _]]; [|reflexivity]. subst x1. contradiction.
Qed.

(** On texts without the extras of the C functions, and as long as the number is
    representable, the fallback gives the value, end and error of std::from_chars,
    for every integer type and base. *)
Theorem C59_agrees_partial base ty text : 2 <= base <= 36 -> plain_text base ty text ->
  (forall n, ~ std_from_chars base ty text (OutOfRange n)) ->
  std_from_chars base ty text (from_chars_fallback base ty text).
Proof.
  intros B P NO.
  destruct (strto_spec base ty text ltac:(lia) P) as [(sign & ds & rest & I & E)|[N E]].
  - assert (D : denotes base ds (horner base 0 ds)) by (apply denotes_horner; [lia|apply I]).
    destruct (representable_dec ty (match sign with [] => horner base 0 ds | _ => - horner base 0 ds end)) as [R|R].
    + rewrite (fallback_number base ty text sign ds rest (horner base 0 ds)) by (try assumption; lia).
      eapply std_number; try eassumption. reflexivity.
    + exfalso. eapply NO. eapply std_out_of_range; try eassumption. reflexivity.
  - assert (F : from_chars_fallback base ty text = InvalidArgument).
    { unfold from_chars_fallback, sto_signed, sto_unsigned. rewrite E. destruct ty; reflexivity. }
    rewrite F. now apply std_no_match.
Qed.
Print Assumptions C59_agrees_partial.

(** Numbers that are too large: int and the 64-bit types report the error, but with
    the end at the start of the text instead of behind the number. *)
Theorem C59_out_of_range_partial base ty text n : 2 <= base <= 36 -> plain_text base ty text ->
  width ty = 64 \/ ty = Int ->
  std_from_chars base ty text (OutOfRange n) -> from_chars_fallback base ty text = OutOfRange 0 /\ n <> 0%nat.
Proof.
  intros B P W S.
  destruct (strto_spec base ty text ltac:(lia) P) as [(sign & ds & rest & I & E)|[N E]].
  - assert (D : denotes base ds (horner base 0 ds)) by (apply denotes_horner; [lia|apply I]).
    inversion S as [| |s1 d1 r1 v1 x1 I1 D1 E1 R1 En]; subst.
    destruct (integer_at_fun _ _ _ _ _ _ _ _ _ I I1) as (<- & <- & <-).
    rewrite (denotes_fun _ _ _ _ D1 D) in R1. split.
    + apply (fallback_range base ty text sign ds rest (horner base 0 ds)); try assumption; lia.
    + destruct I as (_ & _ & Nd & _). destruct ds; [contradiction|cbn; lia].
  - exfalso. inversion S; subst. eapply N; eassumption.
Qed.
Print Assumptions C59_out_of_range_partial.

(** The narrow types silently give a wrong value whenever the text holds an int
    (unsigned long) that does not fit. *)
Theorem C59_narrow_types_refuted base ty text x n : 2 <= base <= 36 ->
  plain_text base ty text -> ~ representable ty x ->
  (ty = SChar \/ ty = Short) /\ std_from_chars base Int text (Number x n) \/
  (ty = UChar \/ ty = UShort \/ ty = UInt) /\ std_from_chars base ULong text (Number x n) ->
  std_from_chars base ty text (OutOfRange n) /\
  exists y, from_chars_fallback base ty text = Number y n /\ y <> x.
Proof.
  intros B P NR H.
  assert (K : exists wide, (is_signed wide <-> is_signed ty) /\ std_from_chars base wide text (Number x n) /\
    ((ty = SChar \/ ty = Short) /\ wide = Int \/ (ty = UChar \/ ty = UShort \/ ty = UInt) /\ wide = ULong)).
  { destruct H as [[T S]|[T S]]; [exists Int|exists ULong]; (split; [|tauto]).
    - unfold is_signed. intuition (subst; try discriminate).
    - unfold is_signed. intuition (subst; try discriminate). }
  destruct K as (wide & SG & S & TW).
  assert (IA : forall sign ds rest, integer_at base ty text sign ds rest <-> integer_at base wide text sign ds rest).
  { intros. unfold integer_at. now rewrite SG. }
  assert (PW : plain_text base wide text).
  { destruct P as [P1 P2]. split; [|exact P2]. intros c t E. rewrite SG. apply (P1 c t E). }
  remember (Number x n) as res eqn:ER. destruct S as [|s1 d1 r1 v1 x1 I1 D1 E1 R1|]; try discriminate ER. injection ER as EX EN.
  rewrite EX in *. rewrite <- EN. clear EX EN.
  destruct (strto_spec base wide text ltac:(lia) PW) as [(sign & ds & rest & I & E)|[N E]]; [|exfalso; eapply N; eassumption].
  assert (D : denotes base ds (horner base 0 ds)) by (apply denotes_horner; [lia|apply I]).
  destruct (integer_at_fun _ _ _ _ _ _ _ _ _ I I1) as (<- & <- & <-).
  rewrite (denotes_fun _ _ _ _ D1 D) in E1. rewrite E1 in R1.
  split; [eapply std_out_of_range; [apply IA; exact I|exact D|reflexivity|]; now rewrite <- E1|].
  pose proof (fallback_number base wide text sign ds rest _ ltac:(lia) ltac:(lia) I D E R1) as F.
  rewrite <- E1 in F.
  assert (CS : forall bits z, 1 <= bits -> - 2 ^ (bits - 1) <= cast_signed bits z < 2 ^ (bits - 1)).
  { intros bits z Hb. unfold cast_signed. assert (2 ^ bits = 2 * 2 ^ (bits - 1)).
    { replace bits with (bits - 1 + 1) at 1 by lia. rewrite Z.pow_add_r by lia. lia. }
    pose proof (Z.mod_pos_bound (z + 2 ^ (bits - 1)) (2 ^ bits)) as M.
    assert (0 < 2 ^ (bits - 1)) by (apply Z.pow_pos_nonneg; lia). lia. }
  assert (CU : forall bits z, 0 <= bits -> 0 <= cast_unsigned bits z < 2 ^ bits).
  { intros bits z Hb. unfold cast_unsigned. apply Z.mod_pos_bound. apply Z.pow_pos_nonneg; lia. }
  destruct TW as [[T ->]|[T ->]]; cbn [from_chars_fallback] in F.
  - destruct T as [-> | ->]; cbn [from_chars_fallback]; rewrite F; cbn [map_number]; eexists; (split; [reflexivity|]);
      intros EQ; apply NR; (split; [intros _; cbn [width]; rewrite <- EQ; apply CS; lia|unfold is_signed; tauto]).
  - destruct T as [-> | [-> | ->]]; cbn [from_chars_fallback]; rewrite F; cbn [map_number]; eexists; (split; [reflexivity|]);
      intros EQ; apply NR; (split; [unfold is_signed; intuition discriminate|intros _; cbn [width]; rewrite <- EQ; apply CU; lia]).
Qed.
Print Assumptions C59_narrow_types_refuted.

(** Texts that std::from_chars rejects are accepted: white space or + in front,
    - for unsigned types, 0x in base 16. *)
Theorem C59_extras_refuted : forall base ty text v n,
  In (base, ty, text, v, n)
    [(10, Int, bytes " 5", 5, 2%nat); (10, Int, bytes "+5", 5, 2%nat);
     (10, ULong, bytes "-1", 2 ^ 64 - 1, 2%nat); (10, UChar, bytes "-1", 255, 2%nat)] ->
  from_chars_fallback base ty text = Number v n /\ std_from_chars base ty text InvalidArgument.
Proof.
  intros base ty text v n H.
  assert (NM : forall c t, ~ is_digit 10 c -> (c = 45 -> ~ is_signed ty) -> text = c :: t ->
            forall sign ds rest, ~ integer_at 10 ty text sign ds rest).
  { intros c t ND NS -> sign ds rest (E & HS & Nd & HD & _).
    destruct ds as [|d ds]; [contradiction|].
    destruct HS as [->|[HS ->]]; cbn in E; injection E as -> _.
    - apply ND, HD. now left.
    - now apply (NS eq_refl). }
  assert (NDG : forall c, c < 48 -> ~ is_digit 10 c) by (intros c L (d & D & _); inversion D; lia).
  destruct H as [[= <- <- <- <- <-]|[[= <- <- <- <- <-]|[[= <- <- <- <- <-]|[[= <- <- <- <- <-]|[]]]]];
    (split; [reflexivity|]); apply std_no_match; cbn in NM |- *;
    eapply NM; try reflexivity; try (apply NDG; lia); try lia; intros _; unfold is_signed; intuition discriminate.
Qed.
Print Assumptions C59_extras_refuted.

(** Non-vacuity: "-123x" as short, "40000" as short (wraps), "99999999999" as int. *)
Example C59_plain : plain_text 10 Short (bytes "-123x").
Proof.
  split; [|discriminate]. cbn. intros c t [= <- <-]. repeat split; try lia. intros _. unfold is_signed. tauto.
Qed.
Example C59_run :
  from_chars_fallback 10 Short (bytes "-123x") = Number (-123) 4 /\
  from_chars_fallback 10 Short (bytes "40000") = Number (-25536) 5 /\
  from_chars_fallback 10 Int (bytes "99999999999") = OutOfRange 0 /\
  from_chars_fallback 16 UInt (bytes "fFz") = Number 255 2 /\
  from_chars_fallback 16 UInt (bytes "0xff") = Number 255 4 /\
  from_chars_fallback 10 Int (bytes "x") = InvalidArgument.
Proof. repeat split. Qed.
(** The hypotheses of C59_narrow_types_refuted hold for 40000. *)
Example C59_narrow_hypotheses : plain_text 10 Short (bytes "40000") /\ ~ representable Short 40000 /\
  std_from_chars 10 Int (bytes "40000") (Number 40000 5).
Proof.
  split; [split; [|discriminate]; cbn; intros c t [= <- <-]; repeat split; lia|]. split.
  - intros [R _]. specialize (R ltac:(unfold is_signed; tauto)). cbn in R. lia.
  - assert (DG : forall c, In c (bytes "40000") -> is_digit 10 c).
    { cbn. intros c [<-|[<-|[<-|[<-|[<-|[]]]]]]; eexists; (split; [apply digit_dec; lia|lia]). }
    apply (std_number 10 Int _ [] (bytes "40000") [] 40000).
    + split; [reflexivity|]. split; [now left|]. split; [discriminate|]. split; [exact DG|discriminate].
    + apply (denotes_horner 10 (bytes "40000")); [lia|exact DG].
    + reflexivity.
    + split; [intros _; cbn; lia|intros N; exfalso; apply N; unfold is_signed; tauto].
Qed.
