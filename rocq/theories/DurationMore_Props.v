(** C17 on strings: the number in the string is the one that is converted. *)
From Flocq Require Import Core.
From Coq Require Import Reals Lra.
From Verif Require Import Base Bytes Duration_Model Duration_Spec Duration_Proofs Duration_Round Duration_Props.
Local Open Scope Z_scope.
#[local] Existing Instance prec64.

(** A term that stands for x = (+/-) m * 10^e units of un/ud seconds adds x, in
    ticks of pn/pd seconds, rounded to the nearest integer (ties to even), under
    the conditions of C17_round_half_even_partial; then the rest is parsed. *)
Theorem C17_term_partial :
  forall tg t s neg m e units rest un ud num den,
  let x := ((if neg : bool then -1 else 1) * IZR m * powerRZ 10 e)%R in
  let ticks := ZnearestE (x * (IZR un * IZR (pd tg)) / (IZR ud * IZR (pn tg))) in
  first_term s (Dec neg m e) units rest -> unit_period units un ud ->
  0 < num -> 0 < den -> Z.gcd num den = 1 -> un * pd tg * den = num * (ud * pn tg) -> 0 < ud * pn tg ->
  F64 x -> F64 (x * IZR num) ->
  (Rabs (x * IZR num) + IZR den <= IZR (2 ^ 53))%R ->
  (IZR (lo tg) <= x * IZR num / IZR den - 1)%R -> (x * IZR num / IZR den + 1 <= IZR (hi tg))%R ->
  lo tg <= t + ticks <= hi tg ->
  parse_duration tg t s = parse_duration tg (t + ticks) rest.
Proof.
  intros tg t s neg m e units rest un ud num den x ticks FT U Hn Hd G E P Fx Fxn B Lo Hi R.
  assert (EX : dec_value neg m e = x) by (unfold dec_value, x; destruct neg; cbn; lra).
  assert (C : cast tg un ud (Dec neg m e) = Ok ticks).
  { unfold ticks. rewrite <- EX. rewrite <- EX in Fx, Fxn, B, Lo, Hi.
    exact (C17_round_half_even_partial tg un ud neg m e num den Hn Hd G E P Fx Fxn B Lo Hi). }
  rewrite (parse_step tg t s _ _ _ _ _ _ FT U C).
  rewrite (proj2 (Z.leb_le _ _)), (proj2 (Z.leb_le _ _)) by lia. reflexivity.
Qed.
Print Assumptions C17_term_partial.

(** "25e-1s" is 2500 ms. *)
Example C17_exponent : first_term (bytes "25e-1s") (Dec false 25 (-1)) (bytes "s") [] /\
  parse_duration milliseconds 7 (bytes "25e-1s") = (2507, Ok tt).
Proof.
  assert (X : (IZR 25 * powerRZ 10 (-1) = 5 / 2)%R) by (unfold powerRZ; change (Pos.to_nat 1) with 1%nat; rewrite pow_1; lra).
  assert (FT : first_term (bytes "25e-1s") (Dec false 25 (-1)) (bytes "s") []).
  { apply (FirstTerm [] (bytes "25e-1s")).
    - constructor.
    - intros (c & r & E & H). injection E as <- _. cbn in H. lia.
    - apply (Number false (bytes "25e-1s") 25 (-1) (bytes "s")).
      + apply (Unsigned (bytes "25") [] (bytes "e-1s") (bytes "e-1s") (-1) (bytes "s")).
        * split; [apply Forall_forall; intros c Hc; cbn in Hc; unfold digit; lia|]. intros (c & r & E & H). injection E as <- _. unfold digit in H. lia.
        * left. split; [reflexivity|]. split; [reflexivity|]. intros (c & r & E & H). injection E as <- _. lia.
        * intros H. discriminate H.
        * left. apply (Exponent 101 [45] (bytes "1") (bytes "s")).
          -- now left.
          -- now right; right.
          -- intros H. discriminate H.
          -- split; [apply Forall_forall; intros c Hc; cbn in Hc; unfold digit; lia|]. intros (c & r & E & H). injection E as <- _. unfold digit in H. lia.
      + split; [|right]; rewrite X.
        * assert (bpow radix2 970 < bpow radix2 1023)%R by (apply bpow_lt; lia).
          assert (bpow radix2 1024 = bpow radix2 1023 * 2)%R by (change 1024 with (1023 + 1); rewrite bpow_plus; reflexivity).
          assert (bpow radix2 2 <= bpow radix2 1023)%R by (apply bpow_le; lia).
          assert (bpow radix2 2 = 4)%R by (cbn; lra). assert (bpow radix2 970 + bpow radix2 971 < bpow radix2 1023)%R.
          { assert (bpow radix2 971 <= bpow radix2 1022)%R by (apply bpow_le; lia).
            assert (bpow radix2 970 < bpow radix2 1022)%R by (apply bpow_lt; lia).
            assert (bpow radix2 1023 = bpow radix2 1022 * 2)%R by (change 1023 with (1022 + 1); rewrite bpow_plus; reflexivity). lra. }
          lra.
        * assert (bpow radix2 (-1075) < bpow radix2 0)%R by (apply bpow_lt; lia). cbn [bpow] in *. lra.
      + intros _ (c & r & E & H). injection E as <- _. lia.
    - repeat constructor. cbn. lia.
    - now left. }
  split; [exact FT|].
  pose proof (C17_term_partial milliseconds 7 (bytes "25e-1s") false 25 (-1) (bytes "s") [] 1 1 1000 1) as T.
  cbv zeta in T. rewrite Rmult_1_l, X in T.
  assert (K : ZnearestE (5 / 2 * (1 * IZR (pd milliseconds)) / (1 * IZR (pn milliseconds))) = 2500).
  { apply Znearest_imp. change (IZR (pd milliseconds)) with 1000%R. change (IZR (pn milliseconds)) with 1%R.
    rewrite Rabs_pos_eq by lra. lra. }
  rewrite K in T. rewrite T; try reflexivity; try lia; try assumption.
  - constructor.
  - replace (5 / 2)%R with (IZR 5 * bpow radix2 (-1))%R by (cbn; lra). apply F64_scaled; lia.
  - replace (5 / 2 * 1000)%R with (IZR 2500) by lra. apply F64_int. lia.
  - rewrite Rabs_pos_eq by lra. change (IZR (2 ^ 53)) with 9007199254740992%R. lra.
  - change (IZR (lo milliseconds)) with (-9223372036854775808)%R. lra.
  - change (IZR (hi milliseconds)) with 9223372036854775807%R. lra.
  - cbn. lia.
Qed.
