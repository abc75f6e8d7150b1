(** C94: what integers look like, for any flags and locale. *)
From Verif Require Import Base Bytes MatView_Model Print_Model Print_Spec Print_Ints PrintStream_Model PrintStream_Proofs PrintStream_Props PrintStreamInt_Spec PrintStreamInt_Proofs.
Local Open Scope Z_scope.

Definition integer_range (sgn : bool) (bits z : Z) : Prop := if sgn then - 2 ^ (bits - 1) <= z < 2 ^ (bits - 1) else 0 <= z < 2 ^ bits.
(** Base ten: a sign, the digits of the magnitude. *)
Theorem C94_decimal_text : forall f sgn bits z, basefield f = Dec ->
  exists groups, with_integers f (Integer sgn bits z) =
      (if z <? 0 then bytes "-" else if showpos f && sgn then bytes "+" else []) ++ joined (thousands_sep f) groups /\
    groups_of (grouping f) groups /\ numeral 10 false (Z.abs z) (List.concat groups).
Proof.
  intros f sgn bits z B. cbn [with_integers]. unfold int_prefix, int_digits. rewrite B. pose proof (decimal_ok false (Z.abs z) ltac:(lia)) as N.
  destruct (grouped_ok f (show_nat (Z.abs z)) (numeral_nonempty _ _ _ _ N)) as (gs & G & E & ->). exists gs. rewrite E. auto.
Qed.
Print Assumptions C94_decimal_text.
(** Hexadecimal and octal: negative numbers in two's complement, as wide as their type; with
    showbase a prefix, but not for zero. *)
Theorem C94_hexadecimal_text : forall f sgn bits z, basefield f = Hex -> 0 < bits -> integer_range sgn bits z ->
  let n := if z <? 0 then z + 2 ^ bits else z in
  exists groups, with_integers f (Integer sgn bits z) =
      (if showbase f && negb (z =? 0) then (if uppercase f then bytes "0X" else bytes "0x") else []) ++ joined (thousands_sep f) groups /\
    groups_of (grouping f) groups /\ numeral 16 (uppercase f) n (List.concat groups).
Proof.
  intros f sgn bits z B Hb R n.
  assert (P : 2 ^ bits = 2 * 2 ^ (bits - 1)) by (rewrite <- Z.pow_succ_r by lia; f_equal; lia). assert (P1 : 0 < 2 ^ (bits - 1)) by (apply Z.pow_pos_nonneg; lia).
  assert (E : z mod 2 ^ bits = n).
  { unfold n. unfold integer_range in R. destruct (Z.ltb_spec z 0) as [L|L]; [destruct sgn; [|lia]; symmetry; apply (Z.mod_unique _ _ (-1)); lia|apply Z.mod_small; destruct sgn; lia]. }
  assert (E0 : (n =? 0) = (z =? 0)).
  { unfold n, integer_range in *. destruct (Z.ltb_spec z 0) as [L|L]; [|reflexivity]. destruct sgn; [|lia]. rewrite !(proj2 (Z.eqb_neq _ _)) by lia. reflexivity. }
  cbn [with_integers]. unfold int_prefix, int_digits. rewrite B, E, E0. assert (Hn : 0 <= n) by (rewrite <- E; apply Z.mod_pos_bound; lia).
  pose proof (radix_ok 16 (uppercase f) n ltac:(lia) Hn) as N.
  destruct (grouped_ok f _ (numeral_nonempty _ _ _ _ N)) as (gs & G & Ec & ->). exists gs. rewrite Ec. split; [|auto]. destruct (showbase f && negb (z =? 0)), (uppercase f); reflexivity.
Qed.
Print Assumptions C94_hexadecimal_text.
Theorem C94_octal_text : forall f sgn bits z, basefield f = Oct -> 0 < bits -> integer_range sgn bits z ->
  let n := if z <? 0 then z + 2 ^ bits else z in
  exists groups, with_integers f (Integer sgn bits z) =
      (if showbase f && negb (z =? 0) then bytes "0" else []) ++ joined (thousands_sep f) groups /\
    groups_of (grouping f) groups /\ numeral 8 false n (List.concat groups).
Proof.
  intros f sgn bits z B Hb R n.
  assert (P : 2 ^ bits = 2 * 2 ^ (bits - 1)) by (rewrite <- Z.pow_succ_r by lia; f_equal; lia). assert (P1 : 0 < 2 ^ (bits - 1)) by (apply Z.pow_pos_nonneg; lia).
  assert (E : z mod 2 ^ bits = n).
  { unfold n. unfold integer_range in R. destruct (Z.ltb_spec z 0) as [L|L]; [destruct sgn; [|lia]; symmetry; apply (Z.mod_unique _ _ (-1)); lia|apply Z.mod_small; destruct sgn; lia]. }
  assert (E0 : (n =? 0) = (z =? 0)).
  { unfold n, integer_range in *. destruct (Z.ltb_spec z 0) as [L|L]; [|reflexivity]. destruct sgn; [|lia]. rewrite !(proj2 (Z.eqb_neq _ _)) by lia. reflexivity. }
  cbn [with_integers]. unfold int_prefix, int_digits. rewrite B, E, E0. assert (Hn : 0 <= n) by (rewrite <- E; apply Z.mod_pos_bound; lia).
  pose proof (radix_ok 8 false n ltac:(lia) Hn) as N.
  destruct (grouped_ok f _ (numeral_nonempty _ _ _ _ N)) as (gs & G & Ec & ->). exists gs. rewrite Ec. auto.
Qed.
Print Assumptions C94_octal_text.
(** The same for the numbers of a log (64 bits); anything inserted with width 0 is this text, and with a
    width w it is padded: in front, behind, or between the sign (or 0x) and the digits. *)
Theorem C94_padding : forall f it, let plain := rendered (no_width f) it in
  let padding := repeat (fill f) (Z.to_nat (width f - Z.of_nat (length plain))) in
  rendered f it = match adjustfield f with Left => plain ++ padding | Right => padding ++ plain
    | Internal => match it, basefield f with
                  | Int sgn bits z, Dec => if (z <? 0) || (showpos f && sgn) then firstn 1 plain ++ padding ++ skipn 1 plain else padding ++ plain
                  | Int sgn bits z, Hex => if showbase f && negb (z mod 2 ^ bits =? 0) then firstn 2 plain ++ padding ++ skipn 2 plain else padding ++ plain
                  | _, _ => padding ++ plain
                  end end.
Proof.
  intros f it plain padding. assert (E : forall f pre s, padded (no_width f) pre s = pre ++ s).
  { intros g pre s. apply padded_none. reflexivity. }
  assert (I1 : forall sgn bits z, int_prefix (no_width f) sgn bits z = int_prefix f sgn bits z) by reflexivity.
  assert (I2 : forall bits z, int_digits (no_width f) bits z = int_digits f bits z) by reflexivity.
  subst plain padding. destruct it as [s|sgn bits z]; cbn [rendered].
  - rewrite E. unfold padded. cbn [app]. destruct (adjustfield f); reflexivity.
  - cbn [basefield no_width]. rewrite ?E, ?I1, ?I2. destruct (basefield f) eqn:B; rewrite ?E; unfold padded; cbn [app].
    + destruct (adjustfield f); rewrite <- ?app_assoc; try reflexivity. unfold int_prefix. rewrite B. destruct (z <? 0); [reflexivity|]. cbn [orb]. destruct (showpos f && sgn); reflexivity.
    + destruct (adjustfield f); rewrite <- ?app_assoc; try reflexivity. unfold int_prefix. rewrite B. destruct (showbase f && negb (z mod 2 ^ bits =? 0)); reflexivity.
    + destruct (adjustfield f); reflexivity.
Qed.
Print Assumptions C94_padding.
(** The texts are not ambiguous: which number it is can be seen from the digits. *)
Example C94_text_nonvacuous :
  with_integers (Fmt 0 32 Right Dec true true false [3; 2] 46) (Integer true 32 1234567) = bytes "+12.34.567" /\
  with_integers (Fmt 0 32 Right Hex true true true [] 44) (Integer true 16 (-2)) = bytes "0XFFFE" /\ integer_range true 16 (-2) /\
  with_integers (Fmt 0 32 Right Oct true true false [] 44) (Integer false 8 255) = bytes "0377" /\
  with_integers (Fmt 0 32 Right Oct true true false [] 44) (Integer false 8 0) = bytes "0" /\
  rendered (Fmt 8 42 Internal Hex true true false [] 44) (Int true 8 127) = bytes "0x****7f".
Proof. repeat split; reflexivity || lia. Qed.
