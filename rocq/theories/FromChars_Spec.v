(** std::from_chars for integers ([charconv.from.chars]); shares only the result
    type and the names of the integer types with the model. *)
From Verif Require Import Base FromChars_Model.
Local Open Scope Z_scope.

Definition is_signed (ty : ity) : Prop := ty = SChar \/ ty = Short \/ ty = Int \/ ty = Long \/ ty = LLong.
Definition width (ty : ity) : Z :=
  match ty with SChar | UChar => 8 | Short | UShort => 16 | Int | UInt => 32 | _ => 64 end.
Definition representable (ty : ity) (v : Z) : Prop :=
  (is_signed ty -> - 2 ^ (width ty - 1) <= v < 2 ^ (width ty - 1)) /\
  (~ is_signed ty -> 0 <= v < 2 ^ width ty).

(** [c] is the digit with value [d]: 0-9, then letters of either case. *)
Inductive digit : Z -> Z -> Prop :=
| digit_dec c : 48 <= c <= 57 -> digit c (c - 48)
| digit_low c : 97 <= c <= 122 -> digit c (c - 87)
| digit_upp c : 65 <= c <= 90 -> digit c (c - 55).
Definition is_digit (base c : Z) : Prop := exists d, digit c d /\ d < base.
(** The digits [ds] written in [base] denote [v]. *)
Inductive denotes (base : Z) : list Z -> Z -> Prop :=
| denotes_nil : denotes base [] 0
| denotes_snoc ds v c d : denotes base ds v -> digit c d -> d < base -> denotes base (ds ++ [c]) (v * base + d).

(** The text starts with an integer: minus sign (only for signed types), the
    longest sequence of digits, rest. *)
Definition integer_at (base : Z) (ty : ity) (text sign ds rest : list Z) : Prop :=
  text = sign ++ ds ++ rest /\ (sign = [] \/ is_signed ty /\ sign = [45]) /\
  ds <> [] /\ (forall c, In c ds -> is_digit base c) /\
  (forall c r, rest = c :: r -> ~ is_digit base c).
Inductive std_from_chars (base : Z) (ty : ity) (text : list Z) : fc_result -> Prop :=
| std_no_match : (forall sign ds rest, ~ integer_at base ty text sign ds rest) ->
    std_from_chars base ty text InvalidArgument
| std_number sign ds rest v x : integer_at base ty text sign ds rest -> denotes base ds v ->
    x = (match sign with [] => v | _ => - v end) -> representable ty x ->
    std_from_chars base ty text (Number x (length sign + length ds))
| std_out_of_range sign ds rest v x : integer_at base ty text sign ds rest -> denotes base ds v ->
    x = (match sign with [] => v | _ => - v end) -> ~ representable ty x ->
    std_from_chars base ty text (OutOfRange (length sign + length ds)).

(** Texts without the extras that only the C functions accept: white space or a
    plus sign in front, a minus sign for unsigned types, 0x in base 16. *)
Definition plain_text (base : Z) (ty : ity) (text : list Z) : Prop :=
  (forall c t, text = c :: t -> c <> 32 /\ ~ 9 <= c <= 13 /\ c <> 43 /\ (c = 45 -> is_signed ty)) /\
  (base = 16 -> forall sign x t, (sign = [] \/ sign = [45]) -> text = sign ++ 48 :: x :: t -> x <> 120 /\ x <> 88).
