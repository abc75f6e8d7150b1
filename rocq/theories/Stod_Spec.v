(** What C76 and C77 talk about: texts that std::from_chars does not read as
    numbers but the C library does. *)
From Flocq Require Import Core.
From Coq Require Import Reals.
From Verif Require Import Base Bytes Duration_Spec FloatIO_Model.
Local Open Scope Z_scope.

(** White space of the C locale. *)
Definition space (c : Z) : Prop := c = 32 \/ 9 <= c <= 13.

(** A hexadecimal digit and its value. *)
Inductive hex_digit : Z -> Z -> Prop :=
| hd_dec v : 0 <= v <= 9 -> hex_digit (48 + v) v
| hd_low v : 10 <= v <= 15 -> hex_digit (97 + (v - 10)) v
| hd_upp v : 10 <= v <= 15 -> hex_digit (65 + (v - 10)) v.
Definition is_hex (c : Z) : Prop := exists v, hex_digit c v.

(** A text that the C library takes for a hexadecimal number: an optional minus
    sign, 0x or 0X, and a digit, perhaps behind a point. *)
Definition hexadecimal (s : list Z) : Prop :=
  exists sign x point d rest, s = sign ++ 48 :: x :: point ++ d :: rest /\
    (sign = [] \/ sign = [45]) /\ (x = 120 \/ x = 88) /\ (point = [] \/ point = [46]) /\ is_hex d.

(** The smallest positive normal number of a format. *)
Definition min_normal (fmt : format) : R := powerRZ 2 (emin fmt + prec fmt - 1).
