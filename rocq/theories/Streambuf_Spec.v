(** Specification side of C12-C15: UTF-8, independent of the code. *)
From Verif Require Import Base.
Local Open Scope Z_scope.

(** Well-formed byte sequences of one code point (Unicode, table 3-7). *)
Definition cont (b : Z) : Prop := 128 <= b <= 191.
Inductive code_point : list Z -> Prop :=
| cp1 a : 0 <= a <= 127 -> code_point [a]
| cp2 a b : 194 <= a <= 223 -> cont b -> code_point [a; b]
| cp3_E0 b c : 160 <= b <= 191 -> cont c -> code_point [224; b; c]
| cp3 a b c : 225 <= a <= 236 \/ 238 <= a <= 239 -> cont b -> cont c -> code_point [a; b; c]
| cp3_ED b c : 128 <= b <= 159 -> cont c -> code_point [237; b; c]
| cp4_F0 b c d : 144 <= b <= 191 -> cont c -> cont d -> code_point [240; b; c; d]
| cp4 a b c d : 241 <= a <= 243 -> cont b -> cont c -> cont d -> code_point [a; b; c; d]
| cp4_F4 b c d : 128 <= b <= 143 -> cont c -> cont d -> code_point [244; b; c; d].

Definition valid_utf8 (t : list Z) : Prop := exists cps, t = concat cps /\ Forall code_point cps.

(** [p] is a code point of which at least one byte is still missing. *)
Definition incomplete (p : list Z) : Prop := exists r, r <> [] /\ code_point (p ++ r).
