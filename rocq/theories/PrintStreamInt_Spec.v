(** The text of an integer on a stream: numerals in any base, groups of digits. *)
From Verif Require Import Base.
Local Open Scope Z_scope.
(** 0-9, then a-f or A-F *)
Definition digit_char (upper : bool) (d : Z) : Z := if d <? 10 then 48 + d else (if upper then 65 else 97) + (d - 10).
Definition value_in_base (b : Z) (ds : list Z) : Z := fold_left (fun v d => b * v + d) ds 0.
(** [s] is the number [n] in base [b], without leading zeros. *)
Definition numeral (b : Z) (upper : bool) (n : Z) (s : list Z) : Prop :=
  exists ds, s = map (digit_char upper) ds /\ Forall (fun d => 0 <= d < b) ds /\ ds <> [] /\ value_in_base b ds = n /\ (hd 0 ds = 0 -> ds = [0]).
(** Groups of digits, the last one first: its length is the first of the sizes, that of the group in front of
    it the next, and so on; the last size is used for all further groups. What is in front of the groups is one
    group; a size that is not positive, or CHAR_MAX, is for all the digits that are left. *)
Inductive groups_of : list Z -> list (list Z) -> Prop :=
| one_group sizes d : d <> [] -> (forall g more, sizes = g :: more -> 0 < g < 127 -> Z.of_nat (length d) <= g) -> groups_of sizes [d]
| last_group g d ds : 0 < g < 127 -> Z.of_nat (length d) = g -> groups_of [g] ds -> groups_of [g] (ds ++ [d])
| next_group g g' more d ds : 0 < g < 127 -> Z.of_nat (length d) = g -> groups_of (g' :: more) ds -> groups_of (g :: g' :: more) (ds ++ [d]).
(** The groups with a separator in between *)
Fixpoint joined (sep : Z) (groups : list (list Z)) : list Z :=
  match groups with [] => [] | [d] => d | d :: ds => d ++ sep :: joined sep ds end.
