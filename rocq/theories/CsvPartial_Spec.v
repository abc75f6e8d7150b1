(** What a CSV function leaves in its destination, for any text (C111). Nothing here refers to
    the model of the reader. *)
From Verif Require Import Base Csv_Spec CsvAny_Spec.

Section Numbers.
Context {V : Type} (number : list Z -> option (V * nat)).
(** From the tokens [ts], as many elements of v as there are numbers at the start of [ts] (and
    elements in v) have been assigned; the others are what they were. *)
Definition assigned (ts : list (list Z)) (v v' : list V) : Prop :=
  exists k ws, k <= length ts /\ k <= length v /\ values_of number (firstn k ts) = Some ws /\ v' = ws ++ skipn k v /\
    (k = length v \/ k = length ts \/ value_of number (nth k ts []) = None).
(** The row that starts a text fits the row v of the destination. *)
Definition fits (sep : Z) (c line : list Z) (n : nat) : Prop := exists vs, row_values number sep c line = Some vs /\ length vs = n.
(** The tokens of a row; none if there is no row. *)
Definition tokens_or_none (sep : Z) (c line : list Z) : list (list Z) :=
  match row_tokens sep c line with Some ts => ts | None => [] end.

(** [left_in text m m' rest]: csv_read of [text] into the rows m gives m'; [rest] is what
    follows, or None if the call throws. Rows before the first one that does not fit are read,
    that one is assigned in part, and the rows after it are what they were. *)
Inductive left_in (sep : Z) : list Z -> list (list V) -> list (list V) -> option (list Z) -> Prop :=
| left_all text : left_in sep text [] [] (Some text)
| left_row text c line after v m vs m' rest :
    parts text c line after -> row_values number sep c line = Some vs -> length vs = length v ->
    left_in sep (behind after) m m' rest -> left_in sep text (v :: m) (vs :: m') rest
| left_error text c line after v v' m :
    parts text c line after -> ~ fits sep c line (length v) -> assigned (tokens_or_none sep c line) v v' ->
    left_in sep text (v :: m) (v' :: m) None.
End Numbers.
