(** What the CSV functions read from any text: the pieces of a line of at most 64
    characters. Nothing here refers to the model of the reader. *)
From Verif Require Import Base Csv_Spec.

(** The first [k] groups of 64 characters of a field; the last one may be shorter or empty. *)
Definition groups (k : nat) (f : list Z) : list (list Z) := map (fun i => firstn 64 (skipn (64 * i) f)) (seq 0 k).
(** A field in front of a separator: one group more than there are full groups, so a
    field with 64, 128, ... characters has an empty group behind them. *)
Definition before_separator (f : list Z) : list (list Z) := groups (length f / 64 + 1) f.
(** A field at the end of the line: only groups that are not empty. *)
Definition at_line_end (f : list Z) : list (list Z) := groups ((length f + 63) / 64) f.
Definition tokens (sep : Z) (line : list Z) : list (list Z) :=
  List.concat (map before_separator (removelast (pieces sep line))) ++ at_line_end (last (pieces sep line) []).

(** The row at the start of a text that consists of the comment lines [c], the line
    [line], and what follows it. Without comments, an empty line is a row without
    fields; with comments it is an error ([None]). A line that starts with a hash sign
    is a comment without newline at the end of the text: no fields. *)
Definition row_tokens (sep : Z) (c line : list Z) : option (list (list Z)) :=
  match line with
  | [] => match c with [] => Some [] | _ => None end
  | h :: _ => if Z.eqb h hash then Some [] else Some (tokens sep line)
  end.
Definition behind (after : option (list Z)) : list Z := match after with Some r => r | None => [] end.
(** The parts of a text: see theorem C97_every_text. *)
Inductive parts (text c line : list Z) (after : option (list Z)) : Prop :=
| Parts t : text = c ++ t -> comments c -> first_line t = (line, after) -> (is_comment line -> after = None) -> parts text c line after.

Section Numbers.
Context {V : Type} (number : list Z -> option (V * nat)).
Definition row_values (sep : Z) (c line : list Z) : option (list V) :=
  match row_tokens sep c line with Some ts => values_of number ts | None => None end.
(** [k] rows of [n] numbers at the start of a text: the numbers and the text behind
    them, or [None]. *)
Inductive rows_at (sep : Z) (n : nat) : nat -> list Z -> option (list (list V) * list Z) -> Prop :=
| at_done text : rows_at sep n 0 text (Some ([], text))
| at_row k text c line after vs res :
    parts text c line after -> row_values sep c line = Some vs -> length vs = n ->
    rows_at sep n k (behind after) res ->
    rows_at sep n (S k) text (match res with Some (vss, rest) => Some (vs :: vss, rest) | None => None end)
| at_error k text c line after :
    parts text c line after -> (forall vs, row_values sep c line = Some vs -> length vs <> n) ->
    rows_at sep n (S k) text None.
End Numbers.
