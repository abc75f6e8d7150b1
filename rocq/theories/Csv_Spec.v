(** What C44-C47 talk about: text, lines, fields, comments, rows. Nothing here
    refers to the model of the reader. Characters are bytes. *)
From Verif Require Import Base.

Definition newline : Z := 10.
Definition hash : Z := 35.
Definition plus : Z := 43.

(** The first line of a text, and what follows it: [None] if the text ends there,
    [Some rest] if a newline character and [rest] follow. *)
Fixpoint first_line (text : list Z) : list Z * option (list Z) :=
  match text with
  | [] => ([], None)
  | c :: t => if Z.eqb c newline then ([], Some t) else let '(l, after) := first_line t in (c :: l, after)
  end.

(** The pieces of a line between separators (always at least one). *)
Fixpoint pieces (sep : Z) (line : list Z) : list (list Z) :=
  match line with
  | [] => [[]]
  | c :: l => if Z.eqb c sep then [] :: pieces sep l
              else match pieces sep l with p :: ps => (c :: p) :: ps | [] => [[c]] end
  end.
(** The fields: a separator at the end of the line does not start another field,
    and an empty line has no fields. *)
Fixpoint drop_last_empty (ps : list (list Z)) : list (list Z) :=
  match ps with
  | [] => []
  | [[]] => []
  | p :: ps' => p :: drop_last_empty ps'
  end.
Definition fields (sep : Z) (line : list Z) : list (list Z) := drop_last_empty (pieces sep line).

(** [comments c]: [c] consists of comment lines. *)
Inductive comments : list Z -> Prop :=
| no_comments : comments []
| comment_line body c : ~ In newline body -> comments c -> comments (hash :: body ++ newline :: c).
Definition is_comment (line : list Z) : Prop := exists body, line = hash :: body.

Section Numbers.
(** [number s]: the number at the start of [s] (std::from_chars): its value and
    length, or none. *)
Context {V : Type} (number : list Z -> option (V * nat)).
(** The value of a field: the whole text is a number, possibly after one plus. *)
Definition strip_plus (f : list Z) : list Z :=
  match f with c :: t => if Z.eqb c plus then t else f | [] => f end.
Definition value_of (f : list Z) : option V :=
  match number (strip_plus f) with
  | Some (v, k) => if Nat.eqb k (length (strip_plus f)) then Some v else None
  | None => None
  end.
Fixpoint values_of (fs : list (list Z)) : option (list V) :=
  match fs with
  | [] => Some []
  | f :: fs' => match value_of f, values_of fs' with Some v, Some vs => Some (v :: vs) | _, _ => None end
  end.

(** A field with fewer than 64 characters, or a longer one of which neither the whole
    nor the first 64 characters are a number. *)
Definition readable (f : list Z) : Prop :=
  length f < 64 \/ (value_of f = None /\ value_of (firstn 64 f) = None).

(** What the theorems require of the number parser and the separator: a number is
    not empty and within the text, and it does not extend over a separator. *)
Definition separates (sep : Z) : Prop :=
  sep <> newline /\ sep <> plus /\
  (forall s v k, number s = Some (v, k) -> 1 <= k <= length s) /\
  (forall s t, ~ In sep s -> number (s ++ sep :: t) = number s).

(** The rows of a document, each of [n] values: the values of the first [k] rows and
    the text behind them, or [None] if one of these rows does not have exactly [n]
    well-formed fields. Fields are readable in the above sense, and a comment is
    followed by a line that is not empty. *)
Inductive rows_of (sep : Z) (n : nat) : nat -> list Z -> option (list (list V) * list Z) -> Prop :=
| rows_done text : rows_of sep n 0 text (Some ([], text))
| rows_more k c text line after vs res :
    comments c -> first_line text = (line, after) -> (c = [] \/ line <> []) -> ~ is_comment line ->
    Forall readable (fields sep line) ->
    values_of (fields sep line) = Some vs -> length vs = n ->
    rows_of sep n k (match after with Some rest => rest | None => [] end) res ->
    rows_of sep n (S k) (c ++ text) (match res with Some (vss, rest) => Some (vs :: vss, rest) | None => None end)
| rows_bad k c text line after :
    comments c -> first_line text = (line, after) -> (c = [] \/ line <> []) -> ~ is_comment line ->
    Forall readable (fields sep line) ->
    (forall vs, values_of (fields sep line) = Some vs -> length vs <> n) ->
    rows_of sep n (S k) (c ++ text) None.
End Numbers.

(** [lines_of sep k text rows rest]: the text starts with k rows (each possibly after
    comments) with these fields, and [rest] follows. *)
Inductive lines_of (sep : Z) : nat -> list Z -> list (list (list Z)) -> list Z -> Prop :=
| lines_done text : lines_of sep 0 text [] text
| lines_more k c text line after rows rest :
    comments c -> first_line text = (line, after) -> (c = [] \/ line <> []) -> ~ is_comment line ->
    lines_of sep k (match after with Some rest => rest | None => [] end) rows rest ->
    lines_of sep (S k) (c ++ text) (fields sep line :: rows) rest.

(** ** Decimal integers with values lo..hi, as std::from_chars defines them: an
    optional minus sign (signed types only) and at least one digit. *)
Definition digit (c : Z) : bool := ((48 <=? c) && (c <=? 57))%Z.
Fixpoint leading_digits (s : list Z) : list Z :=
  match s with c :: t => if digit c then c :: leading_digits t else [] | [] => [] end.
Definition decimal (d : list Z) : Z := fold_left (fun v c => (10 * v + (c - 48))%Z) d 0%Z.
Definition integer (lo hi : Z) (s : list Z) : option (Z * nat) :=
  let '(neg, t) := match s with c :: t => if ((c =? 45) && (lo <? 0))%Z then (true, t) else (false, s) | [] => (false, s) end in
  let d := leading_digits t in
  let v := if neg : bool then (- decimal d)%Z else decimal d in
  match d with
  | [] => None
  | _ => if ((lo <=? v) && (v <=? hi))%Z then Some (v, length s - length t + length d) else None
  end.
