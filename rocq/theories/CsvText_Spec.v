(** What the exceptions of the CSV functions say, for any text (C112). Nothing here refers to
    the model of the reader. *)
From Verif Require Import Base Bytes Csv_Spec CsvAny_Spec.

Section Numbers.
(** [number s]: the number at the start of s; [reason s]: why there is none. *)
Context {V : Type} (number : list Z -> option (V * nat)) (reason : list Z -> list Z) (sep : Z).
(** The first field of what is left of a line, its first 64 characters, and what is left
    behind them (and behind the separator, if they are the whole field). *)
Definition first_field (l : list Z) : list Z := hd [] (pieces sep l).
Definition first_token (l : list Z) : list Z := firstn 64 (first_field l).
Definition after_token (l : list Z) : list Z :=
  if Nat.ltb (length (first_field l)) 64 then skipn (S (length (first_field l))) l else skipn 64 l.
(** The text about a token that is not a number: if no number starts it, up to 64 characters
    of the line from the token on are quoted; else the character behind the number. *)
Definition conversion (l : list Z) : list Z :=
  bytes "io::csv_read_row conversion failed '" ++ strip_plus (firstn 64 l) ++ bytes "': " ++ reason (strip_plus (firstn 64 l)).
Definition problem (l : list Z) : option (list Z) :=
  match number (strip_plus (first_token l)) with
  | None => Some (conversion l)
  | Some (_, k) => match skipn k (strip_plus (first_token l)) with
                   | [] => None
                   | c :: _ => Some (bytes "io::csv_read_row unexpected character '" ++ [c] ++ bytes "'")
                   end
  end.
(** The text of the exception for a line that should have [n] more fields; None if there is no exception. *)
Fixpoint complaint (n : nat) (l : list Z) : option (list Z) :=
  match n, l with
  | 0, [] => None
  | 0, _ => Some (bytes "io::csv_read_row line not fully consumed")
  | S _, [] => Some (conversion [])
  | S n, _ => match problem l with Some t => Some t | None => complaint n (after_token l) end
  end.
(** A missing line: the flags say whether the text ends here. *)
Definition no_line (after : option (list Z)) : list Z :=
  bytes "io::csv_read_row extraction failed: fail" ++ match after with Some _ => [] | None => bytes " eof" end.
(** A row of [n] fields: comment lines [c], the line, and what follows it; [first]: it is the
    first row of the call. *)
Definition row_complaint (first : bool) (c line : list Z) (after : option (list Z)) (n : nat) : option (list Z) :=
  match line with
  | [] => match c, n with
          | [], 0 => None
          | [], _ => Some (if first then no_line after else conversion [])
          | _, _ => Some (no_line after)
          end
  | h :: _ => if Z.eqb h hash then match n with 0 => None | _ => Some (conversion []) end else complaint n line
  end.
(** A row of any number of fields. *)
Definition vector_complaint (c line : list Z) (after : option (list Z)) : option (list Z) :=
  match row_tokens sep c line with Some ts => row_complaint true c line after (length ts) | None => Some (no_line after) end.
(** [k] rows of [n] fields. *)
Inductive matrix_complaint (n : nat) : bool -> nat -> list Z -> option (list Z) -> Prop :=
| mc_done first text : matrix_complaint n first 0 text None
| mc_row first k text c line after t :
    parts text c line after -> row_complaint first c line after n = None ->
    matrix_complaint n false k (behind after) t -> matrix_complaint n first (S k) text t
| mc_stop first k text c line after t :
    parts text c line after -> row_complaint first c line after n = Some t -> matrix_complaint n first (S k) text (Some t).
End Numbers.
