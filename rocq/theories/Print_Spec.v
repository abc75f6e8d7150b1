(** What C48/C49 talk about: matrices, texts joined by delimiters, and the layouts. *)
From Verif Require Import Base Bytes MatView_Model MatView_Spec.
Local Notation concat := List.concat.

(** The matrix behind a view: a list of rows. *)
Definition holds {V} (v : view) (m : mem V) (M : list (list V)) : Prop :=
  Z.of_nat (length M) = rows v /\ Forall (fun row => Z.of_nat (length row) = cols v) M /\
  forall r row c x, nth_error M r = Some row -> nth_error row c = Some x -> m (elem v (Z.of_nat r) (Z.of_nat c)) = Some x.

(** Texts with a delimiter between them. *)
Fixpoint joined (d : list Z) (ts : list (list Z)) : list Z :=
  match ts with [] => [] | [t] => t | t :: ts => t ++ d ++ joined d ts end.

(** One line. *)
Definition one_line (indent start delimiter end_ : list Z) (tokens : list (list Z)) : list Z :=
  indent ++ start ++ joined delimiter tokens ++ end_.
(** One line per row. *)
Definition line_per_row (indent start line_start delimiter line_end end_ : list Z) (tokens : list (list (list Z))) : list Z :=
  match tokens with
  | [] => end_
  | first :: more =>
      joined line_end ((indent ++ start ++ joined delimiter first) :: map (fun row => indent ++ line_start ++ joined delimiter row) more) ++ end_
  end.

(** Python: a list of numbers, or a list of lists of numbers. *)
Definition py_list (items : list (list Z)) : list Z := bytes "[" ++ joined (bytes ", ") items ++ bytes "]".
Definition py_matrix (rows : list (list (list Z))) : list Z :=
  bytes "[" ++ joined (bytes "," ++ [10] ++ bytes " ")%Z (map py_list rows) ++ bytes "]".
(** Matlab: elements of a row separated by spaces, rows by semicolons. *)
Definition matlab_column (items : list (list Z)) : list Z := bytes "[" ++ joined (bytes "; ") items ++ bytes "]".
Definition matlab_matrix (rows : list (list (list Z))) : list Z :=
  bytes "[" ++ joined (bytes ";" ++ [10] ++ bytes " ")%Z (map (joined (bytes " ")) rows) ++ bytes "]".

(** Decimal notation of an integer. *)
Definition is_decimal (v : Z) (s : list Z) : Prop :=
  exists d, s = (if (v <? 0)%Z then 45%Z :: d else d) /\ d <> [] /\ Forall (fun c => (48 <= c <= 57)%Z) d /\
    fold_left (fun a c => (10 * a + (c - 48))%Z) d 0%Z = Z.abs v /\ (hd 48%Z d = 48%Z -> d = [48%Z]).
