(** csv_read_row and csv_read (io/csv.tpp:155-176) with the destination they assign to, also
    when they throw: as Csv_Model, which gives the values only on success. *)
From Verif Require Import Base Csv_Spec Csv_Model.
Local Open Scope outcome_scope.

Section Reader.
Context (eager : bool) {V : Type} (number : list Z -> option (V * nat)) (sep : Z).
(** The loop over the elements (csv.tpp:160-161, 172-173): the values that have been assigned,
    and how it ends. *)
Fixpoint assign_fields (n : nat) (r : reader) (st : stream) : list V * outcome (reader * stream) :=
  match n with
  | 0 => ([], Ok (r, st))
  | S n =>
    match read eager number sep r st with
    | Ok (v, r, st) => let '(w, o) := assign_fields n r st in (v :: w, o)
    | Throw e => ([], Throw e)
    | Abort => ([], Abort)
    | UB => ([], UB)
    end
  end.
(** The elements of a row after the assignments to the first ones (csv.tpp:161, 173). *)
Definition overwrite (w v : list V) : list V := w ++ skipn (length w) v.
(** One row (csv.tpp:158-162, 171-174): the row afterwards, and how it ends. *)
Definition row_into (v : list V) (r : reader) (st : stream) : list V * outcome (reader * stream) :=
  match skip_comments eager r st with
  | Ok (r, st) =>
      let '(w, o) := assign_fields (length v) r st in
      (overwrite w v, ' (r, st) <- o ;; st <- next_line r st ;; Ok (r, st))
  | Throw e => (v, Throw e)
  | Abort => (v, Abort)
  | UB => (v, UB)
  end.
(** csv_read_row(is, v, sep) (csv.tpp:155-163): v afterwards. *)
Definition csv_read_row_into (v : list V) (st : stream) : list V * outcome stream :=
  let '(v, o) := row_into v new_reader st in (v, ' (_, st) <- o ;; Ok st).
(** The rows of csv_read (csv.tpp:169-175), one reader for all. *)
Fixpoint rows_into (m : list (list V)) (r : reader) (st : stream) : list (list V) * outcome stream :=
  match m with
  | [] => ([], Ok st)
  | v :: m =>
    let '(v, o) := row_into v r st in
    match o with
    | Ok (r, st) => let '(m, o) := rows_into m r st in (v :: m, o)
    | Throw e => (v :: m, Throw e)
    | Abort => (v :: m, Abort)
    | UB => (v :: m, UB)
    end
  end.
(** csv_read(is, m, sep) (csv.tpp:165-176): the rows of the matrix afterwards. *)
Definition csv_read_into (m : list (list V)) (st : stream) : list (list V) * outcome stream := rows_into m new_reader st.
End Reader.
