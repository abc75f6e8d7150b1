(** io/csv.tpp again (src/include/guanaqo/implementation/io/csv.tpp), now with the texts of
    the exceptions, which Csv_Model drops. The other simplifications are those of Csv_Model:
    the stream never goes bad, so that is.bad() never adds " bad". [reason s] is
    std::make_error_code(ec).message() for the ec that std::from_chars gives for s. *)
From Verif Require Import Base Bytes Csv_Spec Csv_Model.

(** How a call ends: a value, an exception csv_read_error with a text (csv.hpp:14-16), a failed assertion (csv.tpp:68), no end (not in the code). *)
Inductive res (A : Type) := Done (a : A) | Error (text : list Z) | Aborts | Undefined.
Arguments Done {A}. Arguments Error {A}. Arguments Aborts {A}. Arguments Undefined {A}.
(** One statement after another (csv.tpp:26-188). *)
Definition andthen {A B} (m : res A) (k : A -> res B) : res B :=
  match m with Done a => k a | Error t => Error t | Aborts => Aborts | Undefined => Undefined end.

Section Reader.
Context (eager : bool) {V : Type} (number : list Z -> option (V * nat)) (reason : list Z -> list Z) (sep : Z).
(** The flags in the texts (csv.tpp:52-54, 59-61). *)
Definition flags (st : stream) : list Z :=
  (if fail st then bytes " fail" else []) ++ (if eof st then bytes " eof" else []).
(** read_chunk (48-65) *)
Definition read_chunk_t (r : reader) (st : stream) : res (reader * stream) :=
  if fail st then Error (bytes "io::csv_read_row invalid stream:" ++ flags st)
  else if Nat.eqb bufmaxsize (length (buf r)) then Done (r, st)
  else
    let '(t, st) := get_n eager (bufmaxsize - length (buf r)) st in
    if fail st then Error (bytes "io::csv_read_row extraction failed:" ++ flags st)
    else
      let '(c, st) := peek st in
      Done (Reader (buf r ++ t) (negb (is_end c) && negb (eof st)), st).
(** read_single (85-97): the value and the number of characters before ptr *)
Definition read_single_t (s : list Z) : res (V * nat) :=
  let '(skip, s') := match s with c :: t => if Z.eqb c plus then (1, t) else (0, s) | [] => (0, s) end in
  match number s' with
  | Some (v, k) => Done (v, skip + k)
  | None => Error (bytes "io::csv_read_row conversion failed '" ++ s' ++ bytes "': " ++ reason s')
  end.
(** read (26-46) *)
Definition read_t (r : reader) (st : stream) : res (V * reader * stream) :=
  andthen (if keep_reading r then read_chunk_t r st else Done (r, st)) (fun '(r, st) =>
  andthen (read_single_t (buf r)) (fun '(v, ptr) =>
  match skipn ptr (buf r) with
  | [] => Done (v, Reader [] (keep_reading r), st)
  | c :: tail => if Z.eqb c sep then Done (v, Reader tail (keep_reading r), st)
                 else Error (bytes "io::csv_read_row unexpected character '" ++ [c] ++ bytes "'")
  end)).
(** next_line (132-135) *)
Definition next_line_t (r : reader) (st : stream) : res stream :=
  match buf r with
  | _ :: _ => Error (bytes "io::csv_read_row line not fully consumed")
  | [] => if eof st then Done st
          else let '(c, st) := get st in if is_end c then Done st else Error (bytes "io::csv_read_row line not fully consumed")
  end.
(** The inner loop of skip_comments (75-78), fuel as in Csv_Model. *)
Fixpoint skip_rest_t (fuel : nat) (r : reader) (st : stream) : res (reader * stream) :=
  if keep_reading r then
    match fuel with
    | 0 => Undefined
    | S fuel => andthen (read_chunk_t (Reader [] (keep_reading r)) st) (fun '(r, st) => skip_rest_t fuel r st)
    end
  else Done (r, st).
(** The outer loop (71-81) *)
Fixpoint skip_loop_t (fuel : nat) (r : reader) (st : stream) : res (reader * stream) :=
  if eof st then Done (r, st)
  else match fuel with
  | 0 => Undefined
  | S fuel =>
    andthen (read_chunk_t r st) (fun '(r, st) =>
    match buf r with
    | c :: _ =>
        if Z.eqb c hash then
          andthen (skip_rest_t (S (length (rest st))) r st) (fun '(r, st) =>
          let r := Reader [] (keep_reading r) in
          andthen (next_line_t r st) (fun st => skip_loop_t fuel r st))
        else Done (r, st)
    | [] => Done (r, st)
    end)
  end.
(** skip_comments (67-82) *)
Definition skip_comments_t (r : reader) (st : stream) : res (reader * stream) :=
  match buf r with
  | _ :: _ => Aborts (* assert(bufidx == 0) *)
  | [] =>
    if eof st then Done (r, st)
    else
      let '(c, st) := peek st in
      if is_end c then Done (r, st) else skip_loop_t (S (length (rest st))) r st
  end.
(** The loop over the fields (160-161, 172-173) *)
Fixpoint read_fields_t (n : nat) (r : reader) (st : stream) : res (list V * reader * stream) :=
  match n with
  | 0 => Done ([], r, st)
  | S n =>
    andthen (read_t r st) (fun '(v, r, st) =>
    andthen (read_fields_t n r st) (fun '(vs, r, st) => Done (v :: vs, r, st)))
  end.
(** One row (csv.tpp:157-164, 170-176) *)
Definition one_row_t (n : nat) (r : reader) (st : stream) : res (list V * reader * stream) :=
  andthen (skip_comments_t r st) (fun '(r, st) =>
  andthen (read_fields_t n r st) (fun '(vs, r, st) =>
  andthen (next_line_t r st) (fun st => Done (vs, r, st)))).
(** csv_read_row (155-163) *)
Definition csv_read_row_t (n : nat) (st : stream) : res (list V * stream) :=
  andthen (one_row_t n new_reader st) (fun '(vs, _, st) => Done (vs, st)).
(** The rows of csv_read (169-175) *)
Fixpoint read_rows_t (rows cols : nat) (r : reader) (st : stream) : res (list (list V) * stream) :=
  match rows with
  | 0 => Done ([], st)
  | S rows =>
    andthen (one_row_t cols r st) (fun '(vs, r, st) =>
    andthen (read_rows_t rows cols r st) (fun '(vss, st) => Done (vs :: vss, st)))
  end.
(** csv_read (165-176) *)
Definition csv_read_t (rows cols : nat) (st : stream) : res (list (list V) * stream) := read_rows_t rows cols new_reader st.
(** The loop of csv_read_row_std_vector (184-185), fuel as in Csv_Model. *)
Fixpoint read_all_t (fuel : nat) (r : reader) (st : stream) : res (list V * reader * stream) :=
  let '(d, st) := done r st in
  if d then Done ([], r, st)
  else match fuel with
  | 0 => Undefined
  | S fuel =>
    andthen (read_t r st) (fun '(v, r, st) =>
    andthen (read_all_t fuel r st) (fun '(vs, r, st) => Done (v :: vs, r, st)))
  end.
(** csv_read_row_std_vector (178-188) *)
Definition csv_read_row_std_vector_t (st : stream) : res (list V * stream) :=
  andthen (skip_comments_t new_reader st) (fun '(r, st') =>
  andthen (read_all_t (S (length (rest st))) r st') (fun '(vs, r, st') =>
  andthen (next_line_t r st') (fun st' => Done (vs, st')))).
End Reader.
