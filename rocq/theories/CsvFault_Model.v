(** Model of io/csv.tpp (src/include/guanaqo/implementation/io/csv.tpp) reading from a
    stream that can break: as Csv_Model.v, but with badbit, and with a stream buffer
    that may fail (underflow() throws, e.g. std::filebuf on an I/O error) when it is
    asked for a character behind those it can deliver. Unformatted input functions
    catch the exception and set badbit (the stream has no exception mask). The reader,
    the number parser and the simplifications are those of Csv_Model.v. *)
From Verif Require Import Base Csv_Spec Csv_Model.
Local Open Scope outcome_scope.

(** std::istream: unread characters, eofbit, failbit, badbit. The argument of csv.tpp:26-188. *)
Record fstream := FStream { frest : list Z; feof : bool; ffail : bool; fbad : bool }.
(** good(), used by the sentries of the operations of csv.tpp:48-84, 132-140 *)
Definition fgood (st : fstream) : bool := negb (feof st) && negb (ffail st) && negb (fbad st).
(** The sentry of a stream that is not good: setstate(failbit). csv.tpp:57, 69, 84, 134, 138. *)
Definition fset_fail (st : fstream) : fstream := FStream (frest st) (feof st) true (fbad st).

Section Reader.
(** Whether the stream buffer throws at the end of its characters; otherwise that is the end of the file. *)
Context (broken : bool).
(** The stream after looking for a character where there is none (csv.tpp:57-84, 132-140) *)
Definition at_the_end (failed : bool) : fstream :=
  if broken then FStream [] false failed true else FStream [] true failed false.
(** peek(), csv.tpp:63, 69, 138: on an exception the result is traits::eof() *)
Definition fpeek (st : fstream) : option Z * fstream :=
  if fgood st then match frest st with [] => (None, at_the_end false) | c :: _ => (Some c, st) end
  else (None, fset_fail st).
(** get(), csv.tpp:133 *)
Definition fget (st : fstream) : option Z * fstream :=
  if fgood st then match frest st with [] => (None, at_the_end true) | c :: t => (Some c, FStream t false false false) end
  else (None, fset_fail st).
(** [eager]: see Csv_Model.v. *)
Context (eager : bool).
(** get(s, k+1, '\n'), csv.tpp:57 *)
Definition fget_n (k : nat) (st : fstream) : list Z * fstream :=
  if fgood st then
    let t := take_line k (frest st) in
    let none := Nat.eqb (length t) 0 in
    match skipn (length t) (frest st) with
    | [] => (t, if eager || Nat.ltb (length t) k then at_the_end none else FStream [] false none false)
    | r => (t, FStream r false none false)
    end
  else ([], fset_fail st).

Context {V : Type} (number : list Z -> option (V * nat)) (sep : Z).

(** read_chunk (48-65): operator! is fail() || bad() *)
Definition fread_chunk (r : reader) (st : fstream) : outcome (reader * fstream) :=
  if ffail st || fbad st then Throw csv_read_error
  else if Nat.eqb bufmaxsize (length (buf r)) then Ok (r, st)
  else
    let '(t, st) := fget_n (bufmaxsize - length (buf r)) st in
    if ffail st || fbad st then Throw csv_read_error
    else
      let '(c, st) := fpeek st in
      Ok (Reader (buf r ++ t) (negb (is_end c) && negb (feof st)), st).
(** read (26-46) *)
Definition fread (r : reader) (st : fstream) : outcome (V * reader * fstream) :=
  '(r, st) <- (if keep_reading r then fread_chunk r st else Ok (r, st)) ;;
  '(v, ptr) <- read_single number (buf r) ;;
  match skipn ptr (buf r) with
  | [] => Ok (v, Reader [] (keep_reading r), st)
  | c :: tail => if Z.eqb c sep then Ok (v, Reader tail (keep_reading r), st) else Throw csv_read_error
  end.
(** next_line (132-135) *)
Definition fnext_line (r : reader) (st : fstream) : outcome fstream :=
  match buf r with
  | _ :: _ => Throw csv_read_error
  | [] => if feof st then Ok st
          else let '(c, st) := fget st in if is_end c then Ok st else Throw csv_read_error
  end.
(** done (137-140) *)
Definition fdone (r : reader) (st : fstream) : bool * fstream :=
  let '(c, st) := fpeek st in
  let keep := negb (is_end c) && negb (feof st) in
  (Nat.eqb (length (buf r)) 0 && negb keep, st).
(** The inner loop of skip_comments (75-78). As in Csv_Model.v the fuel is never used up. *)
Fixpoint fskip_rest (fuel : nat) (r : reader) (st : fstream) : outcome (reader * fstream) :=
  if keep_reading r then
    match fuel with
    | 0 => UB
    | S fuel => '(r, st) <- fread_chunk (Reader [] (keep_reading r)) st ;; fskip_rest fuel r st
    end
  else Ok (r, st).
(** The outer loop (71-81) *)
Fixpoint fskip_loop (fuel : nat) (r : reader) (st : fstream) : outcome (reader * fstream) :=
  if feof st then Ok (r, st)
  else match fuel with
  | 0 => UB
  | S fuel =>
    '(r, st) <- fread_chunk r st ;;
    match buf r with
    | c :: _ =>
        if Z.eqb c hash then
          '(r, st) <- fskip_rest (S (length (frest st))) r st ;;
          let r := Reader [] (keep_reading r) in
          st <- fnext_line r st ;;
          fskip_loop fuel r st
        else Ok (r, st)
    | [] => Ok (r, st)
    end
  end.
(** skip_comments (67-82) *)
Definition fskip_comments (r : reader) (st : fstream) : outcome (reader * fstream) :=
  match buf r with
  | _ :: _ => Abort (* assert(bufidx == 0) *)
  | [] =>
    if feof st then Ok (r, st)
    else
      let '(c, st) := fpeek st in
      if is_end c then Ok (r, st) else fskip_loop (S (length (frest st))) r st
  end.
(** The loop over the fields (160-161, 172-173) *)
Fixpoint fread_fields (n : nat) (r : reader) (st : fstream) : outcome (list V * reader * fstream) :=
  match n with
  | 0 => Ok ([], r, st)
  | S n =>
    '(v, r, st) <- fread r st ;;
    '(vs, r, st) <- fread_fields n r st ;;
    Ok (v :: vs, r, st)
  end.
(** One row (158-163, 171-175) *)
Definition fone_row (n : nat) (r : reader) (st : fstream) : outcome (list V * reader * fstream) :=
  '(r, st) <- fskip_comments r st ;;
  '(vs, r, st) <- fread_fields n r st ;;
  st <- fnext_line r st ;;
  Ok (vs, r, st).
(** csv_read_row (155-163) *)
Definition fcsv_read_row (n : nat) (st : fstream) : outcome (list V * fstream) :=
  '(vs, _, st) <- fone_row n new_reader st ;; Ok (vs, st).
(** csv_read (165-176) *)
Fixpoint fread_rows (rows cols : nat) (r : reader) (st : fstream) : outcome (list (list V) * fstream) :=
  match rows with
  | 0 => Ok ([], st)
  | S rows =>
    '(vs, r, st) <- fone_row cols r st ;;
    '(vss, st) <- fread_rows rows cols r st ;;
    Ok (vs :: vss, st)
  end.
(** csv.tpp:166-177 *)
Definition fcsv_read (rows cols : nat) (st : fstream) : outcome (list (list V) * fstream) :=
  fread_rows rows cols new_reader st.
(** The loop of csv_read_row_std_vector (184-185) *)
Fixpoint fread_all (fuel : nat) (r : reader) (st : fstream) : outcome (list V * reader * fstream) :=
  let '(d, st) := fdone r st in
  if d then Ok ([], r, st)
  else match fuel with
  | 0 => UB
  | S fuel =>
    '(v, r, st) <- fread r st ;;
    '(vs, r, st) <- fread_all fuel r st ;;
    Ok (v :: vs, r, st)
  end.
(** csv_read_row_std_vector (178-188) *)
Definition fcsv_read_row_std_vector (st : fstream) : outcome (list V * fstream) :=
  '(r, st') <- fskip_comments new_reader st ;;
  '(vs, r, st') <- fread_all (S (length (frest st))) r st' ;;
  st' <- fnext_line r st' ;;
  Ok (vs, st').
End Reader.
