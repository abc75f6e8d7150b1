(** Model of io/csv.tpp (src/include/guanaqo/implementation/io/csv.tpp).

    Simplifications: the buffer is the list of its bufidx characters (what is behind
    them is never read; s.front() is only read if bufidx != 0); the error messages
    are dropped; the stream never goes bad and has no exception mask; csv_read
    returns the rows that are assigned to v(r, c); std::from_chars
    (__cpp_lib_to_chars) is a parameter, the strtod fallback is not modelled. *)
From Verif Require Import Base Csv_Spec.
Local Open Scope outcome_scope.

(** ** std::istream over a text: unread characters, eofbit, failbit. The argument is of csv.tpp:26-188. *)
Record stream := Stream { rest : list Z; eof : bool; fail : bool }.
(** std::istream::good(), checked by the operations of csv.tpp:48-84 and 132-140 *)
Definition good (st : stream) : bool := negb (eof st) && negb (fail st).
(** setstate(failbit), as the operations of csv.tpp:48-84 and 132-140 do *)
Definition set_fail (st : stream) : stream := Stream (rest st) (eof st) true.
(** A new stream, as a caller of csv.tpp:157-188 has it *)
Definition open (text : list Z) : stream := Stream text false false.
(** Reading continues with this text. Not in the code: a state of the argument of csv.tpp:157-188. *)
Definition at_text (st : stream) (text : list Z) : Prop :=
  st = open text \/ (text = [] /\ rest st = [] /\ eof st = true).

(** peek(): a stream that is not good gets failbit (sentry). Used at csv.tpp:68-84, 137-142. *)
Definition peek (st : stream) : option Z * stream :=
  if good st then match rest st with [] => (None, Stream [] true false) | c :: _ => (Some c, st) end
  else (None, set_fail st).
(** get() Used at csv.tpp:132-135. *)
Definition get (st : stream) : option Z * stream :=
  if good st then match rest st with [] => (None, Stream [] true true) | c :: t => (Some c, Stream t false false) end
  else (None, set_fail st).
(** At most [k] characters, up to a newline. Used by is.get(s, n, end), csv.tpp:57. *)
Fixpoint take_line (k : nat) (s : list Z) : list Z :=
  match k, s with S k', c :: t => if Z.eqb c newline then [] else c :: take_line k' t | _, _ => [] end.
Section Reader.
(** Whether get(s, n, delim) looks at the next character after n-1 characters, so that
    eofbit is set if there is none (libstdc++ does, libc++ does not). *)
Context (eager : bool).
(** get(s, k+1, '\n'): k characters, up to a newline, failbit if there are none. *)
Definition get_n (k : nat) (st : stream) : list Z * stream :=
  if good st then
    let t := take_line k (rest st) in
    let r := skipn (length t) (rest st) in
    (t, Stream r (match r with [] => eager || Nat.ltb (length t) k | _ => false end) (Nat.eqb (length t) 0))
  else ([], set_fail st).

Context {V : Type} (number : list Z -> option (V * nat)) (sep : Z).
(** csv.tpp:20 *)
Definition bufmaxsize : nat := 64.
(** CSVReader: s[0..bufidx), keep_reading (20-23) *)
Record reader := Reader { buf : list Z; keep_reading : bool }.
(** CSVReader<F> reader; (csv.tpp:21-24) *)
Definition new_reader : reader := Reader [] true.
(** c == end (csv.tpp:57, 67-84, 132-140) *)
Definition is_end (c : option Z) : bool := match c with Some z => Z.eqb z newline | None => false end.

(** read_chunk (48-65) *)
Definition read_chunk (r : reader) (st : stream) : outcome (reader * stream) :=
  if fail st then Throw csv_read_error
  else if Nat.eqb bufmaxsize (length (buf r)) then Ok (r, st)
  else
    let '(t, st) := get_n (bufmaxsize - length (buf r)) st in
    if fail st then Throw csv_read_error
    else
      let '(c, st) := peek st in
      Ok (Reader (buf r ++ t) (negb (is_end c) && negb (eof st)), st).
(** read_single (85-96): the value and the number of characters before ptr *)
Definition read_single (s : list Z) : outcome (V * nat) :=
  let '(skip, s') := match s with c :: t => if Z.eqb c plus then (1, t) else (0, s) | [] => (0, s) end in
  match number s' with
  | Some (v, k) => Ok (v, skip + k)
  | None => Throw csv_read_error
  end.
(** read (26-46) *)
Definition read (r : reader) (st : stream) : outcome (V * reader * stream) :=
  '(r, st) <- (if keep_reading r then read_chunk r st else Ok (r, st)) ;;
  '(v, ptr) <- read_single (buf r) ;;
  match skipn ptr (buf r) with
  | [] => Ok (v, Reader [] (keep_reading r), st)
  | c :: tail => if Z.eqb c sep then Ok (v, Reader tail (keep_reading r), st) else Throw csv_read_error
  end.
(** next_line (132-135) *)
Definition next_line (r : reader) (st : stream) : outcome stream :=
  match buf r with
  | _ :: _ => Throw csv_read_error
  | [] => if eof st then Ok st
          else let '(c, st) := get st in if is_end c then Ok st else Throw csv_read_error
  end.
(** done (137-140): peek() can change the stream *)
Definition done (r : reader) (st : stream) : bool * stream :=
  let '(c, st) := peek st in
  let keep := negb (is_end c) && negb (eof st) in
  (Nat.eqb (length (buf r)) 0 && negb keep, st).
(** The inner loop of skip_comments (75-78). Every iteration reads a character, so
    the fuel is never used up (theorem C47_only_csv_read_error). *)
Fixpoint skip_rest (fuel : nat) (r : reader) (st : stream) : outcome (reader * stream) :=
  if keep_reading r then
    match fuel with
    | 0 => UB
    | S fuel => '(r, st) <- read_chunk (Reader [] (keep_reading r)) st ;; skip_rest fuel r st
    end
  else Ok (r, st).
(** The outer loop (71-81) *)
Fixpoint skip_loop (fuel : nat) (r : reader) (st : stream) : outcome (reader * stream) :=
  if eof st then Ok (r, st)
  else match fuel with
  | 0 => UB
  | S fuel =>
    '(r, st) <- read_chunk r st ;;
    match buf r with
    | c :: _ =>
        if Z.eqb c hash then
          '(r, st) <- skip_rest (S (length (rest st))) r st ;;
          let r := Reader [] (keep_reading r) in
          st <- next_line r st ;;
          skip_loop fuel r st
        else Ok (r, st)
    | [] => Ok (r, st)
    end
  end.
(** skip_comments (67-82) *)
Definition skip_comments (r : reader) (st : stream) : outcome (reader * stream) :=
  match buf r with
  | _ :: _ => Abort (* assert(bufidx == 0) *)
  | [] =>
    if eof st then Ok (r, st)
    else
      let '(c, st) := peek st in
      if is_end c then Ok (r, st) else skip_loop (S (length (rest st))) r st
  end.

(** The loop over the fields (160-161, 172-173) *)
Fixpoint read_fields (n : nat) (r : reader) (st : stream) : outcome (list V * reader * stream) :=
  match n with
  | 0 => Ok ([], r, st)
  | S n =>
    '(v, r, st) <- read r st ;;
    '(vs, r, st) <- read_fields n r st ;;
    Ok (v :: vs, r, st)
  end.
(** One row of csv_read (csv.tpp:170-176), also csv_read_row (157-164) *)
Definition one_row (n : nat) (r : reader) (st : stream) : outcome (list V * reader * stream) :=
  '(r, st) <- skip_comments r st ;;
  '(vs, r, st) <- read_fields n r st ;;
  st <- next_line r st ;;
  Ok (vs, r, st).
(** csv_read_row (155-163) *)
Definition csv_read_row (n : nat) (st : stream) : outcome (list V * stream) :=
  '(vs, _, st) <- one_row n new_reader st ;; Ok (vs, st).
(** csv_read (165-176) *)
Fixpoint read_rows (rows cols : nat) (r : reader) (st : stream) : outcome (list (list V) * stream) :=
  match rows with
  | 0 => Ok ([], st)
  | S rows =>
    '(vs, r, st) <- one_row cols r st ;;
    '(vss, st) <- read_rows rows cols r st ;;
    Ok (vs :: vss, st)
  end.
(** csv.tpp:166-177 *)
Definition csv_read (rows cols : nat) (st : stream) : outcome (list (list V) * stream) :=
  read_rows rows cols new_reader st.
(** csv_read_row_std_vector (178-188) *)
Fixpoint read_all (fuel : nat) (r : reader) (st : stream) : outcome (list V * reader * stream) :=
  let '(d, st) := done r st in
  if d then Ok ([], r, st)
  else match fuel with
  | 0 => UB
  | S fuel =>
    '(v, r, st) <- read r st ;;
    '(vs, r, st) <- read_all fuel r st ;;
    Ok (v :: vs, r, st)
  end.
(** csv.tpp:179-188 *)
Definition csv_read_row_std_vector (st : stream) : outcome (list V * stream) :=
  '(r, st') <- skip_comments new_reader st ;;
  '(vs, r, st') <- read_all (S (length (rest st))) r st' ;;
  st' <- next_line r st' ;;
  Ok (vs, st').
End Reader.
