(** C93: a stream that does not break. The readers of CsvFault_Model on it are those of C44-C47. *)
From Verif Require Import Base Bytes Csv_Spec Csv_Model CsvFault_Model CsvFault_Proofs.
Local Open Scope outcome_scope.

(** The same stream, with a badbit that is not set *)
Definition whole (st : stream) : fstream := FStream (rest st) (eof st) (fail st) false.
Definition on_stream {A} (x : A * stream) : A * fstream := (fst x, whole (snd x)).
Definition mapo {A B} (f : A -> B) (m : outcome A) : outcome B := x <- m ;; Ok (f x).

Section Whole.
Context (eager : bool) {V : Type} (number : list Z -> option (V * nat)) (sep : Z).

Lemma good_whole st : fgood (whole st) = good st.
Proof. unfold fgood, good, whole. cbn. now rewrite andb_true_r. Qed.
Lemma peek_whole st : fpeek false (whole st) = on_stream (peek st).
Proof. unfold fpeek, peek. rewrite good_whole. destruct (good st); [|reflexivity]. cbn [whole frest]. now destruct (rest st). Qed.
Lemma get_whole st : fget false (whole st) = on_stream (get st).
Proof. unfold fget, get. rewrite good_whole. destruct (good st); [|reflexivity]. cbn [whole frest]. now destruct (rest st). Qed.
Lemma get_n_whole k st : fget_n false eager k (whole st) = on_stream (get_n eager k st).
Proof.
  unfold fget_n, get_n. rewrite good_whole. destruct (good st); [|reflexivity]. cbn [whole frest].
  unfold on_stream. cbn [fst snd]. unfold whole. cbn [rest eof fail].
  destruct (skipn (length (take_line k (rest st))) (rest st)); [|reflexivity].
  destruct (eager || Nat.ltb (length (take_line k (rest st))) k); reflexivity.
Qed.
Lemma chunk_whole r st : fread_chunk false eager r (whole st) = mapo on_stream (read_chunk eager r st).
Proof.
  unfold fread_chunk, read_chunk. cbn [whole ffail fbad]. rewrite orb_false_r. destruct (fail st); [reflexivity|].
  destruct (Nat.eqb bufmaxsize (length (buf r))); [reflexivity|].
  rewrite get_n_whole. destruct (get_n eager _ st) as [t st1]. unfold on_stream at 1. cbn [fst snd].
  cbn [whole ffail fbad]. rewrite orb_false_r. destruct (fail st1); [reflexivity|].
  rewrite peek_whole. destruct (peek st1) as [c st2]. reflexivity.
Qed.
Lemma read_whole r st : fread false eager number sep r (whole st) = mapo on_stream (read eager number sep r st).
Proof.
  unfold fread, read. 
  assert (E : (if keep_reading r then fread_chunk false eager r (whole st) else Ok (r, whole st)) =
              mapo on_stream (if keep_reading r then read_chunk eager r st else Ok (r, st))).
  { destruct (keep_reading r); [apply chunk_whole|reflexivity]. }
  rewrite E. destruct (if keep_reading r then read_chunk eager r st else Ok (r, st)) as [[r1 st1]|e| |]; try reflexivity.
  cbn [mapo bind on_stream fst snd]. destruct (read_single number (buf r1)) as [[v p]|e| |]; try reflexivity.
  cbn [bind]. destruct (skipn p (buf r1)) as [|c t]; [reflexivity|]. destruct (Z.eqb c sep); reflexivity.
Qed.
Lemma next_whole r st : fnext_line false r (whole st) = mapo whole (next_line r st).
Proof.
  unfold fnext_line, next_line. destruct (buf r); [|reflexivity]. cbn [whole feof]. destruct (eof st); [reflexivity|].
  rewrite get_whole. destruct (get st) as [c st1]. unfold on_stream. cbn [fst snd]. destruct (is_end c); reflexivity.
Qed.
Lemma done_whole r st : fdone false r (whole st) = on_stream (done r st).
Proof. unfold fdone, done. rewrite peek_whole. destruct (peek st) as [c st1]. reflexivity. Qed.
Lemma skip_rest_whole fuel : forall r st, fskip_rest false eager fuel r (whole st) = mapo on_stream (skip_rest eager fuel r st).
Proof.
  induction fuel as [|fuel IH]; intros r st; cbn [fskip_rest skip_rest]; destruct (keep_reading r); try reflexivity.
  rewrite chunk_whole. destruct (read_chunk eager _ st) as [[r1 st1]|e| |]; try reflexivity. cbn [mapo bind on_stream fst snd]. apply IH.
Qed.
Lemma skip_loop_whole fuel : forall r st, fskip_loop false eager fuel r (whole st) = mapo on_stream (skip_loop eager fuel r st).
Proof.
  induction fuel as [|fuel IH]; intros r st; cbn [fskip_loop skip_loop]; cbn [whole feof]; destruct (eof st); try reflexivity.
  fold (whole st). rewrite chunk_whole. destruct (read_chunk eager r st) as [[r1 st1]|e| |]; try reflexivity. cbn [mapo bind on_stream fst snd].
  destruct (buf r1) as [|c t] eqn:Eb; [reflexivity|]. destruct (Z.eqb c hash); [|reflexivity].
  rewrite skip_rest_whole. cbn [whole frest]. destruct (skip_rest eager _ r1 st1) as [[r2 st2]|e| |]; try reflexivity. cbn [mapo bind on_stream fst snd].
  rewrite next_whole. destruct (next_line _ st2) as [st3|e| |]; try reflexivity. cbn [mapo bind]. apply IH.
Qed.
Lemma skip_whole r st : fskip_comments false eager r (whole st) = mapo on_stream (skip_comments eager r st).
Proof.
  unfold fskip_comments, skip_comments. destruct (buf r); [|reflexivity]. cbn [whole feof]. destruct (eof st); [reflexivity|].
  fold (whole st). rewrite peek_whole. destruct (peek st) as [c st1]. unfold on_stream at 1. cbn [fst snd].
  destruct (is_end c); [reflexivity|]. apply skip_loop_whole.
Qed.
Lemma fields_whole n : forall r st, fread_fields false eager number sep n r (whole st) = mapo on_stream (read_fields eager number sep n r st).
Proof.
  induction n as [|n IH]; intros r st; cbn [fread_fields read_fields]; [reflexivity|].
  rewrite read_whole. destruct (read eager number sep r st) as [[[v r1] st1]|e| |]; try reflexivity. cbn [mapo bind on_stream fst snd].
  rewrite IH. destruct (read_fields eager number sep n r1 st1) as [[[vs r2] st2]|e| |]; reflexivity.
Qed.
Lemma row_whole n r st : fone_row false eager number sep n r (whole st) = mapo on_stream (one_row eager number sep n r st).
Proof.
  unfold fone_row, one_row. rewrite skip_whole. destruct (skip_comments eager r st) as [[r1 st1]|e| |]; try reflexivity. cbn [mapo bind on_stream fst snd].
  rewrite fields_whole. destruct (read_fields eager number sep n r1 st1) as [[[vs r2] st2]|e| |]; try reflexivity. cbn [mapo bind on_stream fst snd].
  rewrite next_whole. destruct (next_line r2 st2) as [st3|e| |]; reflexivity.
Qed.
Lemma rows_whole rows cols : forall r st, fread_rows false eager number sep rows cols r (whole st) = mapo on_stream (read_rows eager number sep rows cols r st).
Proof.
  induction rows as [|n IH]; intros r st; cbn [fread_rows read_rows]; [reflexivity|].
  rewrite row_whole. destruct (one_row eager number sep cols r st) as [[[vs r1] st1]|e| |]; try reflexivity. cbn [mapo bind on_stream fst snd].
  rewrite IH. destruct (read_rows eager number sep n cols r1 st1) as [[vss st2]|e| |]; reflexivity.
Qed.
Lemma all_whole fuel : forall r st, fread_all false eager number sep fuel r (whole st) = mapo on_stream (read_all eager number sep fuel r st).
Proof.
  induction fuel as [|fuel IH]; intros r st; cbn [fread_all read_all]; rewrite done_whole; destruct (done r st) as [d st1];
    unfold on_stream at 1; cbn [fst snd]; destruct d; try reflexivity.
  rewrite read_whole. destruct (read eager number sep r st1) as [[[v r1] st2]|e| |]; try reflexivity. cbn [mapo bind on_stream fst snd].
  rewrite IH. destruct (read_all eager number sep fuel r1 st2) as [[[vs r2] st3]|e| |]; reflexivity.
Qed.

(** All three functions, from every state of the stream: same values, same exceptions, same position and error bits,
    and badbit is never set. *)
Theorem C93_unbroken : forall st,
  (forall n, fcsv_read_row false eager number sep n (whole st) = mapo on_stream (csv_read_row eager number sep n st)) /\
  (forall rows cols, fcsv_read false eager number sep rows cols (whole st) = mapo on_stream (csv_read eager number sep rows cols st)) /\
  fcsv_read_row_std_vector false eager number sep (whole st) = mapo on_stream (csv_read_row_std_vector eager number sep st).
Proof.
  intros st. split; [|split].
  - intros n. unfold fcsv_read_row, csv_read_row. rewrite row_whole.
    destruct (one_row eager number sep n new_reader st) as [[[vs r1] st1]|e| |]; reflexivity.
  - intros rows cols. apply rows_whole.
  - unfold fcsv_read_row_std_vector, csv_read_row_std_vector. rewrite skip_whole.
    destruct (skip_comments eager new_reader st) as [[r1 st1]|e| |]; try reflexivity. cbn [mapo bind on_stream fst snd].
    rewrite all_whole. cbn [whole frest]. destruct (read_all eager number sep _ r1 st1) as [[[vs r2] st2]|e| |]; try reflexivity. cbn [mapo bind on_stream fst snd].
    rewrite next_whole. destruct (next_line r2 st2) as [st3|e| |]; reflexivity.
Qed.
End Whole.
Print Assumptions C93_unbroken.

Example C93_unbroken_nonvacuous :
  let num := fun s => match s with c :: _ => if (48 <=? c)%Z && (c <=? 57)%Z then Some (c, 1) else None | [] => None end in
  fcsv_read_row false true num 44%Z 2 (fopen (bytes "7,8")) = Ok (bytes "78", FStream [] true true false).
Proof. reflexivity. Qed.
