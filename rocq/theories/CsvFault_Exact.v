(** The other direction for C93: a run that does not look behind the characters of the
    stream does not notice that it breaks there. *)
From Verif Require Import Base Csv_Spec Csv_Model Csv_Proofs Csv_More CsvFault_Model CsvFault_Proofs.
Local Open Scope outcome_scope.

Section Back.
Context (eager : bool) {V : Type} (number : list Z -> option (V * nat)) (sep : Z).

(** eofbit stays set. *)
Lemma peek_eof st : eof st = true -> eof (snd (peek st)) = true.
Proof. intros H. unfold peek, good. rewrite H. cbn. exact H. Qed.
Lemma chunk_eof r st r' st' : read_chunk eager r st = Ok (r', st') -> eof st = true -> eof st' = true.
Proof.
  unfold read_chunk. intros H E. destruct (fail st); [discriminate|]. destruct (Nat.eqb _ _); [injection H as <- <-; exact E|].
  unfold get_n, good in H. rewrite E in H. cbn in H. discriminate.
Qed.
Lemma read_eof r st v r' st' : read eager number sep r st = Ok (v, r', st') -> eof st = true -> eof st' = true.
Proof.
  unfold read. intros H E. destruct (if keep_reading r then _ else _) as [[r1 st1]|e| |] eqn:E1; try discriminate H. cbn [bind] in H.
  assert (Ee : eof st1 = true). { destruct (keep_reading r); [exact (chunk_eof _ _ _ _ E1 E)|injection E1 as <- <-; exact E]. }
  destruct (read_single number (buf r1)) as [[v1 p]|e| |]; try discriminate H. cbn [bind] in H.
  destruct (skipn p (buf r1)) as [|c t]; [|destruct (Z.eqb c sep); [|discriminate H]]; injection H as <- <- <-; exact Ee.
Qed.
Lemma next_eof r st st' : next_line r st = Ok st' -> eof st = true -> eof st' = true.
Proof. unfold next_line. intros H E. destruct (buf r); [|discriminate]. rewrite E in H. injection H as <-. exact E. Qed.
Lemma fields_eof n : forall r st vs r' st', read_fields eager number sep n r st = Ok (vs, r', st') -> eof st = true -> eof st' = true.
Proof.
  induction n as [|n IH]; intros r st vs r' st' H E; cbn [read_fields] in H; [injection H as <- <- <-; exact E|].
  destruct (read eager number sep r st) as [[[v r1] st1]|e| |] eqn:E1; try discriminate H. cbn [bind] in H.
  destruct (read_fields eager number sep n r1 st1) as [[[vs2 r2] st2]|e| |] eqn:E2; try discriminate H. cbn [bind] in H. injection H as <- <- <-.
  apply (IH _ _ _ _ _ E2). exact (read_eof _ _ _ _ _ E1 E).
Qed.
Lemma skip_comments_eof b st r' st' : skip_comments eager (Reader [] b) st = Ok (r', st') -> eof st = true -> eof st' = true.
Proof. unfold skip_comments. cbn [buf]. intros H E. rewrite E in H. injection H as <- <-. exact E. Qed.
Lemma row_eof n b st vs r' st' : one_row eager number sep n (Reader [] b) st = Ok (vs, r', st') -> eof st = true -> eof st' = true.
Proof.
  unfold one_row. intros H E. destruct (skip_comments eager (Reader [] b) st) as [[r1 st1]|e| |] eqn:E1; try discriminate H. cbn [bind] in H.
  destruct (read_fields eager number sep n r1 st1) as [[[vs2 r2] st2]|e| |] eqn:E2; try discriminate H. cbn [bind] in H.
  destruct (next_line r2 st2) as [st3|e| |] eqn:E3; try discriminate H. cbn [bind] in H. injection H as <- <- <-.
  apply (next_eof _ _ _ E3). apply (fields_eof _ _ _ _ _ _ E2). exact (skip_comments_eof _ _ _ _ E1 E).
Qed.
Lemma rows_eof rows cols : forall b st vss st', read_rows eager number sep rows cols (Reader [] b) st = Ok (vss, st') -> eof st = true -> eof st' = true.
Proof.
  induction rows as [|rows IH]; intros b st vss st' H E; cbn [read_rows] in H; [injection H as <- <-; exact E|].
  destruct (one_row eager number sep cols (Reader [] b) st) as [[[vs r1] st1]|e| |] eqn:E1; try discriminate H. cbn [bind] in H.
  destruct (read_rows eager number sep rows cols r1 st1) as [[vss2 st2]|e| |] eqn:E2; try discriminate H. cbn [bind] in H. injection H as <- <-.
  destruct (one_row_fine eager number sep cols b st) as [_ B]. specialize (B _ _ _ E1). destruct r1 as [bb k]. cbn in B. subst bb.
  apply (IH _ _ _ _ E2). exact (row_eof _ _ _ _ _ _ E1 E).
Qed.
Lemma all_eof fuel : forall r st vs r' st', read_all eager number sep fuel r st = Ok (vs, r', st') -> eof st = true -> eof st' = true.
Proof.
  induction fuel as [|fuel IH]; intros r st vs r' st' H E; cbn [read_all] in H; unfold done in H; destruct (peek st) as [c st1] eqn:Ep;
    assert (E1 : eof st1 = true) by (pose proof (peek_eof st E) as X; rewrite Ep in X; exact X).
  - destruct (_ && _); [injection H as <- <- <-; exact E1|discriminate].
  - destruct (_ && _); [injection H as <- <- <-; exact E1|]. destruct (read eager number sep r st1) as [[[v r2] st2]|e| |] eqn:E2; try discriminate H. cbn [bind] in H.
    destruct (read_all eager number sep fuel r2 st2) as [[[vs3 r3] st3]|e| |] eqn:E3; try discriminate H. cbn [bind] in H. injection H as <- <- <-.
    apply (IH _ _ _ _ _ E3). exact (read_eof _ _ _ _ _ E2 E1).
Qed.

(** From the same position: the end is noticed, or the broken stream gives the same. *)
Definition back {A} (f : outcome (A * fstream)) (x : A) (st : stream) : Prop :=
  eof st = true \/ exists q, st = open q /\ f = Ok (x, fopen q).

Lemma chunk_back r q r' st' : read_chunk eager r (open q) = Ok (r', st') -> back (fread_chunk true eager r (fopen q)) r' st'.
Proof.
  unfold read_chunk, fread_chunk. change (ffail (fopen q) || fbad (fopen q)) with false. cbn [fail open]. cbv iota.
  destruct (Nat.eqb bufmaxsize (length (buf r))); [intros H; injection H as <- <-; right; now exists q|].
  unfold get_n, fget_n. change (good (open q)) with true. change (fgood (fopen q)) with true. cbv iota. cbn [rest open frest fopen].
  set (k := bufmaxsize - length (buf r)). destruct (skipn (length (take_line k q)) q) as [|c q'].
  - destruct (eager || Nat.ltb (length (take_line k q)) k).
    + cbn [fail]. destruct (Nat.eqb (length (take_line k q)) 0); [discriminate|]. unfold peek, good. cbn [eof fail negb andb]. intros H. injection H as <- <-. left. reflexivity.
    + cbn [fail]. destruct (Nat.eqb (length (take_line k q)) 0); [discriminate|]. unfold peek, good. cbn [eof fail negb andb rest]. intros H. injection H as <- <-. left. reflexivity.
  - cbn [fail ffail fbad]. destruct (Nat.eqb (length (take_line k q)) 0); [discriminate|]. cbn [orb]. unfold peek, fpeek, good, fgood. cbn [eof fail negb andb rest feof ffail fbad frest].
    intros H. injection H as <- <-. right. exists (c :: q'). split; reflexivity.
Qed.
Lemma read_back r q v r' st' : read eager number sep r (open q) = Ok (v, r', st') -> back (fread true eager number sep r (fopen q)) (v, r') st'.
Proof.
  unfold read, fread. destruct (keep_reading r) eqn:K.
  - destruct (read_chunk eager r (open q)) as [[r1 st1]|e| |] eqn:E1; try discriminate. cbn [bind]. intros H. pose proof (chunk_back _ _ _ _ E1) as B.
    assert (st' = st1). { destruct (read_single number (buf r1)) as [[v1 p]|e| |]; try discriminate H. cbn [bind] in H. destruct (skipn p (buf r1)) as [|c t]; [|destruct (Z.eqb c sep); [|discriminate H]]; injection H as <- <- <-; reflexivity. }
    subst st1. destruct B as [B|(q' & -> & ->)]; [now left|]. right. exists q'. split; [reflexivity|]. cbn [bind].
    destruct (read_single number (buf r1)) as [[v1 p]|e| |]; try discriminate H. cbn [bind] in H |- *. destruct (skipn p (buf r1)) as [|c t]; [|destruct (Z.eqb c sep); [|discriminate H]]; injection H as <- <-; reflexivity.
  - cbn [bind]. intros H. right. exists q. destruct (read_single number (buf r)) as [[v1 p]|e| |]; try discriminate H. cbn [bind] in H |- *. destruct (skipn p (buf r)) as [|c t]; [|destruct (Z.eqb c sep); [|discriminate H]]; injection H as <- <- <-; split; reflexivity.
Qed.
Lemma next_back r q st' : next_line r (open q) = Ok st' -> exists q', st' = open q' /\ fnext_line true r (fopen q) = Ok (fopen q') /\ q = newline :: q'.
Proof.
  unfold next_line, fnext_line. destruct (buf r); [|discriminate]. cbn [eof open feof fopen]. unfold get, fget. change (good (open q)) with true. change (fgood (fopen q)) with true. cbv iota. cbn [rest open frest fopen].
  destruct q as [|c q]; [discriminate|]. cbn [is_end]. destruct (Z.eqb_spec c newline) as [->|N]; [|discriminate]. intros H. injection H as <-. exists q. auto.
Qed.
Lemma rest_back fuel : forall r q r' st', skip_rest eager fuel r (open q) = Ok (r', st') -> back (fskip_rest true eager fuel r (fopen q)) r' st'.
Proof.
  assert (St : forall fuel r st r' st', skip_rest eager fuel r st = Ok (r', st') -> eof st = true -> eof st' = true).
  { clear fuel. induction fuel as [|fuel IH]; intros r st r' st' H E; cbn [skip_rest] in H; destruct (keep_reading r); try discriminate H; try (injection H as <- <-; exact E).
    destruct (read_chunk eager (Reader [] true) st) as [[r1 st1]|e| |] eqn:E1; try discriminate H. cbn [bind] in H. apply (IH _ _ _ _ H). exact (chunk_eof _ _ _ _ E1 E). }
  induction fuel as [|fuel IH]; intros r q r' st' H; cbn [skip_rest fskip_rest] in *; destruct (keep_reading r); try discriminate H; try (injection H as <- <-; right; now exists q).
  destruct (read_chunk eager (Reader [] true) (open q)) as [[r1 st1]|e| |] eqn:E1; try discriminate H. cbn [bind] in H.
  destruct (chunk_back _ _ _ _ E1) as [B|(q' & -> & ->)]; [left; exact (St _ _ _ _ _ H B)|]. cbn [bind]. apply IH. exact H.
Qed.
Lemma loop_back fuel : forall b q r' st', skip_loop eager fuel (Reader [] b) (open q) = Ok (r', st') -> back (fskip_loop true eager fuel (Reader [] b) (fopen q)) r' st'.
Proof.
  assert (St : forall fuel b st r' st', skip_loop eager fuel (Reader [] b) st = Ok (r', st') -> eof st = true -> eof st' = true).
  { clear fuel. intros fuel b st r' st' H E. destruct fuel; cbn [skip_loop] in H; rewrite E in H; injection H as <- <-; exact E. }
  assert (Sr : forall fuel r st r' st', skip_rest eager fuel r st = Ok (r', st') -> eof st = true -> eof st' = true).
  { clear fuel. induction fuel as [|fuel IH]; intros r st r' st' H E; cbn [skip_rest] in H; destruct (keep_reading r); try discriminate H; try (injection H as <- <-; exact E).
    destruct (read_chunk eager (Reader [] true) st) as [[r1 st1]|e| |] eqn:E1; try discriminate H. cbn [bind] in H. apply (IH _ _ _ _ H). exact (chunk_eof _ _ _ _ E1 E). }
  induction fuel as [|fuel IH]; intros b q r' st' H; cbn [skip_loop fskip_loop eof open feof fopen] in *; [discriminate H|]. fold (open q) in H. fold (fopen q).
  destruct (read_chunk eager (Reader [] b) (open q)) as [[r1 st1]|e| |] eqn:E1; try discriminate H. cbn [bind] in H.
  destruct (chunk_back _ _ _ _ E1) as [B|(q' & -> & ->)].
  - left. destruct (buf r1) as [|c t]; [injection H as <- <-; exact B|]. destruct (Z.eqb c hash); [|injection H as <- <-; exact B].
    destruct (skip_rest eager _ r1 st1) as [[r2 st2]|e| |] eqn:E2; try discriminate H. cbn [bind] in H. destruct (next_line _ st2) as [st3|e| |] eqn:E3; try discriminate H. cbn [bind] in H.
    apply (St _ _ _ _ _ H). apply (next_eof _ _ _ E3). exact (Sr _ _ _ _ _ E2 B).
  - cbn [bind]. destruct (buf r1) as [|c t]; [injection H as <- <-; right; now exists q'|]. destruct (Z.eqb c hash); [|injection H as <- <-; right; now exists q'].
    cbn [frest fopen rest open] in *. destruct (skip_rest eager (S (length q')) r1 (open q')) as [[r2 st2]|e| |] eqn:E2; try discriminate H. cbn [bind] in H.
    destruct (next_line _ st2) as [st3|e| |] eqn:E3; try discriminate H. cbn [bind] in H.
    destruct (rest_back _ _ _ _ _ E2) as [B|(q2 & -> & ->)]; [left; apply (St _ _ _ _ _ H); exact (next_eof _ _ _ E3 B)|]. cbn [bind].
    destruct (next_back _ _ _ E3) as (q3 & -> & -> & _). cbn [bind]. apply IH. exact H.
Qed.
Lemma comments_back b q r' st' : skip_comments eager (Reader [] b) (open q) = Ok (r', st') -> back (fskip_comments true eager (Reader [] b) (fopen q)) r' st'.
Proof.
  destruct q as [|c q].
  - unfold skip_comments. change (peek (open [])) with (@None Z, Stream [] true false). cbn [buf eof open is_end rest length skip_loop]. intros H. injection H as <- <-. now left.
  - unfold skip_comments, fskip_comments. rewrite fpeek_char, peek_char. cbn [buf eof open feof fopen is_end]. destruct (Z.eqb c newline); [intros H; injection H as <- <-; right; now exists (c :: q)|].
    intros H. apply loop_back. exact H.
Qed.
Lemma fields_back n : forall r q vs r' st', read_fields eager number sep n r (open q) = Ok (vs, r', st') -> back (fread_fields true eager number sep n r (fopen q)) (vs, r') st'.
Proof.
  induction n as [|n IH]; intros r q vs r' st' H; cbn [read_fields fread_fields] in *; [injection H as <- <- <-; right; now exists q|].
  destruct (read eager number sep r (open q)) as [[[v r1] st1]|e| |] eqn:E1; try discriminate H. cbn [bind] in H.
  destruct (read_fields eager number sep n r1 st1) as [[[vs2 r2] st2]|e| |] eqn:E2; try discriminate H. cbn [bind] in H. injection H as <- <- <-.
  destruct (read_back _ _ _ _ _ E1) as [B|(q' & -> & ->)]; [left; exact (fields_eof _ _ _ _ _ _ E2 B)|]. cbn [bind].
  destruct (IH _ _ _ _ _ E2) as [B|(q2 & -> & ->)]; [now left|]. right. exists q2. split; reflexivity.
Qed.
Lemma row_back n b q vs r' st' : one_row eager number sep n (Reader [] b) (open q) = Ok (vs, r', st') -> back (fone_row true eager number sep n (Reader [] b) (fopen q)) (vs, r') st'.
Proof.
  unfold one_row, fone_row. intros H. destruct (skip_comments eager (Reader [] b) (open q)) as [[r1 st1]|e| |] eqn:E1; try discriminate H. cbn [bind] in H.
  destruct (read_fields eager number sep n r1 st1) as [[[vs2 r2] st2]|e| |] eqn:E2; try discriminate H. cbn [bind] in H.
  destruct (next_line r2 st2) as [st3|e| |] eqn:E3; try discriminate H. cbn [bind] in H. injection H as <- <- <-.
  destruct (comments_back _ _ _ _ E1) as [B|(q1 & -> & ->)]; [left; apply (next_eof _ _ _ E3); exact (fields_eof _ _ _ _ _ _ E2 B)|]. cbn [bind].
  destruct (fields_back _ _ _ _ _ _ E2) as [B|(q2 & -> & ->)]; [left; exact (next_eof _ _ _ E3 B)|]. cbn [bind].
  destruct (next_back _ _ _ E3) as (q3 & -> & -> & _). cbn [bind]. right. exists q3. split; reflexivity.
Qed.
Lemma rows_back rows cols : forall b q vss st', read_rows eager number sep rows cols (Reader [] b) (open q) = Ok (vss, st') -> back (fread_rows true eager number sep rows cols (Reader [] b) (fopen q)) vss st'.
Proof.
  induction rows as [|rows IH]; intros b q vss st' H; cbn [read_rows fread_rows] in *; [injection H as <- <-; right; now exists q|].
  destruct (one_row eager number sep cols (Reader [] b) (open q)) as [[[vs r1] st1]|e| |] eqn:E1; try discriminate H. cbn [bind] in H.
  destruct (read_rows eager number sep rows cols r1 st1) as [[vss2 st2]|e| |] eqn:E2; try discriminate H. cbn [bind] in H. injection H as <- <-.
  destruct (one_row_fine eager number sep cols b (open q)) as [_ B]. specialize (B _ _ _ E1). destruct r1 as [bb k]. cbn in B. subst bb.
  destruct (row_back _ _ _ _ _ _ E1) as [B|(q' & -> & ->)]; [left; exact (rows_eof _ _ _ _ _ _ E2 B)|]. cbn [bind].
  destruct (IH _ _ _ _ E2) as [B|(q2 & -> & ->)]; [now left|]. right. exists q2. split; reflexivity.
Qed.
Definition stops (r : reader) (c : Z) : bool := Nat.eqb (length (buf r)) 0 && negb (negb (is_end (Some c)) && true).
Lemma done_char r c q : done r (open (c :: q)) = (stops r c, open (c :: q)).
Proof. reflexivity. Qed.
Lemma fdone_char r c q : fdone true r (fopen (c :: q)) = (stops r c, fopen (c :: q)).
Proof. reflexivity. Qed.
Lemma done_end r : eof (snd (done r (open []))) = true.
Proof. reflexivity. Qed.
Lemma all_back fuel : forall r q vs r' st', read_all eager number sep fuel r (open q) = Ok (vs, r', st') -> back (fread_all true eager number sep fuel r (fopen q)) (vs, r') st'.
Proof.
  induction fuel as [|fuel IH]; intros r q vs r' st' H; cbn [read_all fread_all] in *; destruct q as [|c q].
  - left. pose proof (done_end r) as D. destruct (done r (open [])) as [d st1]. cbn [snd] in D. destruct d; [injection H as <- <- <-; exact D|discriminate].
  - rewrite done_char in H. rewrite fdone_char. destruct (stops r c); [injection H as <- <- <-; right; now exists (c :: q)|discriminate].
  - left. pose proof (done_end r) as D. destruct (done r (open [])) as [d st1]. cbn [snd] in D. destruct d; [injection H as <- <- <-; exact D|].
    destruct (read eager number sep r st1) as [[[v r2] st2]|e| |] eqn:E2; try discriminate H. cbn [bind] in H.
    destruct (read_all eager number sep fuel r2 st2) as [[[vs3 r3] st3]|e| |] eqn:E3; try discriminate H. cbn [bind] in H. injection H as <- <- <-.
    apply (all_eof _ _ _ _ _ _ E3). exact (read_eof _ _ _ _ _ E2 D).
  - rewrite done_char in H. rewrite fdone_char. destruct (stops r c); [injection H as <- <- <-; right; now exists (c :: q)|].
    destruct (read eager number sep r (open (c :: q))) as [[[v r2] st2]|e| |] eqn:E2; try discriminate H. cbn [bind] in H.
    destruct (read_all eager number sep fuel r2 st2) as [[[vs3 r3] st3]|e| |] eqn:E3; try discriminate H. cbn [bind] in H. injection H as <- <- <-.
    destruct (read_back _ _ _ _ _ E2) as [B|(q' & -> & ->)]; [left; exact (all_eof _ _ _ _ _ _ E3 B)|]. cbn [bind].
    destruct (IH _ _ _ _ _ E3) as [B|(q2 & -> & ->)]; [now left|]. right. exists q2. split; reflexivity.
Qed.
Lemma vector_back q vs st' : csv_read_row_std_vector eager number sep (open q) = Ok (vs, st') -> back (fcsv_read_row_std_vector true eager number sep (fopen q)) vs st'.
Proof.
  unfold csv_read_row_std_vector, fcsv_read_row_std_vector, new_reader. intros H. destruct (skip_comments eager (Reader [] true) (open q)) as [[r1 st1]|e| |] eqn:E1; try discriminate H. cbn [bind] in H.
  cbn [rest open frest fopen] in *. destruct (read_all eager number sep (S (length q)) r1 st1) as [[[vs2 r2] st2]|e| |] eqn:E2; try discriminate H. cbn [bind] in H.
  destruct (next_line r2 st2) as [st3|e| |] eqn:E3; try discriminate H. cbn [bind] in H. injection H as <- <-.
  destruct (comments_back _ _ _ _ E1) as [B|(q1 & -> & ->)]; [left; apply (next_eof _ _ _ E3); exact (all_eof _ _ _ _ _ _ E2 B)|]. cbn [bind].
  destruct (all_back _ _ _ _ _ _ E2) as [B|(q2 & -> & ->)]; [left; exact (next_eof _ _ _ E3 B)|]. cbn [bind].
  destruct (next_back _ _ _ E3) as (q3 & -> & -> & _). cbn [bind]. right. exists q3. split; reflexivity.
Qed.
End Back.
