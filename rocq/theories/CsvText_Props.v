(** C112: what the exceptions of the CSV functions say. *)
From Verif Require Import Base Bytes Csv_Spec Csv_Model Csv_Proofs Csv_Numbers CsvAny_Spec CsvAny_Proofs CsvText_Spec CsvText_Model CsvText_Proofs.

(** The functions with texts are those of Csv_Model. *)
Theorem C112_same_calls : forall eager V (number : list Z -> option (V * nat)) reason sep rows n st,
  match csv_read_row_t eager number reason sep n st with
  | Done a => csv_read_row eager number sep n st = Ok a | Error _ => csv_read_row eager number sep n st = Throw csv_read_error
  | Aborts => csv_read_row eager number sep n st = Abort | Undefined => csv_read_row eager number sep n st = UB end /\
  match csv_read_t eager number reason sep rows n st with
  | Done a => csv_read eager number sep rows n st = Ok a | Error _ => csv_read eager number sep rows n st = Throw csv_read_error
  | Aborts => csv_read eager number sep rows n st = Abort | Undefined => csv_read eager number sep rows n st = UB end /\
  match csv_read_row_std_vector_t eager number reason sep st with
  | Done a => csv_read_row_std_vector eager number sep st = Ok a | Error _ => csv_read_row_std_vector eager number sep st = Throw csv_read_error
  | Aborts => csv_read_row_std_vector eager number sep st = Abort | Undefined => csv_read_row_std_vector eager number sep st = UB end.
Proof.
  intros eager V number reason sep rows n st. rewrite <- (read_row_same eager number reason sep), <- (vector_same eager number reason sep).
  unfold csv_read, csv_read_t. rewrite <- (read_rows_same eager number reason sep).
  destruct (csv_read_row_t eager number reason sep n st), (read_rows_t eager number reason sep rows n new_reader st), (csv_read_row_std_vector_t eager number reason sep st); auto.
Qed.
Print Assumptions C112_same_calls.
(** The tokens in the texts are those of C97. *)
Theorem C112_tokens : forall sep l, l <> [] -> tokens sep l = first_token sep l :: tokens sep (after_token sep l).
Proof. exact tokens_first. Qed.
Print Assumptions C112_tokens.
(** csv_read_row of any text from a stream that has not been used: the exception, if any, has exactly this text. *)
Theorem C112_row : forall eager V (number : list Z -> option (V * nat)) reason sep n text c line after,
  separates number sep -> parts text c line after ->
  match row_complaint number reason sep true c line after n with
  | Some t => csv_read_row_t eager number reason sep n (open text) = Error t
  | None => exists vs st, csv_read_row_t eager number reason sep n (open text) = Done (vs, st)
  end.
Proof.
  intros eager V number reason sep n text c line after Hs Hp.
  pose proof (row_says eager number reason sep Hs text c line after n true (open text) Hp (or_introl eq_refl) (or_introl eq_refl)) as H.
  unfold csv_read_row_t. change new_reader with (Reader [] true). destruct (row_complaint number reason sep true c line after n).
  - now rewrite H.
  - destruct H as (vs & b & st & -> & _). cbn [andthen]. eauto.
Qed.
Print Assumptions C112_row.
(** csv_read *)
Theorem C112_every_matrix : forall V (number : list Z -> option (V * nat)) reason sep n rows text, exists t, matrix_complaint number reason sep n true rows text t.
Proof.
  intros V number reason sep n rows text. generalize true. revert text. induction rows as [|k IH]; intros text b; [eexists; constructor|].
  destruct (every_text text) as (c & line & after & Hp). destruct (row_complaint number reason sep b c line after n) as [t|] eqn:E.
  - exists (Some t). eapply mc_stop; eauto.
  - destruct (IH (behind after) false) as (t & H). exists t. eapply mc_row; eauto.
Qed.
Print Assumptions C112_every_matrix.
Theorem C112_matrix : forall eager V (number : list Z -> option (V * nat)) reason sep n rows text t,
  separates number sep -> matrix_complaint number reason sep n true rows text t ->
  match t with
  | Some t => csv_read_t eager number reason sep rows n (open text) = Error t
  | None => exists m st, csv_read_t eager number reason sep rows n (open text) = Done (m, st)
  end.
Proof.
  intros eager V number reason sep n rows text t Hs H.
  pose proof (rows_say eager number reason sep Hs n true rows text t H true (open text) (or_introl eq_refl) (fun _ => conj eq_refl eq_refl) ltac:(discriminate)) as K.
  unfold says in K. destruct t; [exact K|]. destruct K as ([m st] & K). exists m, st. exact K.
Qed.
Print Assumptions C112_matrix.
(** csv_read_row_std_vector *)
Theorem C112_vector : forall eager V (number : list Z -> option (V * nat)) reason sep text c line after,
  separates number sep -> parts text c line after ->
  match vector_complaint number reason sep c line after with
  | Some t => csv_read_row_std_vector_t eager number reason sep (open text) = Error t
  | None => exists vs st, csv_read_row_std_vector_t eager number reason sep (open text) = Done (vs, st)
  end.
Proof.
  intros eager V number reason sep text c line after Hs Hp. pose proof (vector_says eager number reason sep Hs text c line after Hp) as H.
  unfold says in H. destruct (vector_complaint number reason sep c line after); [exact H|]. destruct H as ([vs st] & ->). eauto.
Qed.
Print Assumptions C112_vector.
(** A call on a stream whose failbit is set says so, whatever is left in it (not at the end of the
    text: skip_comments looks at it first). *)
Theorem C112_failed_stream : forall eager V (number : list Z -> option (V * nat)) reason sep n st, fail st = true ->
  (eof st = false -> csv_read_row_t eager number reason sep n st = Error (bytes "io::csv_read_row invalid stream: fail")) /\
  (eof st = true -> 0 < n -> csv_read_row_t eager number reason sep n st = Error (bytes "io::csv_read_row invalid stream: fail eof")).
Proof.
  intros eager V number reason sep n [r e f] Hf. cbn in Hf. subst f. cbn [eof]. unfold csv_read_row_t, one_row_t, skip_comments_t. cbn [buf new_reader]. split.
  - intros ->. cbn [eof]. unfold peek, good. cbn [eof fail negb andb set_fail is_end]. cbn [skip_loop_t eof]. reflexivity.
  - intros -> Hn. cbn [eof andthen]. destruct n as [|n]; [lia|]. reflexivity.
Qed.
Print Assumptions C112_failed_stream.
(** The quoted text starts with the field that is not a number. *)
Theorem C112_quotes_from_field : forall V (number : list Z -> option (V * nat)) reason sep l, separates number sep ->
  exists more, conversion reason l = bytes "io::csv_read_row conversion failed '" ++ (strip_plus (first_token sep l) ++ more) ++ bytes "': " ++ reason (strip_plus (firstn 64 l)) /\
  length (strip_plus (first_token sep l) ++ more) <= 64 /\ (more = [] \/ exists t, more = sep :: t).
Proof.
  intros V number reason sep l Hs. destruct (buffer_first sep l) as (b & Eb & Hb & _). exists b. unfold conversion.
  pose proof (strip_app number sep Hs (first_token sep l) b Hb) as E. rewrite <- Eb in E. rewrite <- E. split; [reflexivity|]. split; [|exact Hb].
  pose proof (strip_length (firstn 64 l)) as L. rewrite firstn_length in L. lia.
Qed.
Print Assumptions C112_quotes_from_field.

(** ** Examples *)
Definition int32 := integer (- 2 ^ 31) (2 ^ 31 - 1).
(** As libstdc++, for the texts below *)
Definition why (s : list Z) : list Z := bytes "Invalid argument".
(** The text does not quote the field alone: the fields behind it are in it. *)
Theorem C112_quotes_only_the_field_refuted : ~ forall eager V (number : list Z -> option (V * nat)) reason sep n text c line after q,
  separates number sep -> parts text c line after ->
  csv_read_row_t eager number reason sep n (open text) = Error (bytes "io::csv_read_row conversion failed '" ++ q ++ bytes "': " ++ reason q) -> ~ In sep q.
Proof.
  intros H. assert (Hs : separates int32 44) by (apply integer_separates; vm_compute; congruence).
  apply (H true Z int32 why 44%Z 3 (bytes "1,x,3") [] (bytes "1,x,3") None (bytes "x,3") Hs).
  - apply (Parts _ _ _ _ (bytes "1,x,3")); [reflexivity|constructor|reflexivity|reflexivity].
  - vm_compute. reflexivity.
  - vm_compute. auto.
Qed.
Print Assumptions C112_quotes_only_the_field_refuted.
Example C112_separator : separates int32 44.
Proof. apply integer_separates; vm_compute; congruence. Qed.
Example C112_conversion : csv_read_row_t false int32 why 44 3 (open (bytes "1,x,3")) = Error (bytes "io::csv_read_row conversion failed 'x,3': Invalid argument") /\
  row_complaint int32 why 44 true [] (bytes "1,x,3") None 3 = Some (bytes "io::csv_read_row conversion failed 'x,3': Invalid argument").
Proof. split; vm_compute; reflexivity. Qed.
Example C112_character : csv_read_row_t false int32 why 44 3 (open (bytes "1,2 ,3")) = Error (bytes "io::csv_read_row unexpected character ' '").
Proof. vm_compute. reflexivity. Qed.
Example C112_too_many : csv_read_row_t true int32 why 44 1 (open (bytes "1,2")) = Error (bytes "io::csv_read_row line not fully consumed").
Proof. vm_compute. reflexivity. Qed.
Example C112_too_few : csv_read_row_t true int32 why 44 3 (open (bytes "1,+2")) = Error (bytes "io::csv_read_row conversion failed '': Invalid argument").
Proof. vm_compute. reflexivity. Qed.
(** A missing row: two texts, depending on whether it is the first one *)
Example C112_missing_row : csv_read_t true int32 why 44 1 1 (open []) = Error (bytes "io::csv_read_row extraction failed: fail eof") /\
  csv_read_t true int32 why 44 2 1 (open (bytes "1" ++ [newline])) = Error (bytes "io::csv_read_row conversion failed '': Invalid argument") /\
  csv_read_t true int32 why 44 2 1 (open (bytes "1" ++ newline :: bytes "#" ++ [newline])) = Error (bytes "io::csv_read_row extraction failed: fail eof").
Proof. repeat split; vm_compute; reflexivity. Qed.
Example C112_vector_run : csv_read_row_std_vector_t true int32 why 44 (open (bytes "1,2;3")) = Error (bytes "io::csv_read_row unexpected character ';'").
Proof. vm_compute. reflexivity. Qed.
