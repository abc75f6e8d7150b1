(** C93: reading from a stream that breaks (I/O error after some characters). *)
From Verif Require Import Base Bytes Csv_Spec Csv_Model Csv_Numbers Csv_Proofs Csv_More CsvFault_Model CsvFault_Proofs CsvFault_Exact.
Local Open Scope outcome_scope.

(** ** Specification *)
(** [text] is what the stream delivers before its buffer fails, [fopen text] the stream
    (with [broken] = true). [open text'] is a stream that works; [open] and the readers
    on it are those of C44-C47. Two results agree: same values, same position. *)
Definition agrees {A} (more : list Z) (f : outcome (A * fstream)) (h : outcome (A * stream)) : Prop :=
  exists x rest, f = Ok (x, fopen rest) /\ h = Ok (x, open (rest ++ more)).

Section C93.
Context (eager : bool) {V : Type} (number : list Z -> option (V * nat)) (sep : Z).
Context (Hnum : forall s v k, number s = Some (v, k) -> 1 <= k <= length s).

(** An error is reported as csv_read_error, or the result is the one that every
    continuation of the delivered text would have given: data are never cut off or
    made up. *)
Theorem C93_row_reported n text :
  fcsv_read_row true eager number sep n (fopen text) = Throw csv_read_error \/
  forall more, agrees more (fcsv_read_row true eager number sep n (fopen text)) (csv_read_row eager number sep n (open (text ++ more))).
Proof.
  unfold fcsv_read_row, new_reader. destruct (fone_row true eager number sep n (Reader [] true) (fopen text)) as [[[vs r] f]|e| |] eqn:E.
  - right. intros more. pose proof (one_row_sim eager number sep more n true text) as H. rewrite E in H. destruct H as (y & Hy & R & _). destruct y as [[vs2 r2] st2].
    destruct R as (R1 & R2 & q' & R3 & R4). cbn in R1, R2, R3, R4. subst. exists vs2, q'. split; [reflexivity|]. unfold csv_read_row, new_reader. rewrite Hy. reflexivity.
  - left. pose proof (one_row_sim eager number sep [] n true text) as H. rewrite E in H. cbn in H. now subst.
  - pose proof (one_row_sim eager number sep [] n true text) as H. rewrite E in H. destruct H.
  - pose proof (one_row_sim eager number sep [] n true text) as H. rewrite E in H. destruct H.
Qed.
Theorem C93_matrix_reported rows cols text :
  fcsv_read true eager number sep rows cols (fopen text) = Throw csv_read_error \/
  forall more, agrees more (fcsv_read true eager number sep rows cols (fopen text)) (csv_read eager number sep rows cols (open (text ++ more))).
Proof.
  unfold fcsv_read, csv_read, new_reader. destruct (fread_rows true eager number sep rows cols (Reader [] true) (fopen text)) as [[vss f]|e| |] eqn:E.
  - right. intros more. pose proof (read_rows_sim eager number sep more rows cols true text) as H. rewrite E in H. destruct H as (q' & -> & H). exists vss, q'. auto.
  - left. pose proof (read_rows_sim eager number sep [] rows cols true text) as H. rewrite E in H. now subst.
  - pose proof (read_rows_sim eager number sep [] rows cols true text) as H. rewrite E in H. destruct H.
  - pose proof (read_rows_sim eager number sep [] rows cols true text) as H. rewrite E in H. destruct H.
Qed.
Theorem C93_vector_reported text :
  fcsv_read_row_std_vector true eager number sep (fopen text) = Throw csv_read_error \/
  forall more, agrees more (fcsv_read_row_std_vector true eager number sep (fopen text)) (csv_read_row_std_vector eager number sep (open (text ++ more))).
Proof.
  destruct (fcsv_read_row_std_vector true eager number sep (fopen text)) as [[vs f]|e| |] eqn:E.
  - right. intros more. pose proof (vector_sim eager number sep more Hnum text) as H. rewrite E in H. destruct H as (q' & -> & H). exists vs, q'. auto.
  - left. pose proof (vector_sim eager number sep [] Hnum text) as H. rewrite E in H. now subst.
  - pose proof (vector_sim eager number sep [] Hnum text) as H. rewrite E in H. destruct H.
  - pose proof (vector_sim eager number sep [] Hnum text) as H. rewrite E in H. destruct H.
Qed.

(** And errors are reported only if they matter: what can be read without looking
    behind the delivered characters (the stream is not at its end afterwards) is read. *)
Theorem C93_row_not_affected n text vs st : csv_read_row eager number sep n (open text) = Ok (vs, st) -> eof st = false ->
  exists rest, st = open rest /\ fcsv_read_row true eager number sep n (fopen text) = Ok (vs, fopen rest).
Proof.
  unfold csv_read_row, fcsv_read_row, new_reader. intros H E. destruct (one_row eager number sep n (Reader [] true) (open text)) as [[[vs1 r1] st1]|e| |] eqn:E1; try discriminate H. cbn [bind] in H. injection H as <- <-.
  destruct (row_back eager number sep _ _ _ _ _ _ E1) as [B|(q & -> & ->)]; [congruence|]. exists q. split; reflexivity.
Qed.
Theorem C93_matrix_not_affected rows cols text vss st : csv_read eager number sep rows cols (open text) = Ok (vss, st) -> eof st = false ->
  exists rest, st = open rest /\ fcsv_read true eager number sep rows cols (fopen text) = Ok (vss, fopen rest).
Proof.
  unfold csv_read, fcsv_read, new_reader. intros H E. destruct (rows_back eager number sep _ _ _ _ _ _ H) as [B|B]; [congruence|exact B].
Qed.
Theorem C93_vector_not_affected text vs st : csv_read_row_std_vector eager number sep (open text) = Ok (vs, st) -> eof st = false ->
  exists rest, st = open rest /\ fcsv_read_row_std_vector true eager number sep (fopen text) = Ok (vs, fopen rest).
Proof. intros H E. destruct (vector_back eager number sep _ _ _ H) as [B|B]; [congruence|exact B]. Qed.
End C93.
Print Assumptions C93_row_reported.
Print Assumptions C93_matrix_reported.
Print Assumptions C93_vector_reported.
Print Assumptions C93_row_not_affected.
Print Assumptions C93_matrix_not_affected.
Print Assumptions C93_vector_not_affected.

(** Non-vacuity: an error within the second row, with its first field complete; the
    same document when the error comes behind the second newline; a number that
    happens to end where the stream breaks is not taken as it is. *)
Definition int32 := integer (- 2 ^ 31) (2 ^ 31 - 1).
Example C93_cut : fcsv_read true true int32 44 2 2 (fopen (bytes "1,2" ++ [newline] ++ bytes "3,4")) = Throw csv_read_error.
Proof. reflexivity. Qed.
Example C93_whole : fcsv_read true true int32 44 2 2 (fopen (bytes "1,2" ++ [newline] ++ bytes "3,4" ++ [newline])) = Ok ([[1; 2]; [3; 4]]%Z, fopen []).
Proof. reflexivity. Qed.
Example C93_whole_end : exists st, csv_read true int32 44 2 2 (open (bytes "1,2" ++ [newline] ++ bytes "3,4" ++ [newline])) = Ok ([[1; 2]; [3; 4]]%Z, st) /\ eof st = false.
Proof. eexists. split; reflexivity. Qed.
Example C93_number : fcsv_read_row_std_vector true true int32 44 (fopen (bytes "1,2")) = Throw csv_read_error.
Proof. reflexivity. Qed.
