(** C97: what the CSV functions do with any text. *)
From Verif Require Import Base Bytes Csv_Spec Csv_Model Csv_Proofs Csv_Exact Csv_Numbers CsvAny_Spec CsvAny_Proofs.
Local Open Scope outcome_scope.

(** Every text is: comment lines, a line that is not a comment (or an unfinished one), and the rest. *)
Theorem C97_every_text : forall text, exists c line after, parts text c line after.
Proof. exact every_text. Qed.
Print Assumptions C97_every_text.
(** Nothing is lost: the tokens of a field together are the field. *)
Theorem C97_tokens_of_a_field : forall f,
  List.concat (before_separator f) = f /\ List.concat (at_line_end f) = f /\
  Forall (fun t => length t <= 64) (before_separator f) /\ Forall (fun t => 1 <= length t <= 64) (at_line_end f).
Proof.
  intros f. remember (length f) as k eqn:Ek. assert (Hk : length f <= k) by lia. clear Ek. revert f Hk. induction k as [|k IH]; intros f Hk.
  { destruct f; [|cbn in Hk; lia]. repeat split; vm_compute; repeat constructor. }
  destruct (Nat.lt_ge_cases (length f) 64) as [H|H].
  - rewrite before_short by auto. destruct f as [|x f].
    + rewrite end_nil. repeat split; repeat constructor.
    + rewrite end_short by (auto; discriminate). cbn [List.concat]. rewrite app_nil_r. cbn [length] in H. split; [reflexivity|]. split; [reflexivity|]. split; apply Forall_cons; try apply Forall_nil; cbn [length]; lia.
  - rewrite before_long, end_long by auto. destruct (IH (skipn 64 f)) as (I1 & I2 & I3 & I4); [rewrite skipn_length; lia|]. cbn [List.concat]. rewrite I1, I2, firstn_skipn.
    assert (L : length (firstn 64 f) = 64) by (rewrite firstn_length; lia).
    split; [reflexivity|]. split; [reflexivity|]. split; constructor; auto; lia.
Qed.
Print Assumptions C97_tokens_of_a_field.
(** If no field has 64 or more characters, the tokens are the fields. *)
Theorem C97_short_fields : forall sep line, Forall (fun f => length f < 64) (fields sep line) -> tokens sep line = fields sep line.
Proof.
  intros sep line. remember (length line) as k eqn:Ek. assert (Hk : length line <= k) by lia. clear Ek. revert line Hk. induction k as [|k IH]; intros line Hk H.
  { destruct line; [reflexivity|cbn in Hk; lia]. }
  destruct (cut_line sep line) as [->|[[Hne Hs]|(p & l' & -> & Hs)]]; [reflexivity| |].
  - rewrite fields_one in H |- * by auto. inversion H; subst. rewrite tokens_no_sep by auto. now apply end_short.
  - rewrite fields_cons in H |- * by auto. inversion H as [|? ? H1 H2]; subst. rewrite tokens_sep, before_short by auto. cbn [app]. f_equal. apply IH; auto.
    rewrite app_length in Hk. cbn in Hk. lia.
Qed.
Print Assumptions C97_short_fields.
(** csv_read_row *)
Theorem C97_row : forall eager V (number : list Z -> option (V * nat)) sep n text c line after st,
  separates number sep -> parts text c line after -> at_text st text ->
  (forall vs, row_values number sep c line = Some vs -> length vs = n ->
     exists st', csv_read_row eager number sep n st = Ok (vs, st') /\ at_text st' (behind after)) /\
  ((forall vs, row_values number sep c line = Some vs -> length vs <> n) ->
     csv_read_row eager number sep n st = Throw csv_read_error).
Proof.
  intros eager V number sep n text c line after st Hs Hp Hst. pose proof (csv_row_any eager number sep Hs text c line after n st Hp Hst) as H.
  destruct (row_values number sep c line) as [vs|] eqn:E.
  - split.
    + intros ws K L. injection K as <-. rewrite (proj2 (Nat.eqb_eq _ _) L) in H. exact H.
    + intros K. rewrite (proj2 (Nat.eqb_neq _ _) (K vs eq_refl)) in H. exact H.
  - split; [discriminate|]. intros _. exact H.
Qed.
Print Assumptions C97_row.
(** csv_read_row_std_vector *)
Theorem C97_vector : forall eager V (number : list Z -> option (V * nat)) sep text c line after st,
  separates number sep -> parts text c line after -> at_text st text ->
  match row_values number sep c line with
  | Some vs => exists st', csv_read_row_std_vector eager number sep st = Ok (vs, st') /\ at_text st' (behind after)
  | None => csv_read_row_std_vector eager number sep st = Throw csv_read_error
  end.
Proof. intros eager V number sep text c line after st Hs. now apply csv_vector_any. Qed.
Print Assumptions C97_vector.
(** csv_read: [rows_at] has a result for every text, and it is what csv_read gives. *)
Theorem C97_every_matrix : forall V (number : list Z -> option (V * nat)) sep n k text, exists res, rows_at number sep n k text res.
Proof. intros. apply every_rows. Qed.
Print Assumptions C97_every_matrix.
Theorem C97_matrix : forall eager V (number : list Z -> option (V * nat)) sep n k text res st,
  separates number sep -> rows_at number sep n k text res -> at_text st text ->
  match res with
  | Some (vss, rest) => exists st', csv_read eager number sep k n st = Ok (vss, st') /\ at_text st' rest
  | None => csv_read eager number sep k n st = Throw csv_read_error
  end.
Proof. intros eager V number sep n k text res st Hs H Hst. exact (csv_rows_any eager number sep Hs n k text res H true st Hst). Qed.
Print Assumptions C97_matrix.
(** The two standard libraries differ in when they set eofbit; the numbers read and the
    text that is left do not. *)
Theorem C97_library_independent : forall V (number : list Z -> option (V * nat)) sep n k text,
  separates number sep ->
  match csv_read true number sep k n (open text), csv_read false number sep k n (open text) with
  | Ok (a, s), Ok (b, s') => a = b /\ exists left, at_text s left /\ at_text s' left
  | Throw e, Throw e' => e = e'
  | _, _ => False
  end.
Proof.
  intros V number sep n k text Hs. destruct (every_rows number sep n k text) as (res & H).
  pose proof (C97_matrix true V number sep n k text res (open text) Hs H (or_introl eq_refl)) as H1.
  pose proof (C97_matrix false V number sep n k text res (open text) Hs H (or_introl eq_refl)) as H2.
  destruct res as [[vss r]|].
  - destruct H1 as (s & -> & A). destruct H2 as (s' & -> & B). split; [reflexivity|]. eauto.
  - now rewrite H1, H2.
Qed.
Print Assumptions C97_library_independent.

(** ** Examples *)
Definition int32 := integer (- 2 ^ 31) (2 ^ 31 - 1).
Example C97_separator : separates int32 44.
Proof. apply integer_separates; vm_compute; congruence. Qed.
(** 130 zeros, a separator, 5, a separator *)
Definition long_line : list Z := repeat 48%Z 130 ++ bytes ",5,".
Example C97_long : parts (bytes "#c" ++ newline :: long_line) (bytes "#c" ++ [newline]) long_line None.
Proof.
  apply (Parts _ _ _ _ long_line); [reflexivity| |vm_compute; reflexivity|].
  - apply (comment_line (bytes "c") []); [vm_compute; intuition discriminate|constructor].
  - reflexivity.
Qed.
Example C97_long_values : row_values int32 44 (bytes "#c" ++ [newline]) long_line = Some [0; 0; 0; 5]%Z.
Proof. vm_compute. reflexivity. Qed.
Example C97_long_run : exists st, csv_read_row_std_vector false int32 44 (open (bytes "#c" ++ newline :: long_line)) = Ok ([0; 0; 0; 5]%Z, st).
Proof. eexists. vm_compute. reflexivity. Qed.
(** 128 zeros: accepted at the end of a line, rejected in front of a separator *)
Example C97_multiple : row_values int32 44 [] (repeat 48%Z 128) = Some [0; 0]%Z /\ row_values int32 44 [] (repeat 48%Z 128 ++ bytes ",") = None.
Proof. split; vm_compute; reflexivity. Qed.
(** A comment without newline at the end, and comments before an empty line *)
Example C97_unfinished : parts (bytes "# end") [] (bytes "# end") None /\ row_values int32 44 [] (bytes "# end") = Some [].
Proof. split; [|reflexivity]. apply (Parts _ _ _ _ (bytes "# end")); [reflexivity|constructor|reflexivity|reflexivity]. Qed.
Example C97_comment_empty : parts (bytes "#" ++ [newline; newline]) (bytes "#" ++ [newline]) [] (Some []) /\ row_values int32 44 (bytes "#" ++ [newline]) [] = None.
Proof.
  split; [|reflexivity]. apply (Parts _ _ _ _ [newline]); [reflexivity| |reflexivity|].
  - apply (comment_line [] []); [intros []|constructor].
  - intros [b K]. discriminate.
Qed.

(** ** C47 and C45 for every text *)
(** csv_read_row gives [n] numbers exactly if the line has [n] groups of at most 64
    characters, all of them numbers. *)
Theorem C47_exact : forall eager V (number : list Z -> option (V * nat)) sep n text c line after st,
  separates number sep -> parts text c line after -> at_text st text ->
  ((exists vs st', csv_read_row eager number sep n st = Ok (vs, st')) <->
   exists ts, row_tokens sep c line = Some ts /\ length ts = n /\ values_of number ts <> None).
Proof.
  intros eager V number sep n text c line after st Hs Hp Hst.
  destruct (C97_row eager V number sep n text c line after st Hs Hp Hst) as [H1 H2].
  unfold row_values in H1, H2. destruct (row_tokens sep c line) as [ts|].
  - split.
    + intros (vs & st' & E). exists ts. split; [reflexivity|].
      destruct (values_of number ts) as [ws|] eqn:Ev.
      * split; [|discriminate]. destruct (Nat.eq_dec (length ws) n) as [L|L].
        -- rewrite <- L. symmetry. exact (values_length number ts ws Ev).
        -- rewrite H2 in E; [discriminate|]. intros xs K. injection K as <-. exact L.
      * rewrite H2 in E; [discriminate|]. intros xs K. discriminate K.
    + intros (ts' & K & L & N). injection K as <-. destruct (values_of number ts) as [ws|] eqn:Ev; [|congruence].
      destruct (H1 ws eq_refl) as (st' & E & _); [|eauto].
      rewrite (values_length number ts ws Ev). exact L.
  - split.
    + intros (vs & st' & E). rewrite H2 in E; [discriminate|]. intros xs K. discriminate K.
    + intros (ts & K & _). discriminate K.
Qed.
Print Assumptions C47_exact.
(** As stated it is false for long fields: this line has one field. *)
Theorem C47_long_field_refuted : forall eager, exists line,
  fields 44 line = [line] /\ exists st, csv_read_row eager int32 44 2 (open line) = Ok ([0; 7]%Z, st).
Proof.
  intros eager. exists (repeat 48%Z 64 ++ bytes "7"). split; [vm_compute; reflexivity|].
  destruct eager; eexists; vm_compute; reflexivity.
Qed.
Print Assumptions C47_long_field_refuted.
