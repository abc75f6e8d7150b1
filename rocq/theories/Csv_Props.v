(** C44-C47: reading CSV. *)
From Verif Require Import Base Bytes Csv_Spec Csv_Model Csv_Proofs Csv_More Csv_Numbers Csv_Exact.
Local Open Scope outcome_scope.

(** ** The requirements on the separator *)
(** Integers: anything but a digit, a sign or a newline. *)
Theorem C44_integer_separator lo hi sep : digit sep = false -> sep <> 45%Z -> sep <> newline -> sep <> plus -> separates (integer lo hi) sep.
Proof. apply integer_separates. Qed.
Print Assumptions C44_integer_separator.
(** Floating point: anything but letters, digits, signs, point, underscore, parentheses, newline. *)
Theorem C44_floating_separator sep : number_char sep = false -> sep <> newline -> separates floating sep.
Proof. apply floating_separates. Qed.
Print Assumptions C44_floating_separator.
Example separators_int : Forall (separates (integer (- 2 ^ 31) (2 ^ 31 - 1))) (bytes ",; |:").
Proof. do 5 (apply Forall_cons; [apply integer_separates; vm_compute; congruence|]). apply Forall_nil. Qed.
Example separators_double : Forall (separates floating) (bytes ",; |:").
Proof. do 5 (apply Forall_cons; [apply floating_separates; vm_compute; congruence|]). apply Forall_nil. Qed.

(** ** Lines built from fields *)
Fixpoint join (sep : Z) (fs : list (list Z)) : list Z :=
  match fs with [] => [] | [f] => f | f :: fs => f ++ sep :: join sep fs end.
Definition line_of (sep : Z) (fs : list (list Z)) (trailing : bool) : list Z :=
  join sep fs ++ (if trailing then [sep] else []).
Lemma join_fields sep fs trailing : Forall (fun f => ~ In sep f /\ f <> []) fs -> (fs = [] -> trailing = false) -> fields sep (line_of sep fs trailing) = fs.
Proof.
  unfold line_of. intros H Ht. induction H as [|f fs [H1 H2] Hf IH].
  - rewrite (Ht eq_refl). reflexivity.
  - destruct fs as [|g fs].
    + cbn [join]. destruct trailing; [now rewrite fields_cons|]. rewrite app_nil_r. now apply fields_one.
    + change (join sep (f :: g :: fs)) with (f ++ sep :: join sep (g :: fs)). rewrite <- app_assoc. cbn [app]. rewrite fields_cons by auto. f_equal. apply IH. discriminate.
Qed.
Lemma line_of_in sep fs trailing c : In c (line_of sep fs trailing) -> c = sep \/ Exists (In c) fs.
Proof.
  unfold line_of. intros H. apply in_app_or in H. destruct H as [H|H]; [|destruct trailing; [destruct H as [H|[]]; auto|destruct H]].
  induction fs as [|f fs IH]; [destruct H|]. destruct fs as [|g fs]; [right; now left|].
  change (join sep (f :: g :: fs)) with (f ++ sep :: join sep (g :: fs)) in H. apply in_app_or in H. destruct H as [H|[H|H]]; [right; now left|left; auto|].
  destruct (IH H) as [K|K]; auto.
Qed.
(** [entries number sep fs vs]: every field is a number, without separator or newline,
    with fewer than 64 characters; the values are [vs]. *)
Definition entries {V} (number : list Z -> option (V * nat)) (sep : Z) (fs : list (list Z)) (vs : list V) : Prop :=
  Forall2 (fun f v => value_of number f = Some v /\ ~ In sep f /\ ~ In newline f /\ length f < 64) fs vs.
Lemma entries_values {V} (number : list Z -> option (V * nat)) sep fs vs : entries number sep fs vs -> values_of number fs = Some vs.
Proof. induction 1 as [|f v fs vs (H & _) Hf IH]; [reflexivity|]. cbn. now rewrite H, IH. Qed.
Lemma entries_length {V} (number : list Z -> option (V * nat)) sep fs vs : entries number sep fs vs -> length fs = length vs.
Proof. induction 1; cbn; auto. Qed.
Lemma entries_parts {V} (number : list Z -> option (V * nat)) sep fs vs : separates number sep -> entries number sep fs vs ->
  Forall (fun f => ~ In sep f /\ f <> []) fs /\ Forall (readable number) fs /\ Forall (fun f => ~ In newline f) fs.
Proof.
  intros Hs H. induction H as [|f v fs vs (H1 & H2 & H3 & H4) Hf IH]; [auto|]. destruct IH as (I1 & I2 & I3).
  split; [|split]; constructor; auto; [|now left]. split; [auto|]. intros ->. rewrite (value_nil number sep Hs) in H1. discriminate.
Qed.
Lemma entries_line {V} (number : list Z -> option (V * nat)) sep fs vs trailing after : separates number sep -> entries number sep fs vs -> (fs = [] -> trailing = false) ->
  first_line (line_of sep fs trailing ++ tail after) = (line_of sep fs trailing, after) /\
  fields sep (line_of sep fs trailing) = fs /\ Forall (readable number) fs.
Proof.
  intros Hs H Ht. destruct (entries_parts number sep fs vs Hs H) as (I1 & I2 & I3). split; [|split; [now apply join_fields|exact I2]].
  apply first_line_iff. split; [reflexivity|]. intros K. apply line_of_in in K. destruct K as [K|K].
  - destruct Hs as (Hn & _). congruence.
  - apply Exists_exists in K. destruct K as (f & Kf & K). rewrite Forall_forall in I3. exact (I3 f Kf K).
Qed.

(** ** C44 *)
(** [tail after]: nothing, or a newline and the next lines; [text_after after] is what
    comes after the line. The outcome does not depend on how the fields fall into the buffer. *)
Theorem C44_row_of_fields : forall eager V (number : list Z -> option (V * nat)) sep fs vs trailing after,
  separates number sep -> entries number sep fs vs -> (fs = [] -> trailing = false) -> ~ is_comment (line_of sep fs trailing) ->
  exists st', csv_read_row eager number sep (length fs) (open (line_of sep fs trailing ++ tail after)) = Ok (vs, st') /\ at_text st' (text_after after).
Proof.
  intros eager V number sep fs vs trailing after Hs H Ht Hc. destruct (entries_line number sep fs vs trailing after Hs H Ht) as (E1 & E2 & E3).
  pose proof (csv_read_row_ok eager number sep Hs [] _ _ after (length fs) (open (line_of sep fs trailing ++ tail after)) no_comments E1 (or_introl eq_refl) Hc) as R.
  rewrite E2 in R. specialize (R E3 (or_introl eq_refl)). rewrite (entries_values number sep fs vs H) in R.
  rewrite (entries_length number sep _ _ H), Nat.eqb_refl in R. rewrite (entries_length number sep _ _ H). exact R.
Qed.
Print Assumptions C44_row_of_fields.
Theorem C44_vector_of_fields : forall eager V (number : list Z -> option (V * nat)) sep fs vs trailing after,
  separates number sep -> entries number sep fs vs -> (fs = [] -> trailing = false) -> ~ is_comment (line_of sep fs trailing) ->
  exists st', csv_read_row_std_vector eager number sep (open (line_of sep fs trailing ++ tail after)) = Ok (vs, st') /\ at_text st' (text_after after).
Proof.
  intros eager V number sep fs vs trailing after Hs H Ht Hc. destruct (entries_line number sep fs vs trailing after Hs H Ht) as (E1 & E2 & E3).
  pose proof (read_vector_ok eager number sep Hs [] _ _ after (open (line_of sep fs trailing ++ tail after)) no_comments E1 (or_introl eq_refl) Hc) as R.
  rewrite E2 in R. specialize (R E3 (or_introl eq_refl)). rewrite (entries_values number sep fs vs H) in R. exact R.
Qed.
Print Assumptions C44_vector_of_fields.
(** A matrix: every line ends with a newline (with the last one, [rest] may be empty). *)
Definition document (sep : Z) (rows : list (list (list Z) * bool)) : list Z :=
  List.concat (map (fun '(fs, trailing) => line_of sep fs trailing ++ [newline]) rows).
Theorem C44_matrix_of_fields : forall eager V (number : list Z -> option (V * nat)) sep n rows vss rest,
  separates number sep ->
  Forall2 (fun '(fs, trailing) vs => entries number sep fs vs /\ length fs = n /\ (fs = [] -> trailing = false) /\ ~ is_comment (line_of sep fs trailing)) rows vss ->
  exists st', csv_read eager number sep (length rows) n (open (document sep rows ++ rest)) = Ok (vss, st') /\ at_text st' rest.
Proof.
  intros eager V number sep n rows vss rest0 Hs H.
  assert (R : rows_of number sep n (length rows) (document sep rows ++ rest0) (Some (vss, rest0))).
  { induction H as [|[fs tr] vs rows vss (H1 & H2 & H3 & H4) Hf IH]; cbn [length]; [apply rows_done|].
    destruct (entries_line number sep fs vs tr (Some (document sep rows ++ rest0)) Hs H1 H3) as (E1 & E2 & E3).
    unfold document. cbn [map List.concat]. fold (document sep rows). rewrite <- !app_assoc. cbn [app].
    apply (rows_more number sep n (length rows) [] _ _ _ vs (Some (vss, rest0)) no_comments E1); auto.
    - now rewrite E2.
    - rewrite E2. now apply (entries_values number sep).
    - rewrite <- (entries_length number sep _ _ H1). exact H2. }
  exact (csv_read_ok eager number sep Hs n (length rows) _ _ R true _ (or_introl eq_refl)).
Qed.
Print Assumptions C44_matrix_of_fields.

Definition int32 := integer (- 2 ^ 31) (2 ^ 31 - 1).
Example C44_example_fields : entries int32 44 [bytes "12"; bytes "-7"; bytes "+2147483647"] [12; -7; 2147483647]%Z.
Proof. repeat constructor; try (vm_compute; reflexivity); vm_compute; intuition discriminate. Qed.
Example C44_example_run :
  csv_read true int32 44 2 3 (open (document 44 [([bytes "12"; bytes "-7"; bytes "+2147483647"], false); ([bytes "1"; bytes "0002"; bytes "3"], true)] ++ bytes "rest"))
  = Ok ([[12; -7; 2147483647]; [1; 2; 3]]%Z, open (bytes "rest")).
Proof. vm_compute. reflexivity. Qed.
(** Forty fields: more than three buffers. *)
Example C44_example_long : exists st,
  csv_read_row_std_vector true int32 44 (open (line_of 44 (repeat (bytes "12345") 40) false)) = Ok (repeat 12345%Z 40, st) /\ at_text st [].
Proof. eexists. split; [vm_compute; reflexivity|]. right. auto. Qed.
Example C44_example_double :
  csv_read_row true floating 44 3 (open (bytes "1.5,-2e3,+inf" ++ newline :: bytes "x"))
  = Ok ([Duration_Model.Dec false 15 (-1); Duration_Model.Dec true 2 3; Duration_Model.Inf], open (bytes "x")).
Proof. vm_compute. reflexivity. Qed.

(** ** C45: long fields *)
(** Refuted for csv_read_row_std_vector, and for csv_read_row with a count larger than
    the number of fields: one field of 65 digits is read as the two numbers 0 and 7. *)
Theorem C45_long_field_split_refuted : exists field : list Z,
  fields 44 field = [field] /\ value_of int32 field = Some 7%Z /\
  forall eager, (exists st, csv_read_row_std_vector eager int32 44 (open field) = Ok ([0; 7]%Z, st)) /\
                (exists st, csv_read_row eager int32 44 2 (open field) = Ok ([0; 7]%Z, st)) /\
                csv_read_row eager int32 44 1 (open field) = Throw csv_read_error.
Proof.
  exists (repeat 48%Z 64 ++ bytes "7"). split; [vm_compute; reflexivity|]. split; [vm_compute; reflexivity|].
  intros []; (split; [eexists; vm_compute; reflexivity|]; split; [eexists; vm_compute; reflexivity|]; vm_compute; reflexivity).
Qed.
Print Assumptions C45_long_field_split_refuted.
(** For any text and field lengths: csv_read_row can only succeed if the line has at most
    [n] fields; if it has exactly [n], then the numbers are the values of these fields,
    and exactly this line is consumed. *)
Theorem C45_row_no_split_partial : forall eager V (number : list Z -> option (V * nat)) sep c text line after n st vs st',
  separates number sep ->
  comments c -> first_line text = (line, after) -> (c = [] \/ line <> []) -> ~ is_comment line -> at_text st (c ++ text) ->
  csv_read_row eager number sep n st = Ok (vs, st') ->
  length (fields sep line) <= n /\ (length (fields sep line) = n -> values_of number (fields sep line) = Some vs) /\ at_text st' (text_after after).
Proof. intros until st'. intros Hs. now apply csv_read_row_exact. Qed.
Print Assumptions C45_row_no_split_partial.
Theorem C45_matrix_no_split_partial : forall eager V (number : list Z -> option (V * nat)) sep k n text rows text' st vss st',
  separates number sep -> lines_of sep k text rows text' -> at_text st text ->
  csv_read eager number sep k n st = Ok (vss, st') ->
  Forall (fun fs => length fs <= n) rows /\
  (Forall (fun fs => length fs = n) rows -> Forall2 (fun fs vs => values_of number fs = Some vs) rows vss) /\ at_text st' text'.
Proof. intros until st'. intros Hs HL Hst H. exact (csv_read_exact eager number sep Hs n k text rows text' HL true st vss st' Hst H). Qed.
Print Assumptions C45_matrix_no_split_partial.
(** Integer fields of any length without leading zeros are never split: they meet the
    condition [readable] of theorems C45_vector_partial and C47_exact_count_partial. *)
Theorem C45_integers_readable_partial : forall lo hi f, (- 10 ^ 60 < lo)%Z -> (hi < 10 ^ 60)%Z ->
  hd 0%Z (after_sign (strip_plus f)) <> 48%Z -> readable (integer lo hi) f.
Proof. exact integer_readable. Qed.
Print Assumptions C45_integers_readable_partial.
Theorem C45_vector_partial : forall eager V (number : list Z -> option (V * nat)) sep c text line after st,
  separates number sep ->
  comments c -> first_line text = (line, after) -> (c = [] \/ line <> []) -> ~ is_comment line ->
  Forall (readable number) (fields sep line) -> at_text st (c ++ text) ->
  match values_of number (fields sep line) with
  | Some vs => exists st', csv_read_row_std_vector eager number sep st = Ok (vs, st') /\ at_text st' (text_after after)
  | None => csv_read_row_std_vector eager number sep st = Throw csv_read_error
  end.
Proof. intros until st. intros Hs. now apply read_vector_ok. Qed.
Print Assumptions C45_vector_partial.
(** A field of exactly 64 characters followed by a separator is rejected even though it
    is a number and the documentation sets no limit. *)
Example C45_64_characters : forall eager,
  csv_read_row eager int32 44 2 (open (repeat 48%Z 63 ++ bytes "5,6")) = Throw csv_read_error /\
  exists st, csv_read_row eager int32 44 2 (open (repeat 48%Z 62 ++ bytes "5,6")) = Ok ([5; 6]%Z, st).
Proof. intros []; (split; [vm_compute; reflexivity|]; eexists; vm_compute; reflexivity). Qed.
Example C45_readable_example : readable int32 (repeat 49%Z 100).
Proof. apply integer_readable; [reflexivity|reflexivity|]. vm_compute. discriminate. Qed.

(** ** C46: comments *)
Theorem C46_row_after_comments_partial : forall eager V (number : list Z -> option (V * nat)) sep n c d text,
  comments c -> d <> newline -> d <> hash ->
  csv_read_row eager number sep n (open (c ++ d :: text)) = csv_read_row eager number sep n (open (d :: text)).
Proof. intros. unfold csv_read_row, new_reader. now rewrite (one_row_comments eager number sep n c d text true true). Qed.
Print Assumptions C46_row_after_comments_partial.
Theorem C46_vector_after_comments_partial : forall eager V (number : list Z -> option (V * nat)) sep c d text,
  (forall s v k, number s = Some (v, k) -> 1 <= k <= length s) ->
  comments c -> d <> newline -> d <> hash ->
  csv_read_row_std_vector eager number sep (open (c ++ d :: text)) = csv_read_row_std_vector eager number sep (open (d :: text)).
Proof.
  intros eager V number sep c d text Hnum Hc Hd Hh. unfold csv_read_row_std_vector, new_reader. rewrite (skip_comments_eq eager c d text true true) by auto.
  destruct (skip_comments_fine eager true (open (d :: text))) as [F L]. destruct (skip_comments eager (Reader [] true) (open (d :: text))) as [[r st]|e| |]; cbn [bind]; auto.
  specialize (L r st eq_refl). cbn [open rest] in *. rewrite (read_all_fuel eager number sep Hnum (S (length (c ++ d :: text))) (S (length (d :: text)))); auto; [|lia].
  rewrite app_length. lia.
Qed.
Print Assumptions C46_vector_after_comments_partial.
Theorem C46_matrix_after_comments_partial : forall eager V (number : list Z -> option (V * nat)) sep rows cols c d text,
  comments c -> d <> newline -> d <> hash -> 1 <= rows ->
  csv_read eager number sep rows cols (open (c ++ d :: text)) = csv_read eager number sep rows cols (open (d :: text)).
Proof.
  intros eager V number sep rows cols c d text Hc Hd Hh Hr. destruct rows as [|rows]; [lia|]. unfold csv_read, new_reader. cbn [read_rows].
  now rewrite (one_row_comments eager number sep cols c d text true true).
Qed.
Print Assumptions C46_matrix_after_comments_partial.
(** Refuted when an empty line or the end of the text follows: without the comment the
    row is read (no numbers), with it csv_read_error is thrown. *)
Theorem C46_comment_before_empty_refuted : exists c, comments c /\ forall eager,
  (exists st, csv_read_row_std_vector eager int32 44 (open [newline]) = Ok ([], st)) /\
  csv_read_row_std_vector eager int32 44 (open (c ++ [newline])) = Throw csv_read_error /\
  (exists st, csv_read_row_std_vector eager int32 44 (open []) = Ok ([], st)) /\
  csv_read_row_std_vector eager int32 44 (open (c ++ [])) = Throw csv_read_error.
Proof.
  exists (bytes "#c" ++ [newline]). split.
  - apply (comment_line (bytes "c") []); [|constructor]. vm_compute. intuition discriminate.
  - intros []; (split; [eexists; vm_compute; reflexivity|]; split; [vm_compute; reflexivity|]; split; [eexists; vm_compute; reflexivity|vm_compute; reflexivity]).
Qed.
Print Assumptions C46_comment_before_empty_refuted.
Example C46_example : comments (bytes "# a comment" ++ newline :: bytes "#" ++ newline :: repeat 35%Z 200 ++ [newline]).
Proof.
  apply (comment_line (bytes " a comment")); [vm_compute; intuition discriminate|].
  apply (comment_line []); [intros []|].
  change (repeat 35%Z 200 ++ [newline]) with (hash :: repeat 35%Z 199 ++ newline :: []). constructor; [|constructor].
  intros K. apply repeat_spec in K. discriminate.
Qed.
Example C46_example_run : exists st,
  csv_read_row_std_vector false int32 44 (open ((bytes "# a comment" ++ newline :: bytes "#" ++ newline :: repeat 35%Z 200 ++ [newline]) ++ bytes "1,2")) = Ok ([1; 2]%Z, st).
Proof. eexists. vm_compute. reflexivity. Qed.

(** ** C47: exactly the requested number of fields *)
Theorem C47_exact_count_partial : forall eager V (number : list Z -> option (V * nat)) sep c text line after n st,
  separates number sep ->
  comments c -> first_line text = (line, after) -> (c = [] \/ line <> []) -> ~ is_comment line ->
  Forall (readable number) (fields sep line) -> at_text st (c ++ text) ->
  (forall vs, values_of number (fields sep line) = Some vs -> length (fields sep line) = n ->
     exists st', csv_read_row eager number sep n st = Ok (vs, st') /\ at_text st' (text_after after)) /\
  (length (fields sep line) <> n \/ values_of number (fields sep line) = None ->
     csv_read_row eager number sep n st = Throw csv_read_error).
Proof.
  intros eager V number sep c text line after n st Hs Hc Hf Hcl Hnc Hr Hst.
  pose proof (csv_read_row_ok eager number sep Hs c text line after n st Hc Hf Hcl Hnc Hr Hst) as R. split.
  - intros vs E L. rewrite E in R. rewrite (values_length number _ _ E), L, Nat.eqb_refl in R. exact R.
  - intros H. destruct (values_of number (fields sep line)) as [vs|] eqn:E; [|exact R]. destruct H as [H|H]; [|discriminate].
    rewrite (values_length number _ _ E) in R. rewrite (proj2 (Nat.eqb_neq _ _) H) in R. exact R.
Qed.
Print Assumptions C47_exact_count_partial.
(** csv_read: the rows of a document, see [rows_of]. *)
Theorem C47_matrix_partial : forall eager V (number : list Z -> option (V * nat)) sep n k text res st,
  separates number sep -> rows_of number sep n k text res -> at_text st text ->
  match res with
  | Some (vss, rest) => exists st', csv_read eager number sep k n st = Ok (vss, st') /\ at_text st' rest
  | None => csv_read eager number sep k n st = Throw csv_read_error
  end.
Proof. intros eager V number sep n k text res st Hs H Hst. exact (csv_read_ok eager number sep Hs n k text res H true st Hst). Qed.
Print Assumptions C47_matrix_partial.
(** On every text (and stream state) the functions return or throw csv_read_error; they
    terminate, and the assertions hold. *)
Definition returns_or_throws {A} (m : outcome A) : Prop := (exists a, m = Ok a) \/ m = Throw csv_read_error.
Theorem C47_only_csv_read_error : forall eager V (number : list Z -> option (V * nat)) sep n rows cols st,
  (forall s v k, number s = Some (v, k) -> 1 <= k <= length s) ->
  returns_or_throws (csv_read_row eager number sep n st) /\ returns_or_throws (csv_read eager number sep rows cols st) /\
  returns_or_throws (csv_read_row_std_vector eager number sep st).
Proof.
  intros eager V number sep n rows cols st Hn.
  assert (G : forall A (m : outcome A), fine m -> returns_or_throws m).
  { intros A m H. destruct m; cbn in H; [left; eauto|right; now rewrite H|destruct H|destruct H]. }
  split; [|split]; apply G.
  - unfold csv_read_row, new_reader. apply fine_bind; [apply one_row_fine|]. intros [[vs r] st1] _. exact I.
  - apply read_rows_fine.
  - now apply read_vector_fine.
Qed.
Print Assumptions C47_only_csv_read_error.
Example C47_too_few : csv_read_row true int32 44 3 (open (bytes "1,2")) = Throw csv_read_error. Proof. vm_compute. reflexivity. Qed.
Example C47_too_many : csv_read_row true int32 44 1 (open (bytes "1,2")) = Throw csv_read_error. Proof. vm_compute. reflexivity. Qed.
Example C47_malformed : csv_read_row true int32 44 2 (open (bytes "1,2x")) = Throw csv_read_error. Proof. vm_compute. reflexivity. Qed.
Example C47_overflow : csv_read_row true int32 44 2 (open (bytes "1,2147483648")) = Throw csv_read_error. Proof. vm_compute. reflexivity. Qed.
(** Only one plus is skipped, and from_chars accepts a minus behind it. *)
Example plus_minus : exists st, csv_read_row true int32 44 1 (open (bytes "+-5")) = Ok ([-5]%Z, st). Proof. eexists. vm_compute. reflexivity. Qed.
