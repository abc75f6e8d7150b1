(** C75: the text form of the trace logs. *)
From Verif Require Import Base Bytes Csv_Spec Csv_Model Print_Spec Print_Model Print_Ints TraceLine_Spec TraceLine_Model.
Local Open Scope Z_scope.

Lemma quoted_prefix_free n1 : forall n2 r1 r2,
  flat_map escape1 n1 ++ 34 :: r1 = flat_map escape1 n2 ++ 34 :: r2 -> n1 = n2 /\ r1 = r2.
Proof.
  induction n1 as [|c n1 IH]; intros [|c2 n2] r1 r2 E; cbn [flat_map] in E.
  - cbn [app] in E. injection E as E. auto.
  - exfalso. unfold escape1 in E at 1. destruct (Z.eqb_spec c2 34), (Z.eqb_spec c2 92); cbn [orb app] in E; injection E as E; lia.
  - exfalso. unfold escape1 in E at 1. destruct (Z.eqb_spec c 34), (Z.eqb_spec c 92); cbn [orb app] in E; injection E as E; lia.
  - assert (H : c = c2 /\ flat_map escape1 n1 ++ 34 :: r1 = flat_map escape1 n2 ++ 34 :: r2).
    { rewrite <- !app_assoc in E. unfold escape1 at 1 3 in E.
      destruct (Z.eqb_spec c 34), (Z.eqb_spec c 92), (Z.eqb_spec c2 34), (Z.eqb_spec c2 92); cbn [orb app] in E; injection E as; subst; auto; try lia; congruence. }
    destruct H as [-> H]. destruct (IH _ _ _ H) as [-> ->]. auto.
Qed.

Definition numeric (c : Z) : Prop := c = 45 \/ 48 <= c <= 57.

Lemma until_separator (a b : list Z) x r y q : Forall numeric a -> Forall numeric b -> ~ numeric x -> ~ numeric y ->
  a ++ x :: r = b ++ y :: q -> a = b /\ x = y /\ r = q.
Proof.
  intros A. revert b. induction A as [|c a H A IH]; intros b B X Y E.
  - destruct B as [|c b H B]; cbn [app] in E; injection E as -> E; [auto|contradiction].
  - destruct B as [|c2 b H2 B]; cbn [app] in E; injection E as -> E; [contradiction|].
    destruct (IH b B X Y E) as (-> & -> & ->). auto.
Qed.

Lemma show_numeric n : Forall numeric (show_int n).
Proof. apply Forall_forall. intros c H. exact (show_int_chars n c H). Qed.

Lemma show_inj a b : show_int a = show_int b -> a = b.
Proof.
  intros E. pose proof (show_int_value (Z.min a b) (Z.max a b) a ltac:(lia)) as A.
  pose proof (show_int_value (Z.min a b) (Z.max a b) b ltac:(lia)) as B. rewrite E, B in A. now injection A as ->.
Qed.

Lemma show_sep a b x r y q : ~ numeric x -> ~ numeric y -> show_int a ++ x :: r = show_int b ++ y :: q -> a = b /\ r = q.
Proof.
  intros X Y E. destruct (until_separator _ _ _ _ _ _ (show_numeric a) (show_numeric b) X Y E) as (E1 & _ & E2).
  split; [now apply show_inj|exact E2].
Qed.

Lemma line_unique l1 l2 r1 r2 : print_log l1 ++ 10 :: r1 = print_log l2 ++ 10 :: r2 -> l1 = l2 /\ r1 = r2.
Proof.
  destruct l1 as [n1 i1 s1 d1 t1 f1], l2 as [n2 i2 s2 d2 t2 f2]. unfold print_log, quoted.
  cbn [name instance start_time duration thread_id flop_count]. intros E. cbn [app] in E. injection E as E.
  rewrite <- !app_assoc in E. cbn [app] in E.
  destruct (quoted_prefix_free _ _ _ _ E) as [-> E1]. injection E1 as E1.
  assert (C : ~ numeric 44) by (unfold numeric; lia). assert (N : ~ numeric 10) by (unfold numeric; lia).
  rewrite <- !app_assoc in E1. cbn [app] in E1.
  destruct (show_sep _ _ _ _ _ _ C C E1) as [-> E2]. rewrite <- !app_assoc in E2. cbn [app] in E2.
  destruct (show_sep _ _ _ _ _ _ C C E2) as [-> E3]. rewrite <- !app_assoc in E3. cbn [app] in E3.
  destruct (show_sep _ _ _ _ _ _ C C E3) as [-> E4]. rewrite <- !app_assoc in E4. cbn [app] in E4.
  destruct (show_sep _ _ _ _ _ _ C C E4) as [-> E5].
  destruct (show_sep _ _ _ _ _ _ N N E5) as [-> E6]. auto.
Qed.

(** A file of logs determines the logs: no two different lists of logs are written
    alike, whatever characters the names contain. *)
Theorem C75_logs_recoverable :
  forall logs logs', print_logs logs = print_logs logs' -> logs = logs'.
Proof.
  induction logs as [|l logs IH]; intros [|l' logs'] E; cbn [print_logs flat_map] in E.
  - reflexivity.
  - exfalso. apply (f_equal (@length Z)) in E. rewrite !app_length in E. cbn in E. lia.
  - exfalso. apply (f_equal (@length Z)) in E. rewrite !app_length in E. cbn in E. lia.
  - rewrite <- !app_assoc in E. cbn [app] in E. destruct (line_unique _ _ _ _ E) as [-> E']. f_equal. now apply IH.
Qed.
Print Assumptions C75_logs_recoverable.

(** Fields without quotes or commas, in an RFC 4180 record. *)
Lemma plain_fields : forall f acc rest, Forall numeric f ->
  fields Plain acc (f ++ 44 :: rest) = match fields Start [] rest with Some fs => Some ((acc ++ f) :: fs) | None => None end.
Proof.
  induction f as [|c f IH]; intros acc rest F; cbn [app fields].
  - now rewrite app_nil_r.
  - inversion F as [|c' f' H F']; subst. unfold numeric in H.
    rewrite (proj2 (Z.eqb_neq c 34)), (proj2 (Z.eqb_neq c 44)) by lia. rewrite IH by exact F'. now rewrite <- app_assoc.
Qed.

Lemma plain_last : forall f acc, Forall numeric f -> fields Plain acc f = Some [acc ++ f].
Proof.
  induction f as [|c f IH]; intros acc F; cbn [fields]; [now rewrite app_nil_r|].
  inversion F as [|c' f' H F']; subst. unfold numeric in H.
  rewrite (proj2 (Z.eqb_neq c 34)), (proj2 (Z.eqb_neq c 44)) by lia. rewrite IH by exact F'. now rewrite <- app_assoc.
Qed.

Lemma number_field n rest :
  fields Start [] (show_int n ++ 44 :: rest) = match fields Start [] rest with Some fs => Some (show_int n :: fs) | None => None end.
Proof.
  pose proof (show_numeric n) as F. destruct (show_int n) as [|c f] eqn:E; [now apply show_int_nonempty in E|].
  inversion F as [|c' f' H F']; subst. cbn [app fields]. unfold numeric in H.
  rewrite (proj2 (Z.eqb_neq c 34)), (proj2 (Z.eqb_neq c 44)) by lia. now rewrite plain_fields.
Qed.

Lemma number_last n : fields Start [] (show_int n) = Some [show_int n].
Proof.
  pose proof (show_numeric n) as F. destruct (show_int n) as [|c f] eqn:E; [now apply show_int_nonempty in E|].
  inversion F as [|c' f' H F']; subst. cbn [fields]. unfold numeric in H.
  rewrite (proj2 (Z.eqb_neq c 34)), (proj2 (Z.eqb_neq c 44)) by lia. now rewrite plain_last.
Qed.

(** The numbers of a line. *)
Definition numbers (l : log) : list (list Z) :=
  map show_int [instance l; start_time l; duration l; thread_id l; flop_count l].

Definition tail_of (l : log) : list Z :=
  show_int (instance l) ++ 44 :: show_int (start_time l) ++ 44 :: show_int (duration l) ++ 44 ::
  show_int (thread_id l) ++ 44 :: show_int (flop_count l).

Lemma tail_fields l : fields Start [] (tail_of l) = Some (numbers l).
Proof. unfold tail_of. now rewrite !number_field, number_last. Qed.

Lemma print_tail l : print_log l = 34 :: flat_map escape1 (name l) ++ 34 :: 44 :: tail_of l.
Proof. unfold print_log, quoted, tail_of. cbn [app]. f_equal. rewrite <- !app_assoc. reflexivity. Qed.

Lemma quoted_run : forall s acc rest, ~ In 34 s ->
  fields Quoted acc (s ++ rest) = fields Quoted (acc ++ s) rest.
Proof.
  induction s as [|c s IH]; intros acc rest NQ; cbn [app]; [now rewrite app_nil_r|]. cbn [fields].
  rewrite (proj2 (Z.eqb_neq c 34)) by (intros ->; apply NQ; now left). rewrite IH by (intros Q; apply NQ; now right).
  now rewrite <- app_assoc.
Qed.

Lemma after_quote acc r : fields AfterQuote acc (34 :: r) = fields Quoted (acc ++ [34]) r.
Proof. reflexivity. Qed.

Lemma escape_no_quote s : ~ In 34 s -> ~ In 34 (flat_map escape1 s).
Proof.
  intros N Q. apply in_flat_map in Q as (c & Hc & Q). unfold escape1 in Q.
  assert (c <> 34) by (intros ->; contradiction). rewrite (proj2 (Z.eqb_neq c 34)) in Q by assumption. cbn [orb] in Q.
  destruct (Z.eqb c 92); cbn in Q; lia.
Qed.

Lemma escape_length s : (length s <= length (flat_map escape1 s))%nat /\ (In 92 s -> (length s < length (flat_map escape1 s))%nat).
Proof.
  induction s as [|c s [I1 I2]]; [cbn; split; [lia|intros []]|]. cbn [flat_map]. rewrite app_length. cbn [length].
  assert (E : (1 <= length (escape1 c))%nat /\ (c = 92 -> length (escape1 c) = 2%nat)).
  { unfold escape1. destruct (Z.eqb_spec c 34), (Z.eqb_spec c 92); cbn; lia. }
  destruct E as [E1 E2]. split; [lia|]. intros [Q|Q]; [specialize (E2 Q); lia|specialize (I2 Q); lia].
Qed.

Lemma escape_id s : ~ In 34 s -> ~ In 92 s -> flat_map escape1 s = s.
Proof.
  induction s as [|c s IH]; intros A B; [reflexivity|]. cbn [flat_map].
  assert (E : escape1 c = [c]).
  { unfold escape1. destruct (Z.eqb_spec c 34) as [->|]; [destruct A; now left|].
    destruct (Z.eqb_spec c 92) as [->|]; [destruct B; now left|reflexivity]. }
  rewrite E. cbn [app]. f_equal. apply IH; intros Q; [apply A|apply B]; now right.
Qed.

Lemma first_quote (s : list Z) : In 34 s -> exists a b, s = a ++ 34 :: b /\ ~ In 34 a.
Proof.
  induction s as [|c s IH]; intros Q; [destruct Q|]. destruct (Z.eq_dec c 34) as [->|N].
  - exists [], s. cbn. auto.
  - destruct Q as [Q|Q]; [congruence|]. destruct (IH Q) as (a & b & -> & A). exists (c :: a), b. split; [reflexivity|].
    intros [Q'|Q']; [congruence|contradiction].
Qed.

(** The headings name the six fields of a line, in the same order. *)
Theorem C75_headings :
  rfc4180 column_headings =
  Some (map bytes ["name"; "instance"; "start_time"; "duration"; "thread_id"; "flop_count"]%string).
Proof. reflexivity. Qed.
Print Assumptions C75_headings.

(** As a CSV record (RFC 4180, which the comma-separated headings suggest), a line has
    the six fields name, instance, start_time, duration, thread_id, flop_count (the
    numbers in decimal) if and only if the name contains neither quotes nor
    backslashes. *)
Theorem C75_csv_record_partial :
  forall l, rfc4180 (print_log l) = Some (name l :: map show_int [instance l; start_time l; duration l; thread_id l; flop_count l])
  <-> (~ In 34 (name l) /\ ~ In 92 (name l)).
Proof.
  intros l. unfold rfc4180. rewrite print_tail. cbn [fields]. change (34 =? 34) with true. cbv iota. split.
  - intros H.
    assert (NQ : ~ In 34 (name l)).
    { intros Q. destruct (first_quote _ Q) as (a & b & E & NA). rewrite E in H at 1.
      rewrite flat_map_app in H. cbn [flat_map] in H. change (escape1 34) with [92; 34] in H. rewrite <- app_assoc in H.
      rewrite quoted_run in H by (apply escape_no_quote; exact NA). cbn [app] in H. cbn [fields] in H.
      change (92 =? 34) with false in H. change (34 =? 34) with true in H. cbv iota in H.
      destruct b as [|c b].
      - cbn [flat_map app] in H. rewrite after_quote in H.
        assert (NT : ~ In 34 (44 :: tail_of l)).
        { unfold tail_of. intros K. cbn [In] in K.
          repeat (destruct K as [K|K]; [lia|apply in_app_or in K as [K|K]; [apply show_int_chars in K; lia|]]). destruct K as [K|K]; [lia|]. apply show_int_chars in K. lia. }
        rewrite <- (app_nil_r (44 :: tail_of l)) in H. rewrite quoted_run in H by exact NT. cbn [fields] in H. discriminate H.
      - cbn [flat_map] in H. unfold escape1 in H at 2. destruct (orb (c =? 34) (c =? 92)) eqn:EQ.
        + cbn [app fields] in H. change (92 =? 34) with false in H. change (92 =? 44) with false in H. cbv iota in H. discriminate H.
        + apply Bool.orb_false_iff in EQ as [EQ _]. cbn [app fields] in H. rewrite EQ in H. destruct (c =? 44); [|discriminate H].
          destruct (fields Start [] _) as [fs|]; [|discriminate H]. injection H as H _.
          apply (f_equal (In 34)) in H. assert (K : In 34 (name l)) by (rewrite E; apply in_or_app; right; now left).
          rewrite <- H in K. apply in_app_or in K as [K|K]; [exact (escape_no_quote a NA K)|cbn in K; lia]. }
    split; [exact NQ|]. intros Q. rewrite quoted_run in H by now apply escape_no_quote. cbn [app fields] in H.
    change (34 =? 34) with true in H. change (44 =? 34) with false in H. change (44 =? 44) with true in H. cbv iota in H.
    rewrite tail_fields in H. injection H as H. apply (f_equal (@length Z)) in H. pose proof (proj2 (escape_length (name l)) Q). lia.
  - intros [A B]. rewrite quoted_run by now apply escape_no_quote. cbn [app fields].
    change (34 =? 34) with true. change (44 =? 34) with false. change (44 =? 44) with true. cbv iota.
    rewrite tail_fields. now rewrite escape_id.
Qed.
Print Assumptions C75_csv_record_partial.

(** The numbers are the usual decimals. *)
Theorem C75_decimal : forall n, is_decimal n (show_int n).
Proof. exact show_int_decimal. Qed.
Print Assumptions C75_decimal.

(** A name with a quote: not a CSV record at all; one with a backslash: another name. *)
Theorem C75_csv_record_refuted :
  rfc4180 (print_log (Log (bytes "a" ++ [34]) 1 2 3 4 5)) = None /\
  rfc4180 (print_log (Log [92] 1 2 3 4 5)) = Some ([92; 92] :: map show_int [1; 2; 3; 4; 5]).
Proof. split; vm_compute; reflexivity. Qed.
Print Assumptions C75_csv_record_refuted.

Example C75_nonvacuous :
  print_log (Log (bytes "f(x, y)") (-1) 20 7 9 0) = [34] ++ bytes "f(x, y)" ++ [34] ++ bytes ",-1,20,7,9,0" /\
  rfc4180 (print_log (Log (bytes "f(x, y)") (-1) 20 7 9 0)) = Some (map bytes ["f(x, y)"; "-1"; "20"; "7"; "9"; "0"]%string) /\
  print_log (Log ([34] ++ bytes "q") 1 2 3 4 5) = [34; 92; 34] ++ bytes "q" ++ [34] ++ bytes ",1,2,3,4,5".
Proof. repeat split; vm_compute; reflexivity. Qed.
