(** Proofs about the CSV reader (C44-C47). *)
From Verif Require Import Base Csv_Spec Csv_Model.
Local Open Scope outcome_scope.
Local Arguments Nat.eqb : simpl never.
Local Arguments Nat.ltb : simpl never.
Local Arguments Nat.sub : simpl never.
Local Arguments Z.eqb : simpl never.

Definition tail (after : option (list Z)) : list Z := match after with Some r => newline :: r | None => [] end.
Definition text_after (after : option (list Z)) : list Z := match after with Some r => r | None => [] end.

Lemma first_line_iff text : forall line after, first_line text = (line, after) <-> text = line ++ tail after /\ ~ In newline line.
Proof.
  induction text as [|c t IH]; intros line after; cbn [first_line].
  - split.
    + intros E. injection E as <- <-. auto.
    + intros [E H]. destruct line; [|discriminate]. destruct after; [discriminate|reflexivity].
  - destruct (Z.eqb_spec c newline) as [->|N].
    + split.
      * intros E. injection E as <- <-. auto.
      * intros [E H]. destruct line as [|d line]; [destruct after; [|discriminate]; inversion E; subst; reflexivity|].
        inversion E; subst. exfalso. apply H. now left.
    + destruct (first_line t) as [l a] eqn:F. split.
      * intros E. injection E as <- <-. destruct (proj1 (IH l a) eq_refl) as [-> H]. split; [reflexivity|]. intros [K|K]; [congruence|auto].
      * intros [E H]. destruct line as [|d line]; [destruct after; [inversion E; subst; now elim N|discriminate]|].
        injection E as <- E. assert (K : (l, a) = (line, after)); [|injection K as -> ->; reflexivity].
        apply IH. split; auto. intros K. apply H. now right.
Qed.

(** ** Pieces and fields *)
Lemma pieces_nonempty sep l : pieces sep l <> [].
Proof. destruct l as [|c l]; cbn; [discriminate|]. destruct (Z.eqb c sep); [discriminate|]. destruct (pieces sep l); discriminate. Qed.
Lemma pieces_no_sep sep p : ~ In sep p -> pieces sep p = [p].
Proof.
  induction p as [|c p IH]; intros H; cbn [pieces]; auto. destruct (Z.eqb_spec c sep) as [->|N]; [exfalso; apply H; now left|].
  rewrite IH by (intros K; apply H; now right). reflexivity.
Qed.
Lemma pieces_sep sep p l : ~ In sep p -> pieces sep (p ++ sep :: l) = p :: pieces sep l.
Proof.
  induction p as [|c p IH]; intros H; cbn [pieces app].
  - rewrite Z.eqb_refl. reflexivity.
  - destruct (Z.eqb_spec c sep) as [->|N]; [exfalso; apply H; now left|]. rewrite IH by (intros K; apply H; now right). reflexivity.
Qed.
Lemma fields_one sep p : ~ In sep p -> p <> [] -> fields sep p = [p].
Proof. intros H Hp. unfold fields. rewrite pieces_no_sep by auto. destruct p; [congruence|reflexivity]. Qed.
Lemma fields_cons sep p l : ~ In sep p -> fields sep (p ++ sep :: l) = p :: fields sep l.
Proof.
  intros H. unfold fields. rewrite pieces_sep by auto. cbn [drop_last_empty].
  destruct p; [|reflexivity]. destruct (pieces sep l) eqn:E; [now elim (pieces_nonempty sep l)|reflexivity].
Qed.
(** A line is empty, or one field, or a field, a separator and a line. *)
Lemma cut_line sep (l : list Z) : l = [] \/ (l <> [] /\ ~ In sep l) \/ exists p l', l = p ++ sep :: l' /\ ~ In sep p.
Proof.
  induction l as [|c l IH]; [now left|right]. destruct (Z.eq_dec c sep) as [->|N].
  - right. exists [], l. auto.
  - destruct IH as [->|[[H1 H2]|(p & l' & -> & H)]].
    + left. split; [discriminate|]. intros [K|[]]; auto.
    + left. split; [discriminate|]. intros [K|K]; auto.
    + right. exists (c :: p), l'. split; [reflexivity|]. intros [K|K]; auto.
Qed.
Lemma fields_nonempty sep l : l <> [] -> fields sep l <> [].
Proof.
  intros H. destruct (cut_line sep l) as [->|[[_ H2]|(p & l' & -> & Hp)]]; [congruence| |].
  - rewrite fields_one by auto. discriminate.
  - rewrite fields_cons by auto. discriminate.
Qed.

Lemma incl_firstn_in {A} k (l : list A) x : In x (firstn k l) -> In x l.
Proof. rewrite <- (firstn_skipn k l) at 2. intros H. apply in_or_app. now left. Qed.
Section Reader.
Context (eager : bool) {V : Type} (number : list Z -> option (V * nat)) (sep : Z) (Hsep : separates number sep).

Definition at_end (st : stream) (after : option (list Z)) : Prop :=
  match after with Some r => st = open (newline :: r) | None => rest st = [] /\ eof st = true end.
(** The reader is inside a line: [l] is what remains of it, in the buffer and in the stream. *)
Definition rep (r : reader) (st : stream) (l : list Z) (after : option (list Z)) : Prop :=
  ~ In newline l /\ length (buf r) <= 64 /\ exists l2, l = buf r ++ l2 /\
  if keep_reading r then l2 <> [] /\ st = open (l2 ++ tail after) else l2 = [] /\ at_end st after.

Lemma take_line_tail k : forall l after, ~ In newline l -> take_line k (l ++ tail after) = firstn k l.
Proof.
  induction k as [|k IH]; intros l after H; [reflexivity|]. destruct l as [|c l]; cbn [app take_line firstn].
  - destruct after; reflexivity.
  - destruct (Z.eqb_spec c newline) as [->|N]; [exfalso; apply H; now left|]. rewrite IH; [reflexivity|]. intros K. apply H. now right.
Qed.
(** One chunk, with room in the buffer. *)
Lemma chunk r l2 after : ~ In newline (buf r ++ l2) -> length (buf r) < 64 -> l2 <> [] ->
  exists r' st', read_chunk eager r (open (l2 ++ tail after)) = Ok (r', st') /\ rep r' st' (buf r ++ l2) after /\
    (keep_reading r' = false \/ length (buf r') = 64) /\ buf r' <> [] /\ (exists b, buf r' = buf r ++ b) /\ length (rest st') < length (l2 ++ tail after).
Proof.
  intros Hn Hl H2. unfold read_chunk. cbn [fail open].
  replace (Nat.eqb bufmaxsize (length (buf r))) with false by (symmetry; apply Nat.eqb_neq; unfold bufmaxsize; lia).
  unfold get_n. cbn [good eof fail open negb andb rest].
  assert (Hn2 : ~ In newline l2) by (intros K; apply Hn; apply in_or_app; now right).
  set (k := bufmaxsize - length (buf r)). assert (Hk : 1 <= k) by (unfold k, bufmaxsize; lia).
  rewrite take_line_tail by auto. set (t := firstn k l2).
  assert (Ht : length t = Nat.min k (length l2)) by (unfold t; apply firstn_length).
  assert (Hl2 : 1 <= length l2) by (destruct l2; [congruence|cbn; lia]).
  replace (skipn (length t) (l2 ++ tail after)) with (skipn k l2 ++ tail after).
  2: { rewrite Ht. destruct (Nat.le_ge_cases k (length l2)).
       - rewrite Nat.min_l by lia. rewrite skipn_app. replace (k - length l2) with 0 by lia. reflexivity.
       - rewrite Nat.min_r by lia. rewrite skipn_app, !skipn_all2 by lia. replace (length l2 - length l2) with 0 by lia. reflexivity. }
  replace (Nat.eqb (length t) 0) with false by (symmetry; apply Nat.eqb_neq; lia). cbn [fail].
  assert (Hb : buf r ++ l2 = (buf r ++ t) ++ skipn k l2) by (rewrite <- app_assoc; unfold t; now rewrite firstn_skipn).
  assert (Hbuf : length (buf r ++ t) <= 64) by (rewrite app_length; unfold k, bufmaxsize in *; lia).
  assert (Hne : buf r ++ t <> []) by (intros E; apply app_eq_nil in E; destruct E as [_ E]; rewrite E in Ht; cbn in Ht; lia).
  assert (Hsh : length (skipn k l2 ++ tail after) < length (l2 ++ tail after)) by (rewrite !app_length, skipn_length; lia).
  destruct (skipn k l2) as [|d l3] eqn:El; cbn [app] in *.
  - rewrite app_nil_r in Hb. destruct after as [r0|]; cbn [tail] in *.
    + unfold peek. cbn [good open eof fail negb andb rest is_end]. rewrite Z.eqb_refl.
      do 2 eexists. split; [reflexivity|]. split; [|cbn [keep_reading buf rest negb andb]; repeat split; eauto].
      split; [exact Hn|]. cbn [buf keep_reading negb andb]. split; [exact Hbuf|]. exists []. rewrite app_nil_r. split; [exact Hb|]. split; reflexivity.
    + set (e := eager || Nat.ltb (length t) k). unfold peek. cbn [good open eof fail negb andb rest].
      destruct e; cbn [good open eof fail negb andb rest set_fail is_end].
      all: do 2 eexists; split; [reflexivity|]; split; [|cbn [keep_reading buf rest negb andb]; repeat split; eauto];
      (split; [exact Hn|]; cbn [buf keep_reading negb andb]; split; [exact Hbuf|]; exists []; rewrite app_nil_r; split; [exact Hb|]; split; [reflexivity|]; split; reflexivity).
  - unfold peek. cbn [good open eof fail negb andb rest is_end].
    assert (Hd : Z.eqb d newline = false).
    { apply Z.eqb_neq. intros ->. apply Hn. rewrite Hb. apply in_or_app. right. now left. }
    rewrite Hd. cbn [negb andb].
    assert (Hk2 : k < length l2). { destruct (Nat.lt_ge_cases k (length l2)) as [K|K]; auto. rewrite skipn_all2 in El by lia. discriminate. }
    do 2 eexists. split; [reflexivity|]. split.
    + split; [exact Hn|]. cbn [buf keep_reading]. split; [exact Hbuf|]. exists (d :: l3). split; [exact Hb|]. split; [discriminate|reflexivity].
    + cbn [keep_reading buf rest]. split; [right; rewrite app_length; unfold k, bufmaxsize in *; lia|]. split; [auto|]. split; [eauto|exact Hsh].
Qed.
(** The start of read: refill if necessary. *)
Lemma refill r st l after : rep r st l after ->
  exists r' st', (if keep_reading r then read_chunk eager r st else Ok (r, st)) = Ok (r', st') /\ rep r' st' l after /\
    (keep_reading r' = false \/ length (buf r') = 64).
Proof.
  intros H. pose proof H as (Hn & Hl & l2 & -> & Hk). destruct (keep_reading r) eqn:K.
  - destruct Hk as [H2 ->]. destruct (Nat.eq_dec (length (buf r)) 64) as [E|E].
    + exists r, (open (l2 ++ tail after)). split; [|split; [exact H|auto]]. unfold read_chunk. cbn [fail open].
      unfold bufmaxsize. rewrite E, Nat.eqb_refl. reflexivity.
    + destruct (chunk r l2 after Hn) as (r' & st' & E' & R & F & _); auto; [lia|]. eauto.
  - exists r, st. auto.
Qed.

(** ** Fields *)
Lemma number_nil : number [] = None.
Proof.
  destruct Hsep as (_ & _ & H & _). destruct (number []) as [[v k]|] eqn:E; auto. apply H in E. cbn in E. lia.
Qed.
Lemma value_nil : value_of number [] = None.
Proof. unfold value_of. cbn. now rewrite number_nil. Qed.
Lemma single_end p : read_single number p = match number (strip_plus p) with
  | Some (v, k) => Ok (v, length p - length (strip_plus p) + k) | None => Throw csv_read_error end.
Proof.
  unfold read_single, strip_plus. destruct p as [|c p]; [reflexivity|]. destruct (Z.eqb c plus); destruct (number _) as [[v k]|]; auto; f_equal; f_equal; cbn [length]; lia.
Qed.
Lemma single_sep p b : ~ In sep p -> read_single number (p ++ sep :: b) = read_single number p.
Proof.
  destruct Hsep as (_ & Hp & _ & Hloc). intros H. unfold read_single. destruct p as [|c p]; cbn [app].
  - replace (Z.eqb sep plus) with false by (symmetry; now apply Z.eqb_neq). pose proof (Hloc [] b (fun K => K)) as E. cbn [app] in E. rewrite E. reflexivity.
  - destruct (Z.eqb c plus).
    + rewrite Hloc by (intros K; apply H; now right). reflexivity.
    + pose proof (Hloc (c :: p) b H) as E. cbn [app] in E. rewrite E. reflexivity.
Qed.
Lemma skipn_last p v k : read_single number p = Ok (v, k) -> k <= length p /\ (value_of number p = Some v <-> k = length p) /\ (k <> length p -> value_of number p = None).
Proof.
  rewrite single_end. unfold value_of. destruct Hsep as (_ & _ & Hb & _). destruct (number (strip_plus p)) as [[w j]|] eqn:E; [|discriminate].
  intros H. injection H as -> <-. apply Hb in E.
  assert (L : length (strip_plus p) <= length p) by (unfold strip_plus; destruct p as [|c p]; auto; destruct (Z.eqb c plus); cbn; lia).
  split; [lia|]. destruct (Nat.eqb_spec j (length (strip_plus p))) as [->|N].
  - split; [split; [intros _; lia|auto]|]. intros K. lia.
  - split; [split; [discriminate|intros; lia]|auto].
Qed.

(** read of the last field of a line *)
Lemma read_last_short r st p after : rep r st p after -> p <> [] -> ~ In sep p -> length p < 64 ->
  match value_of number p with
  | Some v => exists st', read eager number sep r st = Ok (v, Reader [] false, st') /\ at_end st' after
  | None => read eager number sep r st = Throw csv_read_error
  end.
Proof.
  intros H Hp Hs Hl. destruct (refill r st p after H) as (r' & st' & E & (Hn & Hb & l2 & Ep & Hk) & F). unfold read. rewrite E. cbn [bind].
  assert (Hk' : keep_reading r' = false).
  { destruct F as [F|F]; auto. rewrite Ep, app_length in Hl. lia. }
  rewrite Hk' in *. destruct Hk as [-> He]. rewrite app_nil_r in Ep. rewrite <- Ep in *.
  destruct (read_single number p) as [[v k]|e| |] eqn:Es; cbn [bind].
  - destruct (skipn_last p v k Es) as (Hle & Hv & Hv'). destruct (Nat.eq_dec k (length p)) as [->|N].
    + rewrite (proj2 Hv eq_refl). rewrite skipn_all. eauto.
    + rewrite (Hv' N). destruct (skipn k p) as [|c t] eqn:Ek.
      * assert (length (skipn k p) = 0) by now rewrite Ek. rewrite skipn_length in *. lia.
      * replace (Z.eqb c sep) with false; auto. symmetry. apply Z.eqb_neq. intros ->. apply Hs. rewrite <- (firstn_skipn k p), Ek. apply in_or_app. right. now left.
  - unfold value_of. rewrite single_end in Es. destruct (number (strip_plus p)) as [[v k]|]; [discriminate|]. congruence.
  - rewrite single_end in Es. destruct (number (strip_plus p)) as [[v k]|]; discriminate.
  - rewrite single_end in Es. destruct (number (strip_plus p)) as [[v k]|]; discriminate.
Qed.
(** read of a field that is followed by a separator *)
Lemma read_first_short r st p l after : rep r st (p ++ sep :: l) after -> ~ In sep p -> length p < 64 ->
  match value_of number p with
  | Some v => exists r' st', read eager number sep r st = Ok (v, r', st') /\ rep r' st' l after
  | None => read eager number sep r st = Throw csv_read_error
  end.
Proof.
  intros H Hs Hl. destruct (refill r st _ after H) as (r' & st' & E & (Hn & Hb & l2 & Ep & Hk) & F). unfold read. rewrite E. cbn [bind].
  assert (Hbuf : exists b, buf r' = p ++ sep :: b /\ l = b ++ l2).
  { assert (Hlen : length p < length (buf r')).
    { destruct F as [F|F]; [|lia]. rewrite F in Hk. destruct Hk as [-> _]. rewrite app_nil_r in Ep. rewrite <- Ep, app_length. cbn. lia. }
    assert (Ef : firstn (length p) (buf r') = p).
    { apply (f_equal (firstn (length p))) in Ep. rewrite firstn_app, Nat.sub_diag, firstn_O, app_nil_r, firstn_all in Ep.
      rewrite firstn_app in Ep. replace (length p - length (buf r')) with 0 in Ep by lia. rewrite firstn_O, app_nil_r in Ep. auto. }
    assert (Hx : buf r' = p ++ skipn (length p) (buf r')) by (rewrite <- Ef at 1; now rewrite firstn_skipn).
    rewrite Hx, <- app_assoc in Ep. apply app_inv_head in Ep.
    destruct (skipn (length p) (buf r')) as [|c b] eqn:Ek.
    - assert (L0 : length (skipn (length p) (buf r')) = 0) by now rewrite Ek. rewrite skipn_length in L0. lia.
    - cbn in Ep. injection Ep as <- ->. exists b. auto. }
  destruct Hbuf as (b & Hbuf & ->). rewrite Hbuf, single_sep by auto.
  destruct (read_single number p) as [[v k]|e| |] eqn:Es; cbn [bind].
  - destruct (skipn_last p v k Es) as (Hle & Hv & Hv'). destruct (Nat.eq_dec k (length p)) as [->|N].
    + rewrite (proj2 Hv eq_refl). rewrite skipn_app, skipn_all, Nat.sub_diag. cbn [app skipn]. rewrite Z.eqb_refl.
      do 2 eexists. split; [reflexivity|]. split; [|split].
      * intros K. apply Hn. apply in_or_app. right. right. exact K.
      * cbn [buf]. rewrite Hbuf, app_length in Hb. cbn in Hb. lia.
      * cbn [buf keep_reading]. exists l2. auto.
    + rewrite (Hv' N). rewrite skipn_app. destruct (skipn k p) as [|c t] eqn:Ek.
      * assert (L0 : length (skipn k p) = 0) by now rewrite Ek. rewrite skipn_length in L0. lia.
      * cbn [app]. replace (Z.eqb c sep) with false; auto. symmetry. apply Z.eqb_neq. intros ->. apply Hs. rewrite <- (firstn_skipn k p), Ek. apply in_or_app. right. now left.
  - unfold value_of. rewrite single_end in Es. destruct (number (strip_plus p)) as [[v k]|]; [discriminate|]. congruence.
  - rewrite single_end in Es. destruct (number (strip_plus p)) as [[v k]|]; discriminate.
  - rewrite single_end in Es. destruct (number (strip_plus p)) as [[v k]|]; discriminate.
Qed.
(** A longer field whose first 64 characters are not a number. *)
Lemma read_long r st p more after : rep r st (p ++ more) after -> ~ In sep p -> 64 <= length p -> value_of number (firstn 64 p) = None ->
  read eager number sep r st = Throw csv_read_error.
Proof.
  intros H Hs Hl Hv. destruct (refill r st _ after H) as (r' & st' & E & (Hn & Hb & l2 & Ep & Hk) & F). unfold read. rewrite E. cbn [bind].
  assert (Hlen : length (buf r') = 64).
  { destruct F as [F|F]; [|exact F]. rewrite F in Hk. destruct Hk as [-> _]. rewrite app_nil_r in Ep. apply (f_equal (@length Z)) in Ep. rewrite app_length in Ep. lia. }
  assert (Ef : buf r' = firstn 64 p).
  { apply (f_equal (firstn 64)) in Ep. rewrite !firstn_app, Hlen in Ep. replace (64 - length p) with 0 in Ep by lia. rewrite Nat.sub_diag, !firstn_O, !app_nil_r in Ep.
    rewrite (firstn_all2 (buf r')) in Ep by lia. auto. }
  rewrite Ef. set (q := firstn 64 p) in *. assert (Hq : ~ In sep q) by (intros K; apply Hs; eapply incl_firstn_in; exact K).
  destruct (read_single number q) as [[v k]|e| |] eqn:Es; cbn [bind].
  - destruct (skipn_last q v k Es) as (Hle & Hv1 & _). destruct (skipn k q) as [|c t] eqn:Ek.
    + assert (L0 : length (skipn k q) = 0) by now rewrite Ek. rewrite skipn_length in L0. assert (k = length q) by lia. apply Hv1 in H0. congruence.
    + replace (Z.eqb c sep) with false; auto. symmetry. apply Z.eqb_neq. intros ->. apply Hq. rewrite <- (firstn_skipn k q), Ek. apply in_or_app. right. now left.
  - rewrite single_end in Es. destruct (number (strip_plus q)) as [[v k]|]; [discriminate|]. congruence.
  - rewrite single_end in Es. destruct (number (strip_plus q)) as [[v k]|]; discriminate.
  - rewrite single_end in Es. destruct (number (strip_plus q)) as [[v k]|]; discriminate.
Qed.
Lemma read_last r st p after : rep r st p after -> p <> [] -> ~ In sep p -> readable number p ->
  match value_of number p with
  | Some v => exists st', read eager number sep r st = Ok (v, Reader [] false, st') /\ at_end st' after
  | None => read eager number sep r st = Throw csv_read_error
  end.
Proof.
  intros H Hp Hs [Hl|[H1 H2]]; [now apply read_last_short|]. destruct (Nat.lt_ge_cases (length p) 64) as [Hl|Hl]; [now apply read_last_short|].
  rewrite H1. rewrite <- (app_nil_r p) in H. eapply read_long; eauto.
Qed.
Lemma read_first r st p l after : rep r st (p ++ sep :: l) after -> ~ In sep p -> readable number p ->
  match value_of number p with
  | Some v => exists r' st', read eager number sep r st = Ok (v, r', st') /\ rep r' st' l after
  | None => read eager number sep r st = Throw csv_read_error
  end.
Proof.
  intros H Hs [Hl|[H1 H2]]; [now apply read_first_short|]. destruct (Nat.lt_ge_cases (length p) 64) as [Hl|Hl]; [now apply read_first_short|].
  rewrite H1. eapply read_long; eauto.
Qed.
Lemma rep_nil r st after : rep r st [] after -> r = Reader [] false /\ at_end st after.
Proof.
  intros (_ & _ & l2 & E & Hk). symmetry in E. apply app_eq_nil in E. destruct E as [E ->]. destruct r as [b k]. cbn in *. subst b.
  destruct k; [now destruct Hk|]. split; [reflexivity|apply Hk].
Qed.
Lemma at_end_rep st after : at_end st after -> rep (Reader [] false) st [] after.
Proof. intros H. split; [intros []|]. split; [cbn; lia|]. exists []. split; [reflexivity|]. cbn. auto. Qed.
Lemma read_nil st : read eager number sep (Reader [] false) st = Throw csv_read_error.
Proof. unfold read. cbn [keep_reading bind buf]. rewrite single_end. cbn [strip_plus]. now rewrite number_nil. Qed.

Lemma next_line_end b st after : at_end st after -> exists st', next_line (Reader [] b) st = Ok st' /\ at_text st' (text_after after).
Proof.
  destruct after as [r|]; cbn; intros H.
  - subst st. cbn. eexists. split; [reflexivity|]. now left.
  - destruct H as [H1 H2]. rewrite H2. exists st. split; [reflexivity|]. right. auto.
Qed.
Lemma next_line_more r st l after : rep r st l after -> l <> [] -> next_line r st = Throw csv_read_error.
Proof.
  intros (Hn & _ & l2 & -> & Hk) Hl. unfold next_line. destruct (buf r) as [|c b]; [|reflexivity]. cbn [app] in *.
  destruct (keep_reading r); [|destruct Hk; congruence]. destruct Hk as [_ ->]. destruct l2 as [|c l2]; [congruence|]. cbn.
  replace (Z.eqb c newline) with false; auto. symmetry. apply Z.eqb_neq. intros ->. apply Hn. now left.
Qed.

(** What reading a row with fields [fs] gives. *)
Definition row_result (fs : list (list Z)) (n : nat) (after : option (list Z)) (m : outcome (list V * reader * stream)) : Prop :=
  match values_of number fs with
  | Some vs => if Nat.eqb (length vs) n then exists b st, m = Ok (vs, Reader [] b, st) /\ at_text st (text_after after) else m = Throw csv_read_error
  | None => m = Throw csv_read_error
  end.
Definition finish (m : outcome (list V * reader * stream)) : outcome (list V * reader * stream) :=
  '(vs, r, st) <- m ;; st <- next_line r st ;; Ok (vs, r, st).
Lemma values_length : forall fs vs, values_of number fs = Some vs -> length vs = length fs.
Proof.
  induction fs as [|f fs IH]; cbn; intros vs H; [injection H as <-; reflexivity|].
  destruct (value_of number f), (values_of number fs); try discriminate. injection H as <-. cbn. f_equal. auto.
Qed.
Lemma row_empty b st after : at_text st (text_after after) -> row_result (fields sep []) 0 after (Ok ([], Reader [] b, st)).
Proof. intros H. exists b, st. auto. Qed.
Lemma row_cons f fs n after v (m m' : outcome (list V * reader * stream)) : value_of number f = Some v ->
  row_result fs n after m -> m' = ('(vs, r, st) <- m ;; Ok (v :: vs, r, st)) -> row_result (f :: fs) (S n) after m'.
Proof.
  unfold row_result. cbn [values_of]. intros -> H ->. destruct (values_of number fs) as [vs|].
  - cbn [length]. change (Nat.eqb (S (length vs)) (S n)) with (Nat.eqb (length vs) n). destruct (Nat.eqb (length vs) n).
    + destruct H as (b & st & -> & H). exists b, st. split; [reflexivity|exact H].
    + now rewrite H.
  - now rewrite H.
Qed.
Lemma read_fields_ok n : forall r st l after, rep r st l after -> Forall (readable number) (fields sep l) ->
  row_result (fields sep l) n after (finish (read_fields eager number sep n r st)).
Proof.
  induction n as [|n IH]; intros r st l after H Hf.
  - cbn [read_fields]. unfold finish. cbn [bind]. destruct l as [|c l].
    + destruct (rep_nil _ _ _ H) as [-> He]. destruct (next_line_end false st after He) as (st' & -> & Ht). cbn [bind]. now apply row_empty.
    + rewrite (next_line_more _ _ _ _ H) by discriminate. cbn [bind]. unfold row_result.
      destruct (values_of number (fields sep (c :: l))) as [vs|] eqn:Ev; auto. apply values_length in Ev.
      destruct (fields sep (c :: l)) as [|f fs] eqn:Ef; [now elim (fields_nonempty sep (c :: l))|]. cbn in Ev.
      now rewrite (proj2 (Nat.eqb_neq _ _)) by lia.
  - cbn [read_fields]. destruct (cut_line sep l) as [->|[[Hne Hs]|(p & l' & -> & Hs)]].
    + destruct (rep_nil _ _ _ H) as [-> He]. rewrite read_nil. unfold row_result. reflexivity.
    + rewrite fields_one in Hf |- * by auto. inversion Hf as [|? ? Hlt _]; subst. pose proof (read_last r st l after H Hne Hs Hlt) as Hr.
      destruct (value_of number l) as [v|] eqn:Ev.
      * destruct Hr as (st' & Er & He). rewrite Er. cbn [bind].
        apply (row_cons l [] n after v (finish (read_fields eager number sep n (Reader [] false) st'))); auto.
        { apply (IH _ _ [] after); [now apply at_end_rep|constructor]. }
        unfold finish. destruct (read_fields eager number sep n (Reader [] false) st') as [[[vs r'] st'']| | |]; cbn [bind]; auto.
        destruct (next_line r' st''); reflexivity.
      * rewrite Hr. unfold row_result. cbn [values_of]. rewrite Ev. reflexivity.
    + rewrite fields_cons in Hf |- * by auto. inversion Hf as [|? ? Hlt Hf']; subst. pose proof (read_first r st p l' after H Hs Hlt) as Hr.
      destruct (value_of number p) as [v|] eqn:Ev.
      * destruct Hr as (r' & st' & Er & He). rewrite Er. cbn [bind].
        apply (row_cons p (fields sep l') n after v (finish (read_fields eager number sep n r' st'))); auto.
        unfold finish. destruct (read_fields eager number sep n r' st') as [[[vs r''] st'']| | |]; cbn [bind]; auto.
        destruct (next_line r'' st''); reflexivity.
      * rewrite Hr. unfold row_result. cbn [values_of]. rewrite Ev. reflexivity.
Qed.

(** ** Comments *)
Lemma skip_rest_ok fuel : forall r st l after, rep r st l after -> length (rest st) < fuel ->
  exists b st', skip_rest eager fuel r st = Ok (Reader b false, st') /\ at_end st' after.
Proof.
  induction fuel as [|fuel IH]; intros r st l after (Hn & _ & l2 & -> & Hk) Hf; [lia|]. cbn [skip_rest]. destruct r as [b k]. cbn [keep_reading buf] in *. destruct k.
  - destruct Hk as [H2 ->]. destruct (chunk (Reader [] true) l2 after) as (r' & st' & -> & R & _ & _ & _ & Hlt); cbn [buf app length]; auto; [|lia|].
    + intros K. apply Hn. apply in_or_app. now right.
    + cbn [bind]. apply (IH r' st' l2 after); [exact R|]. cbn [open rest] in Hf. lia.
  - exists b, st. split; [reflexivity|apply Hk].
Qed.
Definition clear_of_comments (c text : list Z) : Prop := comments c /\ text <> [] /\ hd 0%Z text <> newline /\ hd 0%Z text <> hash.
Lemma skip_loop_ok c : comments c -> forall text line after fuel b, first_line text = (line, after) -> line <> [] -> ~ is_comment line ->
  length (c ++ text) < fuel ->
  exists r st, skip_loop eager fuel (Reader [] b) (open (c ++ text)) = Ok (r, st) /\ rep r st line after.
Proof.
  induction 1 as [|body c Hbody Hc IH]; intros text line after fuel b Hfl Hne Hnc Hf.
  - apply first_line_iff in Hfl. destruct Hfl as [-> Hn]. cbn [app] in *. destruct fuel as [|fuel]; [lia|]. cbn [skip_loop open eof].
    destruct (chunk (Reader [] b) line after) as (r' & st' & E & R & _ & Hb & _ & _); cbn [buf app length]; auto; [lia|].
    cbn [open] in E. rewrite E. cbn [bind]. destruct (buf r') as [|d t] eqn:Eb; [congruence|].
    assert (Hd : Z.eqb d hash = false).
    { apply Z.eqb_neq. intros ->. apply Hnc. destruct R as (_ & _ & l2 & El & _). rewrite Eb in El. cbn in El. rewrite El. eexists. reflexivity. }
    rewrite Hd. eauto.
  - cbn [app]. rewrite <- app_assoc. cbn [app]. set (l := hash :: body). set (nxt := Some (c ++ text)).
    replace (hash :: body ++ newline :: c ++ text) with (l ++ tail nxt) by reflexivity.
    destruct fuel as [|fuel]; [cbn in Hf; lia|]. cbn [skip_loop open eof].
    destruct (chunk (Reader [] b) l nxt) as (r' & st' & E & R & _ & Hb & (bb & Hbb) & Hlt); cbn [buf app length]; try lia; [|discriminate|].
    { intros [K|K]; [discriminate|auto]. }
    cbn [open] in E. rewrite E. cbn [bind]. destruct (buf r') as [|d t] eqn:Eb; [congruence|].
    assert (Hd : d = hash). { destruct R as (_ & _ & l2 & El & _). rewrite Eb in El. cbn in El. injection El as <- _. reflexivity. }
    subst d. rewrite Z.eqb_refl.
    destruct (skip_rest_ok (S (length (rest st'))) r' st' l nxt R) as (b2 & st2 & -> & He); [lia|]. cbn [bind keep_reading].
    cbn [at_end nxt] in He. subst st2. cbn [next_line buf open eof good fail negb andb rest get is_end]. rewrite Z.eqb_refl. cbn [bind].
    apply (IH text line after fuel false Hfl Hne Hnc).
    rewrite app_length in Hf |- *. cbn [length] in Hf. rewrite app_length in Hf. cbn [length] in Hf. lia.
Qed.
Lemma comments_app_nonempty c text line after : comments c -> first_line text = (line, after) -> line <> [] ->
  exists d t, c ++ text = d :: t /\ d <> newline.
Proof.
  intros Hc Hf Hl. destruct Hc as [|body c Hb Hc].
  - apply first_line_iff in Hf. destruct Hf as [-> Hn]. destruct line as [|d line]; [congruence|]. exists d, (line ++ tail after). split; [reflexivity|].
    intros ->. apply Hn. now left.
  - exists hash, ((body ++ newline :: c) ++ text). split; [reflexivity|discriminate].
Qed.
(** skip_comments, then a line that is not empty. *)
Lemma skip_ok c text line after b st : comments c -> first_line text = (line, after) -> line <> [] -> ~ is_comment line -> at_text st (c ++ text) ->
  exists r st', skip_comments eager (Reader [] b) st = Ok (r, st') /\ rep r st' line after.
Proof.
  intros Hc Hf Hl Hnc Hst. destruct (comments_app_nonempty c text line after Hc Hf Hl) as (d & t & Ed & Hd).
  destruct Hst as [->|[E _]]; [|congruence]. unfold skip_comments. cbn [buf open eof].
  unfold peek, good. rewrite Ed. cbn [open eof fail negb andb rest is_end]. rewrite (proj2 (Z.eqb_neq d newline) Hd).
  change (Stream (d :: t) false false) with (open (d :: t)). rewrite <- Ed. apply skip_loop_ok; auto.
Qed.
(** An empty line, or the end of the text. *)
Lemma skip_empty text after b st : first_line text = ([], after) -> at_text st text ->
  exists st', skip_comments eager (Reader [] b) st = Ok (Reader [] b, st') /\ at_end st' after.
Proof.
  intros Hf Hst. apply first_line_iff in Hf. destruct Hf as [-> _]. cbn [app] in *. unfold skip_comments. cbn [buf].
  destruct after as [r|]; cbn [tail at_end] in *.
  - destruct Hst as [->|[E _]]; [|discriminate]. cbn [open eof]. unfold peek. cbn [good open eof fail negb andb rest is_end]. rewrite Z.eqb_refl. eauto.
  - destruct Hst as [->|[_ [H1 H2]]].
    + cbn [open eof]. unfold peek. cbn [good open eof fail negb andb rest is_end skip_loop]. eauto.
    + rewrite H2. eauto.
Qed.
Lemma read_empty b st after : at_end st after -> read eager number sep (Reader [] b) st = Throw csv_read_error.
Proof.
  destruct b; [|intros; apply read_nil]. intros H. unfold read. cbn [keep_reading]. unfold read_chunk. cbn [buf length].
  destruct (fail st) eqn:Ef; [reflexivity|]. change (Nat.eqb bufmaxsize 0) with false. cbv iota. destruct after as [r|]; cbn [at_end] in H.
  - subst st. reflexivity.
  - destruct H as [H1 H2]. unfold get_n, good. rewrite H2. reflexivity.
Qed.
Lemma one_row_ok c text line after n b st : comments c -> first_line text = (line, after) -> (c = [] \/ line <> []) -> ~ is_comment line ->
  Forall (readable number) (fields sep line) -> at_text st (c ++ text) ->
  row_result (fields sep line) n after (one_row eager number sep n (Reader [] b) st).
Proof.
  intros Hc Hf Hcl Hnc Hs Hst. unfold one_row. destruct line as [|d line].
  - destruct Hcl as [->|K]; [|congruence]. cbn [app] in Hst. destruct (skip_empty text after b st Hf Hst) as (st' & -> & He). cbn [bind].
    destruct n as [|n]; cbn [read_fields].
    + cbn [bind]. destruct (next_line_end b st' after He) as (st2 & -> & Ht). cbn [bind]. now apply row_empty.
    + rewrite (read_empty b st' after He). reflexivity.
  - destruct (skip_ok c text (d :: line) after b st Hc Hf) as (r & st' & -> & R); auto; [discriminate|]. cbn [bind].
    apply (read_fields_ok n r st' (d :: line) after R Hs).
Qed.

(** ** csv_read_row *)
Lemma csv_read_row_ok c text line after n st : comments c -> first_line text = (line, after) -> (c = [] \/ line <> []) -> ~ is_comment line ->
  Forall (readable number) (fields sep line) -> at_text st (c ++ text) ->
  match values_of number (fields sep line) with
  | Some vs => if Nat.eqb (length vs) n then exists st', csv_read_row eager number sep n st = Ok (vs, st') /\ at_text st' (text_after after)
               else csv_read_row eager number sep n st = Throw csv_read_error
  | None => csv_read_row eager number sep n st = Throw csv_read_error
  end.
Proof.
  intros Hc Hf Hcl Hnc Hs Hst. pose proof (one_row_ok c text line after n true st Hc Hf Hcl Hnc Hs Hst) as H. unfold csv_read_row. change new_reader with (Reader [] true).
  unfold row_result in H. destruct (values_of number (fields sep line)) as [vs|]; [destruct (Nat.eqb (length vs) n)|].
  - destruct H as (b & st' & -> & Ht). cbn [bind]. eauto.
  - now rewrite H.
  - now rewrite H.
Qed.

(** ** csv_read *)
Lemma csv_read_ok n k text res : rows_of number sep n k text res -> forall b st, at_text st text ->
  match res with
  | Some (vss, rest) => exists st', read_rows eager number sep k n (Reader [] b) st = Ok (vss, st') /\ at_text st' rest
  | None => read_rows eager number sep k n (Reader [] b) st = Throw csv_read_error
  end.
Proof.
  induction 1 as [text|k c text line after vs res Hc Hf Hcl Hnc Hs Hv Hl Hr IH|k c text line after Hc Hf Hcl Hnc Hs Hv]; intros b st Hst; cbn [read_rows].
  - eauto.
  - pose proof (one_row_ok c text line after n b st Hc Hf Hcl Hnc Hs Hst) as H. unfold row_result in H. rewrite Hv, (proj2 (Nat.eqb_eq _ _) Hl) in H.
    destruct H as (b' & st' & -> & Ht). cbn [bind]. specialize (IH b' st' Ht). destruct res as [[vss rest0]|].
    + destruct IH as (st2 & -> & Ht2). cbn [bind]. eauto.
    + now rewrite IH.
  - pose proof (one_row_ok c text line after n b st Hc Hf Hcl Hnc Hs Hst) as H. unfold row_result in H. destruct (values_of number (fields sep line)) as [vs|] eqn:Ev.
    + rewrite (proj2 (Nat.eqb_neq _ _) (Hv vs eq_refl)) in H. now rewrite H.
    + now rewrite H.
Qed.

(** ** csv_read_row_std_vector *)
Lemma done_rep r st l after : rep r st l after ->
  exists st', done r st = (match l with [] => true | _ => false end, st') /\ rep r st' l after.
Proof.
  intros H. pose proof H as (Hn & Hb & l2 & El & Hk). unfold done. destruct (keep_reading r) eqn:Ek.
  - destruct Hk as [H2 Est]. destruct l2 as [|d l2]; [congruence|].
    assert (Hd : Z.eqb d newline = false). { apply Z.eqb_neq. intros ->. apply Hn. rewrite El. apply in_or_app. right. now left. }
    rewrite Est. unfold peek. cbn [open good eof fail negb andb rest app is_end]. rewrite Hd. cbn [negb andb]. rewrite andb_false_r.
    eexists. split; [|rewrite Est in H; exact H]. f_equal. rewrite El. destruct (buf r); reflexivity.
  - destruct Hk as [-> He]. rewrite app_nil_r in El. subst l.
    assert (G : forall st', at_end st' after -> rep r st' (buf r) after).
    { intros st' He'. split; [exact Hn|]. split; [exact Hb|]. exists []. rewrite app_nil_r. split; auto. rewrite Ek. auto. }
    destruct after as [r0|]; cbn [at_end] in He.
    + subst st. unfold peek. cbn [open good eof fail negb andb rest app is_end]. rewrite Z.eqb_refl. cbn [negb andb].
      eexists. split; [|apply G; reflexivity]. f_equal. destruct (buf r); reflexivity.
    + destruct He as [H1 H2]. unfold peek, good. rewrite H2. cbn [negb andb is_end set_fail eof]. rewrite H2. cbn [negb andb].
      exists (set_fail st). split; [f_equal; destruct (buf r); reflexivity|]. apply G. split; [exact H1|exact H2].
Qed.
Definition vector_result (fs : list (list Z)) (after : option (list Z)) (m : outcome (list V * reader * stream)) : Prop :=
  match values_of number fs with
  | Some vs => exists st, m = Ok (vs, Reader [] false, st) /\ at_text st (text_after after)
  | None => m = Throw csv_read_error
  end.
Lemma vector_cons f fs after v (m m' : outcome (list V * reader * stream)) : value_of number f = Some v ->
  vector_result fs after m -> m' = ('(vs, r, st) <- m ;; Ok (v :: vs, r, st)) -> vector_result (f :: fs) after m'.
Proof.
  unfold vector_result. cbn [values_of]. intros -> H ->. destruct (values_of number fs) as [vs|].
  - destruct H as (st & -> & H). exists st. split; [reflexivity|exact H].
  - now rewrite H.
Qed.
Lemma read_all_ok fuel : forall r st l after, rep r st l after -> length l <= fuel -> Forall (readable number) (fields sep l) ->
  vector_result (fields sep l) after (finish (read_all eager number sep fuel r st)).
Proof.
  induction fuel as [|fuel IH]; intros r st l after H Hfuel Hf; cbn [read_all]; destruct (done_rep r st l after H) as (st' & -> & H').
  - destruct l as [|d l]; [|cbn in Hfuel; lia]. destruct (rep_nil _ _ _ H') as [-> He]. unfold finish. cbn [bind].
    destruct (next_line_end false st' after He) as (st2 & -> & Ht). unfold vector_result. cbn. eauto.
  - destruct (cut_line sep l) as [->|[[Hne Hs]|(p & l' & -> & Hs)]].
    + destruct (rep_nil _ _ _ H') as [-> He]. unfold finish. cbn [bind].
      destruct (next_line_end false st' after He) as (st2 & -> & Ht). unfold vector_result. cbn. eauto.
    + replace (match l with [] => true | _ => false end) with false by (destruct l; congruence).
      rewrite fields_one in Hf |- * by auto. inversion Hf as [|? ? Hlt _]; subst. pose proof (read_last r st' l after H' Hne Hs Hlt) as Hr.
      destruct (value_of number l) as [v|] eqn:Ev.
      * destruct Hr as (st2 & Er & He). rewrite Er. cbn [bind].
        apply (vector_cons l [] after v (finish (read_all eager number sep fuel (Reader [] false) st2))); auto.
        { apply (IH _ _ [] after); [now apply at_end_rep|cbn; lia|constructor]. }
        unfold finish. destruct (read_all eager number sep fuel (Reader [] false) st2) as [[[vs r'] st'']| | |]; cbn [bind]; auto.
        destruct (next_line r' st''); reflexivity.
      * rewrite Hr. unfold vector_result. cbn [values_of]. rewrite Ev. reflexivity.
    + replace (match p ++ sep :: l' with [] => true | _ => false end) with false by (destruct p; reflexivity).
      rewrite fields_cons in Hf |- * by auto. inversion Hf as [|? ? Hlt Hf']; subst. pose proof (read_first r st' p l' after H' Hs Hlt) as Hr.
      destruct (value_of number p) as [v|] eqn:Ev.
      * destruct Hr as (r' & st2 & Er & He). rewrite Er. cbn [bind].
        apply (vector_cons p (fields sep l') after v (finish (read_all eager number sep fuel r' st2))); auto.
        { apply IH; auto. rewrite app_length in Hfuel. cbn in Hfuel. lia. }
        unfold finish. destruct (read_all eager number sep fuel r' st2) as [[[vs r''] st'']| | |]; cbn [bind]; auto.
        destruct (next_line r'' st''); reflexivity.
      * rewrite Hr. unfold vector_result. cbn [values_of]. rewrite Ev. reflexivity.
Qed.
Lemma read_vector_ok c text line after st : comments c -> first_line text = (line, after) -> (c = [] \/ line <> []) -> ~ is_comment line ->
  Forall (readable number) (fields sep line) -> at_text st (c ++ text) ->
  match values_of number (fields sep line) with
  | Some vs => exists st', csv_read_row_std_vector eager number sep st = Ok (vs, st') /\ at_text st' (text_after after)
  | None => csv_read_row_std_vector eager number sep st = Throw csv_read_error
  end.
Proof.
  intros Hc Hf Hcl Hnc Hs Hst. unfold csv_read_row_std_vector. change new_reader with (Reader [] true).
  assert (Hlen : length line <= length (rest st)).
  { assert (length line <= length (c ++ text)).
    { apply first_line_iff in Hf. destruct Hf as [-> _]. rewrite !app_length. lia. }
    destruct Hst as [->|[E _]]; [exact H|]. rewrite E in H. cbn in H. lia. }
  destruct line as [|d line].
  - destruct Hcl as [->|K]; [|congruence]. cbn [app] in Hst. destruct (skip_empty text after true st Hf Hst) as (st' & -> & He). cbn [bind].
    (* the reader has not read anything yet *)
    cbn [read_all]. unfold done. cbn [buf length]. change (Nat.eqb 0 0) with true. cbn [andb].
    assert (K : exists st2, peek st' = (match after with Some _ => Some newline | None => None end, st2) /\ at_end st2 after /\ (after = None -> eof st2 = true)).
    { destruct after as [r0|]; cbn [at_end] in *.
      - subst st'. unfold peek. cbn. eexists. split; [reflexivity|]. split; [reflexivity|discriminate].
      - destruct He as [H1 H2]. unfold peek, good. rewrite H2. cbn. eexists. split; [reflexivity|]. cbn. auto. }
    destruct K as (st2 & -> & He2 & Heof).
    replace (negb (negb (is_end (match after with Some _ => Some newline | None => None end)) && negb (eof st2))) with true
      by (destruct after; cbn; [reflexivity|now rewrite Heof]).
    cbn [bind]. destruct (next_line_end true st2 after He2) as (st3 & -> & Ht). cbn. eauto.
  - destruct (skip_ok c text (d :: line) after true st Hc Hf) as (r & st' & -> & R); auto; [discriminate|]. cbn [bind].
    pose proof (read_all_ok (S (length (rest st))) r st' (d :: line) after R ltac:(lia) Hs) as H. unfold vector_result, finish in H.
    destruct (values_of number (fields sep (d :: line))) as [vs|].
    + destruct H as (st2 & E & Ht). exists st2. split; [|exact Ht].
      destruct (read_all eager number sep (S (length (rest st))) r st') as [[[vs' r'] st'']| | |]; cbn [bind] in *; try discriminate.
      destruct (next_line r' st''); cbn [bind] in *; try discriminate. congruence.
    + destruct (read_all eager number sep (S (length (rest st))) r st') as [[[vs' r'] st'']| | |]; cbn [bind] in *; try discriminate; try (injection H as ->; reflexivity).
      destruct (next_line r' st''); cbn [bind] in *; try discriminate. injection H as ->. reflexivity.
Qed.
End Reader.
