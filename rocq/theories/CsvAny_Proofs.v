(** Proofs about the CSV functions on any text. *)
From Verif Require Import Base Csv_Spec Csv_Model Csv_Proofs Csv_More Csv_Exact CsvAny_Spec.
Local Open Scope outcome_scope.
Local Arguments Nat.eqb : simpl never.
Local Arguments Nat.ltb : simpl never.
Local Arguments Nat.sub : simpl never.
Local Arguments Nat.mul : simpl never.
Local Arguments Z.eqb : simpl never.

(** ** Tokens *)
Lemma skipn_skipn_add {A} a b (l : list A) : skipn a (skipn b l) = skipn (b + a) l.
Proof.
  revert l. induction b as [|b IH]; intros l; [reflexivity|]. destruct l as [|x l]; cbn [skipn Nat.add]; [now destruct a|]. apply IH.
Qed.
Lemma groups_cons k f : groups (S k) f = firstn 64 f :: groups k (skipn 64 f).
Proof.
  unfold groups. cbn [seq map]. f_equal. rewrite <- seq_shift, map_map. apply map_ext. intros i.
  rewrite skipn_skipn_add. f_equal. f_equal. lia.
Qed.
Lemma before_short p : length p < 64 -> before_separator p = [p].
Proof.
  intros H. unfold before_separator. rewrite Nat.div_small by lia. change (0 + 1) with 1. rewrite groups_cons. cbn [groups seq map].
  now rewrite firstn_all2 by lia.
Qed.
Lemma before_long p : 64 <= length p -> before_separator p = firstn 64 p :: before_separator (skipn 64 p).
Proof.
  intros H. unfold before_separator. rewrite skipn_length.
  assert (E : length p / 64 = (length p - 64) / 64 + 1).
  { replace (length p) with (length p - 64 + 1 * 64) at 1 by lia. apply Nat.div_add. lia. }
  rewrite E. replace ((length p - 64) / 64 + 1 + 1) with (S ((length p - 64) / 64 + 1)) by lia. apply groups_cons.
Qed.
Lemma end_nil : at_line_end [] = [].
Proof. reflexivity. Qed.
Lemma end_short p : p <> [] -> length p < 64 -> at_line_end p = [p].
Proof.
  intros H0 H. unfold at_line_end. assert (1 <= length p) by (destruct p; [congruence|cbn; lia]).
  assert (E : (length p + 63) / 64 = 1).
  { replace (length p + 63) with (length p - 1 + 1 * 64) by lia. rewrite Nat.div_add by lia. rewrite Nat.div_small by lia. reflexivity. }
  rewrite E, groups_cons. cbn [groups seq map]. now rewrite firstn_all2 by lia.
Qed.
Lemma end_long p : 64 <= length p -> at_line_end p = firstn 64 p :: at_line_end (skipn 64 p).
Proof.
  intros H. unfold at_line_end. rewrite skipn_length.
  assert (E : (length p + 63) / 64 = S ((length p - 64 + 63) / 64)).
  { replace (length p + 63) with (length p - 64 + 63 + 1 * 64) at 1 by lia. rewrite Nat.div_add by lia. lia. }
  rewrite E. apply groups_cons.
Qed.
Lemma tokens_no_sep sep p : ~ In sep p -> tokens sep p = at_line_end p.
Proof. intros H. unfold tokens. rewrite pieces_no_sep by auto. reflexivity. Qed.
Lemma tokens_sep sep p l : ~ In sep p -> tokens sep (p ++ sep :: l) = before_separator p ++ tokens sep l.
Proof.
  intros H. unfold tokens. rewrite pieces_sep by auto.
  assert (K : pieces sep l <> []) by apply pieces_nonempty.
  destruct (pieces sep l) as [|q qs] eqn:E; [congruence|].
  change (removelast (p :: q :: qs)) with (p :: removelast (q :: qs)). change (last (p :: q :: qs) []) with (last (q :: qs) []).
  cbn [map List.concat]. now rewrite <- app_assoc.
Qed.
Lemma not_in_skipn {A} (x : A) k l : ~ In x l -> ~ In x (skipn k l).
Proof. intros H K. apply H. rewrite <- (firstn_skipn k l). apply in_or_app. now right. Qed.

Section Any.
Context (eager : bool) {V : Type} (number : list Z -> option (V * nat)) (sep : Z) (Hsep : separates number sep).

(** One read: the first token *)
Lemma read_token l : l <> [] -> exists t l', tokens sep l = t :: tokens sep l' /\ length l' < length l /\
  forall r st after, rep r st l after ->
  match value_of number t with
  | Some v => exists r' st', read eager number sep r st = Ok (v, r', st') /\ rep r' st' l' after
  | None => read eager number sep r st = Throw csv_read_error
  end.
Proof using Hsep.
  intros Hl. destruct (cut_line sep l) as [->|[[Hne Hs]|(p & l' & -> & Hs)]]; [congruence| |].
  - destruct (Nat.lt_ge_cases (length l) 64) as [H|H].
    + exists l, []. rewrite tokens_no_sep by auto. rewrite end_short by auto. split; [reflexivity|]. split; [destruct l; [congruence|cbn; lia]|].
      intros r st after R. pose proof (read_last_short eager number sep Hsep r st l after R Hne Hs H) as K.
      destruct (value_of number l) as [v|]; [|exact K]. destruct K as (st' & E & He). exists (Reader [] false), st'. split; [exact E|]. now apply at_end_rep.
    + exists (firstn 64 l), (skipn 64 l). rewrite tokens_no_sep by auto. rewrite end_long by auto.
      rewrite tokens_no_sep by now apply not_in_skipn. split; [reflexivity|]. split; [rewrite skipn_length; lia|].
      intros r st after R. rewrite <- (app_nil_r l) in R. destruct (value_of number (firstn 64 l)) as [v|] eqn:E.
      * destruct (read_long_value eager number sep Hsep r st l [] after v R Hs H E) as (r' & st' & K & R'). rewrite app_nil_r in R'. eauto.
      * exact (read_long eager number sep Hsep r st l [] after R Hs H E).
  - rewrite tokens_sep by auto. destruct (Nat.lt_ge_cases (length p) 64) as [H|H].
    + exists p, l'. rewrite before_short by auto. split; [reflexivity|]. split; [rewrite app_length; cbn; lia|].
      intros r st after R. exact (read_first_short eager number sep Hsep r st p l' after R Hs H).
    + exists (firstn 64 p), (skipn 64 p ++ sep :: l'). rewrite before_long by auto.
      rewrite tokens_sep by now apply not_in_skipn. split; [reflexivity|]. split; [rewrite !app_length, skipn_length; cbn; lia|].
      intros r st after R. destruct (value_of number (firstn 64 p)) as [v|] eqn:E.
      * exact (read_long_value eager number sep Hsep r st p (sep :: l') after v R Hs H E).
      * exact (read_long eager number sep Hsep r st p (sep :: l') after R Hs H E).
Qed.
Lemma tokens_nil : tokens sep [] = [].
Proof. reflexivity. Qed.
Lemma finish_cons v (m : outcome (list V * reader * stream)) :
  finish ('(vs, r, st) <- m ;; Ok (v :: vs, r, st)) = ('(vs, r, st) <- finish m ;; Ok (v :: vs, r, st)).
Proof. unfold finish. destruct m as [[[vs r] st]| | |]; cbn [bind]; auto. destruct (next_line r st); reflexivity. Qed.
Lemma fields_any n : forall r st l after, rep r st l after ->
  row_result number (tokens sep l) n after (finish (read_fields eager number sep n r st)).
Proof using Hsep.
  induction n as [|n IH]; intros r st l after H.
  - cbn [read_fields]. unfold finish. cbn [bind]. destruct l as [|c l].
    + destruct (rep_nil _ _ _ H) as [-> He]. destruct (next_line_end false st after He) as (st' & -> & Ht). cbn [bind].
      rewrite tokens_nil. exists false, st'. auto.
    + rewrite (next_line_more _ _ _ _ H) by discriminate. cbn [bind]. unfold row_result.
      destruct (read_token (c :: l)) as (t & l' & -> & _); [discriminate|].
      destruct (values_of number (t :: tokens sep l')) as [vs|] eqn:Ev; auto. apply values_length in Ev. cbn in Ev.
      now rewrite (proj2 (Nat.eqb_neq _ _)) by lia.
  - cbn [read_fields]. destruct (list_eq_dec Z.eq_dec l []) as [->|Hl].
    + destruct (rep_nil _ _ _ H) as [-> He]. rewrite (read_nil eager number sep Hsep). unfold row_result. reflexivity.
    + destruct (read_token l Hl) as (t & l' & -> & _ & Hr). specialize (Hr r st after H). destruct (value_of number t) as [v|] eqn:Ev.
      * destruct Hr as (r' & st' & -> & R). cbn [bind]. eapply row_cons; [exact Ev|exact (IH r' st' l' after R)|]. apply finish_cons.
      * rewrite Hr. unfold row_result. cbn [values_of]. rewrite Ev. reflexivity.
Qed.
Lemma all_any fuel : forall r st l after, rep r st l after -> length l <= fuel ->
  vector_result number (tokens sep l) after (finish (read_all eager number sep fuel r st)).
Proof using Hsep.
  induction fuel as [|fuel IH]; intros r st l after H Hf; cbn [read_all]; destruct (done_rep r st l after H) as (st' & -> & H').
  - destruct l as [|d l]; [|cbn in Hf; lia]. destruct (rep_nil _ _ _ H') as [-> He]. unfold finish. cbn [bind].
    destruct (next_line_end false st' after He) as (st2 & -> & Ht). unfold vector_result. cbn. eauto.
  - destruct (list_eq_dec Z.eq_dec l []) as [->|Hl].
    + destruct (rep_nil _ _ _ H') as [-> He]. unfold finish. cbn [bind].
      destruct (next_line_end false st' after He) as (st2 & -> & Ht). unfold vector_result. cbn. eauto.
    + replace (match l with [] => true | _ => false end) with false by (destruct l; congruence).
      destruct (read_token l Hl) as (t & l' & -> & Hlen & Hr). specialize (Hr r st' after H'). destruct (value_of number t) as [v|] eqn:Ev.
      * destruct Hr as (r' & st2 & -> & R). cbn [bind]. eapply vector_cons; [exact Ev|apply (IH r' st2 l' after R); lia|]. apply finish_cons.
      * rewrite Hr. unfold vector_result. cbn [values_of]. rewrite Ev. reflexivity.
Qed.

(** ** Comments *)
(** Comment lines followed by an empty line or the end of the text *)
Lemma skip_loop_error c : comments c -> forall after fuel b, length (c ++ tail after) < fuel ->
  skip_loop eager fuel (Reader [] b) (open (c ++ tail after)) = Throw csv_read_error.
Proof.
  induction 1 as [|body c Hbody Hc IH]; intros after fuel b Hf.
  - destruct fuel as [|fuel]; [lia|]. cbn [app skip_loop open eof]. unfold read_chunk. cbn [fail buf length].
    change (Nat.eqb bufmaxsize 0) with false. cbv iota. unfold get_n. cbn [good eof fail negb andb rest].
    destruct after as [r|]; cbn [tail].
    + reflexivity.
    + destruct (bufmaxsize - 0); reflexivity.
  - cbn [app]. rewrite <- app_assoc. cbn [app]. set (l := hash :: body). set (nxt := Some (c ++ tail after)).
    replace (hash :: body ++ newline :: c ++ tail after) with (l ++ tail nxt) by reflexivity.
    destruct fuel as [|fuel]; [cbn in Hf; lia|]. cbn [skip_loop open eof].
    destruct (chunk eager (Reader [] b) l nxt) as (r' & st' & E & R & _ & Hb & (bb & Hbb) & Hlt); cbn [buf app length]; try lia; [|discriminate|].
    { intros [K|K]; [discriminate|auto]. }
    cbn [open] in E. rewrite E. cbn [bind]. destruct (buf r') as [|d t] eqn:Eb; [congruence|].
    assert (Hd : d = hash). { destruct R as (_ & _ & l2 & El & _). rewrite Eb in El. cbn in El. injection El as <- _. reflexivity. }
    subst d. rewrite Z.eqb_refl.
    destruct (skip_rest_ok eager (S (length (rest st'))) r' st' l nxt R) as (b2 & st2 & -> & He); [lia|]. cbn [bind keep_reading].
    cbn [at_end nxt] in He. subst st2. cbn [next_line buf open eof good fail negb andb rest get is_end]. rewrite Z.eqb_refl. cbn [bind].
    apply IH. rewrite app_length in Hf |- *. cbn [length] in Hf. rewrite app_length in Hf. cbn [length] in Hf. lia.
Qed.
(** ... followed by a comment at the end of the text *)
Lemma skip_loop_unfinished c : comments c -> forall body fuel b, ~ In newline body -> length (c ++ hash :: body) < fuel ->
  exists st, skip_loop eager fuel (Reader [] b) (open (c ++ hash :: body)) = Ok (Reader [] false, st) /\ at_end st None.
Proof.
  induction 1 as [|body0 c Hbody Hc IH]; intros body fuel b Hb0 Hf.
  - destruct fuel as [|fuel]; [lia|]. cbn [app skip_loop open eof].
    destruct (chunk eager (Reader [] b) (hash :: body) None) as (r' & st' & E & R & _ & Hb & _ & _); cbn [buf app length]; try lia; [|discriminate|].
    { intros [K|K]; [discriminate|auto]. }
    cbn [tail] in E. rewrite app_nil_r in E. cbn [open] in E. rewrite E. cbn [bind]. destruct (buf r') as [|d t] eqn:Eb; [congruence|].
    assert (Hd : d = hash). { destruct R as (_ & _ & l2 & El & _). rewrite Eb in El. cbn in El. injection El as <- _. reflexivity. }
    subst d. rewrite Z.eqb_refl.
    destruct (skip_rest_ok eager (S (length (rest st'))) r' st' (hash :: body) None R) as (b2 & st2 & -> & He); [lia|]. cbn [bind keep_reading].
    pose proof He as [H1 H2]. unfold next_line. cbn [buf]. rewrite H2. cbn [bind].
    exists st2. split; [|exact He]. destruct fuel; cbn [skip_loop]; rewrite H2; reflexivity.
  - cbn [app]. rewrite <- app_assoc. cbn [app]. set (l := hash :: body0). set (nxt := Some (c ++ hash :: body)).
    replace (hash :: body0 ++ newline :: c ++ hash :: body) with (l ++ tail nxt) by reflexivity.
    destruct fuel as [|fuel]; [cbn in Hf; lia|]. cbn [skip_loop open eof].
    destruct (chunk eager (Reader [] b) l nxt) as (r' & st' & E & R & _ & Hb & (bb & Hbb) & Hlt); cbn [buf app length]; try lia; [|discriminate|].
    { intros [K|K]; [discriminate|auto]. }
    cbn [open] in E. rewrite E. cbn [bind]. destruct (buf r') as [|d t] eqn:Eb; [congruence|].
    assert (Hd : d = hash). { destruct R as (_ & _ & l2 & El & _). rewrite Eb in El. cbn in El. injection El as <- _. reflexivity. }
    subst d. rewrite Z.eqb_refl.
    destruct (skip_rest_ok eager (S (length (rest st'))) r' st' l nxt R) as (b2 & st2 & -> & He); [lia|]. cbn [bind keep_reading].
    cbn [at_end nxt] in He. subst st2. cbn [next_line buf open eof good fail negb andb rest get is_end]. rewrite Z.eqb_refl. cbn [bind].
    apply IH; auto. rewrite app_length in Hf |- *. cbn [length] in Hf. rewrite app_length in Hf. cbn [length] in *. lia.
Qed.
Lemma comment_first c text : comments c -> c <> [] -> exists t, c ++ text = hash :: t.
Proof. intros [|body c' _ _] H; [congruence|]. cbn [app]. eauto. Qed.
Lemma skip_error c after b st : comments c -> c <> [] -> at_text st (c ++ tail after) ->
  skip_comments eager (Reader [] b) st = Throw csv_read_error.
Proof.
  intros Hc Hn Hst. destruct (comment_first c (tail after) Hc Hn) as (t & Et). destruct Hst as [->|[E _]]; [|congruence].
  unfold skip_comments. cbn [buf open eof]. unfold peek, good. rewrite Et. cbn [open eof fail negb andb rest is_end].
  change (Z.eqb hash newline) with false. cbv iota. change (Stream (hash :: t) false false) with (open (hash :: t)). rewrite <- Et.
  apply skip_loop_error; auto.
Qed.
Lemma skip_unfinished c body b st : comments c -> ~ In newline body -> at_text st (c ++ hash :: body) ->
  exists st', skip_comments eager (Reader [] b) st = Ok (Reader [] false, st') /\ at_end st' None.
Proof.
  intros Hc Hn Hst. assert (Et : exists t, c ++ hash :: body = hash :: t).
  { destruct c as [|x c']; [cbn; eauto|]. now apply comment_first. }
  destruct Et as (t & Et). destruct Hst as [->|[E _]]; [|congruence].
  unfold skip_comments. cbn [buf open eof]. unfold peek, good. rewrite Et. cbn [open eof fail negb andb rest is_end].
  change (Z.eqb hash newline) with false. cbv iota. change (Stream (hash :: t) false false) with (open (hash :: t)). rewrite <- Et.
  apply skip_loop_unfinished; auto.
Qed.

(** ** Rows *)
Lemma behind_text_after after : behind after = text_after after.
Proof. now destruct after. Qed.
Definition any_result (vals : option (list V)) (n : nat) (after : option (list Z)) (m : outcome (list V * reader * stream)) : Prop :=
  match vals with
  | Some vs => if Nat.eqb (length vs) n then exists b st, m = Ok (vs, Reader [] b, st) /\ at_text st (behind after) else m = Throw csv_read_error
  | None => m = Throw csv_read_error
  end.
Lemma row_any text c line after n b st : parts text c line after -> at_text st text ->
  any_result (row_values number sep c line) n after (one_row eager number sep n (Reader [] b) st).
Proof using Hsep.
  intros [t -> Hc Hf Hcom] Hst. unfold any_result, row_values, one_row. rewrite behind_text_after. destruct line as [|h line]; cbn [row_tokens].
  - destruct c as [|x c].
    + cbn [app] in Hst. destruct (skip_empty eager t after b st Hf Hst) as (st' & -> & He). cbn [bind values_of length].
      destruct n as [|n]; cbn [read_fields].
      * cbn [bind]. destruct (next_line_end b st' after He) as (st2 & -> & Ht). cbn [bind]. exists b, st2. auto.
      * rewrite (read_empty eager number sep Hsep b st' after He). reflexivity.
    + apply first_line_iff in Hf. destruct Hf as [-> _]. cbn [app] in Hst.
      rewrite (skip_error (x :: c) after b st Hc); [reflexivity|discriminate|exact Hst].
  - destruct (Z.eqb_spec h hash) as [->|Hh].
    + rewrite (Hcom (ex_intro _ line eq_refl)) in *. apply first_line_iff in Hf. destruct Hf as [-> Hn]. cbn [tail] in Hst. rewrite app_nil_r in Hst.
      destruct (skip_unfinished c line b st Hc) as (st' & -> & He); auto. { intros K. apply Hn. now right. }
      cbn [bind values_of length]. destruct n as [|n]; cbn [read_fields].
      * cbn [bind]. destruct (next_line_end false st' None He) as (st2 & -> & Ht). cbn [bind]. exists false, st2. auto.
      * rewrite (read_empty eager number sep Hsep false st' None He). reflexivity.
    + assert (Hnc : ~ is_comment (h :: line)) by (intros [body K]; congruence).
      destruct (skip_ok eager c t (h :: line) after b st Hc Hf) as (r & st' & -> & R); auto; [discriminate|]. cbn [bind].
      exact (fields_any n r st' (h :: line) after R).
Qed.
Lemma csv_row_any text c line after n st : parts text c line after -> at_text st text ->
  match row_values number sep c line with
  | Some vs => if Nat.eqb (length vs) n then exists st', csv_read_row eager number sep n st = Ok (vs, st') /\ at_text st' (behind after)
               else csv_read_row eager number sep n st = Throw csv_read_error
  | None => csv_read_row eager number sep n st = Throw csv_read_error
  end.
Proof using Hsep.
  intros Hp Hst. pose proof (row_any text c line after n true st Hp Hst) as H. unfold csv_read_row. change new_reader with (Reader [] true).
  unfold any_result in H. destruct (row_values number sep c line) as [vs|]; [destruct (Nat.eqb (length vs) n)|].
  - destruct H as (b & st' & -> & Ht). cbn [bind]. eauto.
  - now rewrite H.
  - now rewrite H.
Qed.
Lemma csv_rows_any n k text res : rows_at number sep n k text res -> forall b st, at_text st text ->
  match res with
  | Some (vss, rest) => exists st', read_rows eager number sep k n (Reader [] b) st = Ok (vss, st') /\ at_text st' rest
  | None => read_rows eager number sep k n (Reader [] b) st = Throw csv_read_error
  end.
Proof using Hsep.
  induction 1 as [text|k text c line after vs res Hp Hv Hl Hr IH|k text c line after Hp Hv]; intros b st Hst; cbn [read_rows].
  - eauto.
  - pose proof (row_any text c line after n b st Hp Hst) as H. unfold any_result in H. rewrite Hv, (proj2 (Nat.eqb_eq _ _) Hl) in H.
    destruct H as (b' & st' & -> & Ht). cbn [bind]. specialize (IH b' st' Ht). destruct res as [[vss rest0]|].
    + destruct IH as (st2 & -> & Ht2). cbn [bind]. eauto.
    + now rewrite IH.
  - pose proof (row_any text c line after n b st Hp Hst) as H. unfold any_result in H. destruct (row_values number sep c line) as [vs|] eqn:Ev.
    + rewrite (proj2 (Nat.eqb_neq _ _) (Hv vs eq_refl)) in H. now rewrite H.
    + now rewrite H.
Qed.
(** ** csv_read_row_std_vector *)
Lemma all_empty b st after fuel : at_end st after -> exists st',
  finish (read_all eager number sep fuel (Reader [] b) st) = Ok ([], Reader [] b, st') /\ at_text st' (text_after after).
Proof.
  intros He.
  assert (K : exists st2, peek st = (match after with Some _ => Some newline | None => None end, st2) /\ at_end st2 after /\ (after = None -> eof st2 = true)).
  { destruct after as [r0|]; cbn [at_end] in *.
    - subst st. unfold peek. cbn. eexists. split; [reflexivity|]. split; [reflexivity|discriminate].
    - destruct He as [H1 H2]. unfold peek, good. rewrite H2. cbn. eexists. split; [reflexivity|]. cbn. auto. }
  destruct K as (st2 & K & He2 & Heof).
  assert (Hd : done (Reader [] b) st = (true, st2)).
  { unfold done. rewrite K. cbn [buf length]. change (Nat.eqb 0 0) with true. cbn [andb]. f_equal.
    destruct after; cbn; [reflexivity|]. now rewrite Heof. }
  destruct (next_line_end b st2 after He2) as (st3 & En & Ht). exists st3. split; [|exact Ht].
  destruct fuel; cbn [read_all]; rewrite Hd; unfold finish; cbn [bind]; rewrite En; reflexivity.
Qed.
Lemma vector_unfold st r st' : skip_comments eager (Reader [] true) st = Ok (r, st') ->
  csv_read_row_std_vector eager number sep st = ('(vs, _, st2) <- finish (read_all eager number sep (S (length (rest st))) r st') ;; Ok (vs, st2)).
Proof.
  intros E. unfold csv_read_row_std_vector, new_reader. rewrite E. cbn [bind]. unfold finish.
  destruct (read_all eager number sep (S (length (rest st))) r st') as [[[vs r'] st2]| | |]; cbn [bind]; auto.
  destruct (next_line r' st2); reflexivity.
Qed.
Lemma csv_vector_any text c line after st : parts text c line after -> at_text st text ->
  match row_values number sep c line with
  | Some vs => exists st', csv_read_row_std_vector eager number sep st = Ok (vs, st') /\ at_text st' (behind after)
  | None => csv_read_row_std_vector eager number sep st = Throw csv_read_error
  end.
Proof using Hsep.
  intros [t -> Hc Hf Hcom] Hst. unfold row_values. rewrite behind_text_after.
  assert (Hlen : length line <= length (rest st)).
  { assert (length line <= length (c ++ t)).
    { apply first_line_iff in Hf. destruct Hf as [-> _]. rewrite !app_length. lia. }
    destruct Hst as [->|[E _]]; [exact H|]. rewrite E in H. cbn in H. lia. }
  destruct line as [|h line]; cbn [row_tokens].
  - destruct c as [|x c].
    + cbn [app] in Hst. destruct (skip_empty eager t after true st Hf Hst) as (st' & E & He). rewrite (vector_unfold _ _ _ E).
      destruct (all_empty true st' after (S (length (rest st))) He) as (st2 & -> & Ht). cbn [bind values_of]. eauto.
    + apply first_line_iff in Hf. destruct Hf as [-> _]. cbn [app] in Hst. unfold csv_read_row_std_vector, new_reader.
      rewrite (skip_error (x :: c) after true st Hc); [reflexivity|discriminate|exact Hst].
  - destruct (Z.eqb_spec h hash) as [->|Hh].
    + rewrite (Hcom (ex_intro _ line eq_refl)) in *. apply first_line_iff in Hf. destruct Hf as [-> Hn]. cbn [tail] in Hst. rewrite app_nil_r in Hst.
      destruct (skip_unfinished c line true st Hc) as (st' & E & He); auto. { intros K. apply Hn. now right. }
      rewrite (vector_unfold _ _ _ E).
      destruct (all_empty false st' None (S (length (rest st))) He) as (st2 & -> & Ht). cbn [bind values_of]. eauto.
    + assert (Hnc : ~ is_comment (h :: line)) by (intros [body K]; congruence).
      destruct (skip_ok eager c t (h :: line) after true st Hc Hf) as (r & st' & E & R); auto; [discriminate|]. rewrite (vector_unfold _ _ _ E).
      pose proof (all_any (S (length (rest st))) r st' (h :: line) after R ltac:(lia)) as H. unfold vector_result in H.
      destruct (values_of number (tokens sep (h :: line))) as [vs|].
      * destruct H as (st2 & -> & Ht). cbn [bind]. eauto.
      * now rewrite H.
Qed.
End Any.

(** ** Every text has parts and rows *)
Lemma first_line_shorter text line r : first_line text = (line, Some r) -> length r < length text.
Proof. intros H. apply first_line_iff in H. destruct H as [-> _]. cbn [tail]. rewrite app_length. cbn. lia. Qed.
Lemma every_text text : exists c line after, parts text c line after.
Proof.
  remember (length text) as k eqn:Ek. assert (Hk : length text <= k) by lia. clear Ek. revert text Hk. induction k as [|k IH]; intros text Hk.
  - destruct text; [|cbn in Hk; lia]. exists [], [], None. exact (Parts [] [] [] None [] eq_refl no_comments eq_refl (fun _ => eq_refl)).
  - destruct (first_line text) as [line after] eqn:E. destruct after as [r|].
    + destruct line as [|h l].
      { exists [], [], (Some r). apply (Parts text [] [] (Some r) text eq_refl no_comments E). intros [b K]. discriminate. }
      destruct (Z.eq_dec h hash) as [->|Hh].
      * pose proof (first_line_shorter _ _ _ E) as Hs. destruct (IH r ltac:(lia)) as (c & line & after & [t Ht Hc Hf Hcom]).
        exists (hash :: l ++ newline :: c), line, after. apply first_line_iff in E. destruct E as [-> Hn].
        apply (Parts _ _ _ _ t); auto.
        { cbn [tail app]. rewrite <- app_assoc. cbn [app]. now rewrite Ht. }
        constructor; auto. intros K. apply Hn. now right.
      * exists [], (h :: l), (Some r). apply (Parts text [] _ _ text eq_refl no_comments E). intros [b K]. congruence.
    + exists [], line, None. apply (Parts text [] _ _ text eq_refl no_comments E). auto.
Qed.
Lemma every_rows {V} (number : list Z -> option (V * nat)) sep n k : forall text, exists res, rows_at number sep n k text res.
Proof.
  induction k as [|k IH]; intros text; [eexists; apply at_done|]. destruct (every_text text) as (c & line & after & Hp).
  destruct (row_values number sep c line) as [vs|] eqn:E.
  - destruct (Nat.eq_dec (length vs) n) as [H|H].
    + destruct (IH (behind after)) as (res & Hr). eexists. eapply at_row; eauto.
    + exists None. eapply at_error; eauto. congruence.
  - exists None. eapply at_error; eauto. congruence.
Qed.
