(** Proofs about the texts of the exceptions of the CSV functions. *)
From Verif Require Import Base Bytes Csv_Spec Csv_Model Csv_Proofs Csv_More Csv_Exact CsvAny_Spec CsvAny_Proofs CsvText_Spec CsvText_Model.
Local Open Scope outcome_scope.
Local Arguments Nat.eqb : simpl never.
Local Arguments Nat.ltb : simpl never.
Local Arguments Nat.sub : simpl never.
Local Arguments Nat.mul : simpl never.
Local Arguments Z.eqb : simpl never.

(** Without the texts *)
Definition erase {A} (m : res A) : outcome A :=
  match m with Done a => Ok a | Error _ => Throw csv_read_error | Aborts => Abort | Undefined => UB end.
Lemma erase_andthen {A B} (m : res A) (k : A -> res B) : erase (andthen m k) = (x <- erase m ;; erase (k x)).
Proof. now destruct m. Qed.
Lemma erase_ok {A} (m : res A) a : erase m = Ok a -> m = Done a.
Proof. destruct m; cbn; congruence. Qed.

Section Same.
Context (eager : bool) {V : Type} (number : list Z -> option (V * nat)) (reason : list Z -> list Z) (sep : Z).
Lemma bind_ext {A B} (m m' : outcome A) (k k' : A -> outcome B) : m = m' -> (forall a, k a = k' a) -> bind m k = bind m' k'.
Proof. intros -> H. destruct m'; cbn [bind]; auto. Qed.
Lemma chunk_same r st : erase (read_chunk_t eager r st) = read_chunk eager r st.
Proof.
  unfold read_chunk_t, read_chunk. destruct (fail st); [reflexivity|]. destruct (Nat.eqb bufmaxsize (length (buf r))); [reflexivity|].
  destruct (get_n eager (bufmaxsize - length (buf r)) st) as [t st2]. destruct (fail st2); [reflexivity|]. now destruct (peek st2).
Qed.
Lemma single_same s : erase (read_single_t number reason s) = read_single number s.
Proof.
  unfold read_single_t, read_single. destruct s as [|c t]; [destruct (number []) as [[v k]|]; reflexivity|].
  destruct (Z.eqb c plus); destruct (number _) as [[v k]|]; reflexivity.
Qed.
Lemma read_same r st : erase (read_t eager number reason sep r st) = read eager number sep r st.
Proof.
  unfold read_t, read. rewrite erase_andthen. apply bind_ext; [destruct (keep_reading r); [apply chunk_same|reflexivity]|].
  intros [r' st']. rewrite erase_andthen. apply bind_ext; [apply single_same|]. intros [v k].
  destruct (skipn k (buf r')) as [|c t]; [reflexivity|]. now destruct (Z.eqb c sep).
Qed.
Lemma next_same r st : erase (next_line_t r st) = next_line r st.
Proof. unfold next_line_t, next_line. destruct (buf r); [|reflexivity]. destruct (eof st); [reflexivity|]. destruct (get st) as [c st2]. now destruct (is_end c). Qed.
Lemma rest_same fuel : forall r st, erase (skip_rest_t eager fuel r st) = skip_rest eager fuel r st.
Proof.
  induction fuel as [|fuel IH]; intros r st; cbn [skip_rest_t skip_rest]; destruct (keep_reading r); try reflexivity.
  rewrite erase_andthen. apply bind_ext; [apply chunk_same|]. intros [r' st']. apply IH.
Qed.
Lemma loop_same fuel : forall r st, erase (skip_loop_t eager fuel r st) = skip_loop eager fuel r st.
Proof.
  induction fuel as [|fuel IH]; intros r st; cbn [skip_loop_t skip_loop]; destruct (eof st); try reflexivity.
  rewrite erase_andthen. apply bind_ext; [apply chunk_same|]. intros [r' st']. destruct (buf r') as [|c t]; [reflexivity|].
  destruct (Z.eqb c hash); [|reflexivity]. rewrite erase_andthen. apply bind_ext; [apply rest_same|]. intros [r2 st2]. cbv zeta.
  rewrite erase_andthen. apply bind_ext; [apply next_same|]. intros st3. apply IH.
Qed.
Lemma skip_same r st : erase (skip_comments_t eager r st) = skip_comments eager r st.
Proof.
  unfold skip_comments_t, skip_comments. destruct (buf r); [|reflexivity]. destruct (eof st); [reflexivity|]. destruct (peek st) as [c st2].
  destruct (is_end c); [reflexivity|apply loop_same].
Qed.
Lemma fields_same n : forall r st, erase (read_fields_t eager number reason sep n r st) = read_fields eager number sep n r st.
Proof.
  induction n as [|n IH]; intros r st; cbn [read_fields_t read_fields]; [reflexivity|]. rewrite erase_andthen. apply bind_ext; [apply read_same|].
  intros [[v r'] st']. rewrite erase_andthen. apply bind_ext; [apply IH|]. now intros [[vs r2] st2].
Qed.
Lemma one_row_same n r st : erase (one_row_t eager number reason sep n r st) = one_row eager number sep n r st.
Proof.
  unfold one_row_t, one_row. rewrite erase_andthen. apply bind_ext; [apply skip_same|]. intros [r' st']. rewrite erase_andthen. apply bind_ext; [apply fields_same|].
  intros [[vs r2] st2]. rewrite erase_andthen. apply bind_ext; [apply next_same|]. reflexivity.
Qed.
Lemma read_row_same n st : erase (csv_read_row_t eager number reason sep n st) = csv_read_row eager number sep n st.
Proof. unfold csv_read_row_t, csv_read_row. rewrite erase_andthen. apply bind_ext; [apply one_row_same|]. now intros [[vs r2] st2]. Qed.
Lemma read_rows_same n k : forall r st, erase (read_rows_t eager number reason sep k n r st) = read_rows eager number sep k n r st.
Proof.
  induction k as [|k IH]; intros r st; cbn [read_rows_t read_rows]; [reflexivity|]. rewrite erase_andthen. apply bind_ext; [apply one_row_same|].
  intros [[v r'] st']. rewrite erase_andthen. apply bind_ext; [apply IH|]. now intros [vs st2].
Qed.
Lemma all_same fuel : forall r st, erase (read_all_t eager number reason sep fuel r st) = read_all eager number sep fuel r st.
Proof.
  induction fuel as [|fuel IH]; intros r st; cbn [read_all_t read_all]; destruct (done r st) as [d st1]; destruct d; try reflexivity.
  rewrite erase_andthen. apply bind_ext; [apply read_same|].
  intros [[v r'] st']. rewrite erase_andthen. apply bind_ext; [apply IH|]. now intros [[vs r2] st2].
Qed.
Lemma vector_same st : erase (csv_read_row_std_vector_t eager number reason sep st) = csv_read_row_std_vector eager number sep st.
Proof.
  unfold csv_read_row_std_vector_t, csv_read_row_std_vector. rewrite erase_andthen. apply bind_ext; [apply skip_same|]. intros [r' st'].
  rewrite erase_andthen. apply bind_ext; [apply all_same|]. intros [[vs r2] st2]. rewrite erase_andthen. apply bind_ext; [apply next_same|]. reflexivity.
Qed.
End Same.

(** ** Tokens *)
Lemma first_field_no_sep sep p : ~ In sep p -> first_field sep p = p.
Proof. intros H. unfold first_field. now rewrite pieces_no_sep. Qed.
Lemma first_field_sep sep p l : ~ In sep p -> first_field sep (p ++ sep :: l) = p.
Proof. intros H. unfold first_field. now rewrite pieces_sep. Qed.
Lemma skipn_behind {A} (p : list A) x l : skipn (S (length p)) (p ++ x :: l) = l.
Proof. induction p as [|y p IH]; [reflexivity|]. exact IH. Qed.
Lemma tokens_first sep l : l <> [] -> tokens sep l = first_token sep l :: tokens sep (after_token sep l).
Proof.
  intros Hl. unfold first_token, after_token. destruct (cut_line sep l) as [->|[[Hne Hs]|(p & l' & -> & Hs)]]; [congruence| |].
  - rewrite first_field_no_sep by auto. destruct (Nat.ltb_spec (length l) 64) as [H|H].
    + rewrite firstn_all2, skipn_all2 by lia. rewrite tokens_no_sep, end_short by auto. reflexivity.
    + rewrite tokens_no_sep, end_long by auto. rewrite tokens_no_sep by now apply not_in_skipn. reflexivity.
  - rewrite first_field_sep by auto. rewrite tokens_sep by auto. destruct (Nat.ltb_spec (length p) 64) as [H|H].
    + rewrite firstn_all2 by lia. rewrite skipn_behind. rewrite before_short by auto. reflexivity.
    + rewrite before_long by auto. cbn [app]. f_equal. rewrite skipn_app. replace (64 - length p) with 0 by lia. rewrite skipn_O.
      rewrite tokens_sep by now apply not_in_skipn. reflexivity.
Qed.
Lemma strip_length s : length (strip_plus s) <= length s.
Proof. unfold strip_plus. destruct s as [|c s]; auto. destruct (Z.eqb c plus); cbn; lia. Qed.
Lemma strip_skip s k : skipn (length s - length (strip_plus s) + k) s = skipn k (strip_plus s).
Proof.
  unfold strip_plus. destruct s as [|c s]; [now cbn|]. destruct (Z.eqb c plus).
  - cbn [length]. replace (S (length s) - length s + k) with (S k) by lia. reflexivity.
  - now rewrite Nat.sub_diag.
Qed.

Section Texts.
Context (eager : bool) {V : Type} (number : list Z -> option (V * nat)) (reason : list Z -> list Z) (sep : Z) (Hsep : separates number sep).
(** The characters [b] is what the buffer has behind the first token. *)
Lemma strip_app t b : (b = [] \/ exists b', b = sep :: b') -> strip_plus (t ++ b) = strip_plus t ++ b.
Proof using Hsep.
  intros Hb. destruct t as [|c t]; [|cbn [app strip_plus]; destruct (Z.eqb c plus); reflexivity].
  destruct Hb as [->|(b' & ->)]; [reflexivity|]. cbn [app strip_plus]. destruct Hsep as (_ & H & _). now rewrite (proj2 (Z.eqb_neq _ _) H).
Qed.
Lemma strip_no_sep t : ~ In sep t -> ~ In sep (strip_plus t).
Proof. intros H. unfold strip_plus. destruct t as [|c t]; auto. destruct (Z.eqb c plus); auto. intros K. apply H. now right. Qed.
Lemma number_app t b : ~ In sep t -> (b = [] \/ exists b', b = sep :: b') -> number (strip_plus (t ++ b)) = number (strip_plus t).
Proof using Hsep.
  intros Ht Hb. rewrite strip_app by auto. destruct Hb as [->|(b' & ->)]; [now rewrite app_nil_r|]. destruct Hsep as (_ & _ & _ & H). apply H. now apply strip_no_sep.
Qed.
Lemma buffer_first l : exists b, firstn 64 l = first_token sep l ++ b /\ (b = [] \/ exists b', b = sep :: b') /\ ~ In sep (first_token sep l) /\
  (first_token sep l = [] -> l <> [] -> b <> []).
Proof.
  unfold first_token. destruct (cut_line sep l) as [->|[[Hne Hs]|(p & l' & -> & Hs)]].
  - exists []. cbn. repeat split; auto; congruence.
  - rewrite first_field_no_sep by auto. exists []. rewrite app_nil_r. split; [reflexivity|]. split; [now left|]. split; [intros K; apply Hs; eapply incl_firstn_in; exact K|].
    destruct l; [congruence|discriminate].
  - rewrite first_field_sep by auto. rewrite firstn_app. exists (firstn (64 - length p) (sep :: l')). split; [reflexivity|].
    destruct (64 - length p) as [|j] eqn:Ej; [rewrite firstn_O|rewrite firstn_cons]; (split; [eauto|]; split; [intros K; apply Hs; eapply incl_firstn_in; exact K|]).
    + intros K. apply (f_equal (@length Z)) in K. rewrite firstn_length in K. cbn [length] in K. lia.
    + discriminate.
Qed.
Lemma buffer_rep r st l after : rep r st l after -> (keep_reading r = false \/ length (buf r) = 64) -> buf r = firstn 64 l.
Proof.
  intros (_ & Hb & l2 & -> & Hk) F. destruct F as [F|F].
  - rewrite F in Hk. destruct Hk as [-> _]. rewrite app_nil_r. now rewrite firstn_all2.
  - rewrite firstn_app, F, Nat.sub_diag, firstn_O, app_nil_r. now rewrite firstn_all2 by lia.
Qed.
(** One read *)
Lemma read_says l : l <> [] -> forall r st after, rep r st l after ->
  match problem number reason sep l with
  | Some t => read_t eager number reason sep r st = Error t
  | None => exists v r' st', read_t eager number reason sep r st = Done (v, r', st') /\ rep r' st' (after_token sep l) after
  end.
Proof using Hsep.
  intros Hl r st after R. destruct (problem number reason sep l) as [txt|] eqn:P.
  - destruct (refill eager r st l after R) as (r' & st' & E & R' & F). pose proof (buffer_rep _ _ _ _ R' F) as B.
    destruct (buffer_first l) as (b & Eb & Hb & Hno & _). unfold read_t.
    assert (E' : (if keep_reading r then read_chunk_t eager r st else Done (r, st)) = Done (r', st')).
    { apply erase_ok. rewrite <- E. destruct (keep_reading r); [apply chunk_same|reflexivity]. }
    rewrite E'. cbn [andthen]. rewrite B. unfold read_single_t.
    assert (Es : forall A (f : nat * list Z -> A), f (match firstn 64 l with c :: t => if Z.eqb c plus then (1, t) else (0, firstn 64 l) | [] => (0, firstn 64 l) end) =
      f (length (firstn 64 l) - length (strip_plus (firstn 64 l)), strip_plus (firstn 64 l))).
    { intros A f. f_equal. unfold strip_plus. destruct (firstn 64 l) as [|c t]; [reflexivity|]. destruct (Z.eqb c plus); f_equal; cbn [length]; lia. }
    rewrite (Es _ (fun x => andthen (let '(skip, s') := x in match number s' with Some (v, k) => Done (v, skip + k) | None => Error (bytes "io::csv_read_row conversion failed '" ++ s' ++ bytes "': " ++ reason s') end) _)).
    unfold problem in P. rewrite <- (number_app _ b Hno Hb), <- Eb in P.
    destruct (number (strip_plus (firstn 64 l))) as [[v k]|] eqn:En; cbn [andthen].
    + rewrite strip_skip. rewrite Eb, strip_app by auto. destruct (skipn k (strip_plus (first_token sep l))) as [|c t] eqn:Ek; [discriminate|].
      rewrite skipn_app, Ek. cbn [app]. replace (Z.eqb c sep) with false; [injection P as <-; reflexivity|]. symmetry. apply Z.eqb_neq. intros ->.
      apply (strip_no_sep _ Hno). rewrite <- (firstn_skipn k), Ek. apply in_or_app. right. now left.
    + injection P as <-. reflexivity.
  - assert (Hv : exists v, value_of number (first_token sep l) = Some v).
    { unfold problem in P. unfold value_of. destruct (number (strip_plus (first_token sep l))) as [[v k]|] eqn:En; [|discriminate]. exists v.
      destruct (skipn k (strip_plus (first_token sep l))) as [|c t] eqn:Ek; [|discriminate]. destruct Hsep as (_ & _ & Hlen & _). apply Hlen in En.
      apply (f_equal (@length Z)) in Ek. rewrite skipn_length in Ek. cbn [length] in Ek. now rewrite (proj2 (Nat.eqb_eq _ _)) by lia. }
    destruct Hv as (v & Hv). exists v.
    enough (K : exists r' st', read eager number sep r st = Ok (v, r', st') /\ rep r' st' (after_token sep l) after).
    { destruct K as (r' & st' & K & R'). exists r', st'. split; [|exact R']. apply erase_ok. now rewrite read_same. }
    revert Hv. unfold first_token, after_token. destruct (cut_line sep l) as [->|[[Hne Hs]|(p & l' & -> & Hs)]]; [congruence| |].
    + rewrite first_field_no_sep by auto. destruct (Nat.ltb_spec (length l) 64) as [H|H]; intros Hv.
      * rewrite firstn_all2 in Hv by lia. rewrite skipn_all2 by lia. pose proof (read_last_short eager number sep Hsep r st l after R Hne Hs H) as K.
        rewrite Hv in K. destruct K as (st' & E & He). exists (Reader [] false), st'. split; [exact E|]. now apply at_end_rep.
      * rewrite <- (app_nil_r l) in R. destruct (read_long_value eager number sep Hsep r st l [] after v R Hs H Hv) as (r' & st' & K & R'). rewrite app_nil_r in R'. eauto.
    + rewrite first_field_sep by auto. destruct (Nat.ltb_spec (length p) 64) as [H|H]; intros Hv.
      * rewrite firstn_all2 in Hv by lia. rewrite skipn_behind. pose proof (read_first_short eager number sep Hsep r st p l' after R Hs H) as K. rewrite Hv in K. exact K.
      * rewrite skipn_app. replace (64 - length p) with 0 by lia. rewrite skipn_O.
        exact (read_long_value eager number sep Hsep r st p (sep :: l') after v R Hs H Hv).
Qed.
Lemma read_nothing st : read_t eager number reason sep (Reader [] false) st = Error (conversion reason []).
Proof using Hsep. unfold read_t. cbn [keep_reading andthen buf]. unfold read_single_t. rewrite (number_nil number sep Hsep). reflexivity. Qed.
Lemma next_more r st l after : rep r st l after -> l <> [] -> next_line_t r st = Error (bytes "io::csv_read_row line not fully consumed").
Proof.
  intros R Hl. pose proof (next_line_more r st l after R Hl) as H. rewrite <- next_same in H. unfold next_line_t in *.
  destruct (buf r); [|reflexivity]. destruct (eof st); [discriminate|]. destruct (get st) as [c st2]. destruct (is_end c); [discriminate|reflexivity].
Qed.
(** The fields of a line, and its end *)
Lemma fields_say n : forall r st l after, rep r st l after ->
  match complaint number reason sep n l with
  | Some t => andthen (read_fields_t eager number reason sep n r st) (fun '(vs, r, st) => andthen (next_line_t r st) (fun st => Done (vs, r, st))) = Error t
  | None => exists vs st', andthen (read_fields_t eager number reason sep n r st) (fun '(vs, r, st) => andthen (next_line_t r st) (fun st => Done (vs, r, st))) =
      Done (vs, Reader [] false, st') /\ at_text st' (behind after)
  end.
Proof using Hsep.
  induction n as [|n IH]; intros r st l after R; cbn [read_fields_t].
  - destruct l as [|c l].
    + cbn [complaint andthen]. destruct (rep_nil _ _ _ R) as [-> He]. destruct (next_line_end false st after He) as (st' & E & Ht).
      rewrite <- next_same in E. apply erase_ok in E. rewrite E. cbn [andthen]. exists [], st'. rewrite behind_text_after. auto.
    + cbn [complaint andthen]. rewrite (next_more _ _ _ _ R) by discriminate. reflexivity.
  - destruct (list_eq_dec Z.eq_dec l []) as [->|Hl].
    + destruct (rep_nil _ _ _ R) as [-> He]. rewrite read_nothing. reflexivity.
    + replace (complaint number reason sep (S n) l) with (match problem number reason sep l with Some t => Some t | None => complaint number reason sep n (after_token sep l) end)
        by (destruct l; [congruence|reflexivity]).
      pose proof (read_says l Hl r st after R) as H. destruct (problem number reason sep l) as [t|].
      * rewrite H. reflexivity.
      * destruct H as (v & r' & st' & -> & R'). cbn [andthen]. specialize (IH r' st' _ after R').
        destruct (complaint number reason sep n (after_token sep l)) as [t|].
        -- destruct (read_fields_t eager number reason sep n r' st') as [[[vs r2] st2]| | |]; cbn [andthen] in *; try congruence.
           destruct (next_line_t r2 st2); cbn [andthen] in *; congruence.
        -- destruct IH as (vs & st2 & IH & Ht). exists (v :: vs), st2. split; [|exact Ht].
           destruct (read_fields_t eager number reason sep n r' st') as [[[vs' r2] st3]| | |]; cbn [andthen] in *; try discriminate.
           destruct (next_line_t r2 st3); cbn [andthen] in *; try discriminate. injection IH as -> -> ->. reflexivity.
Qed.
(** The fields of a row of any length *)
Lemma all_say fuel : forall r st l after, rep r st l after -> length l <= fuel ->
  match complaint number reason sep (length (tokens sep l)) l with
  | Some t => read_all_t eager number reason sep fuel r st = Error t
  | None => exists x, read_all_t eager number reason sep fuel r st = Done x
  end.
Proof using Hsep.
  induction fuel as [|fuel IH]; intros r st l after R Hf; cbn [read_all_t]; destruct (done_rep r st l after R) as (st' & -> & R').
  - destruct l as [|d l]; [|cbn in Hf; lia]. cbn. eauto.
  - destruct (list_eq_dec Z.eq_dec l []) as [->|Hl].
    + cbn. eauto.
    + replace (match l with [] => true | _ => false end) with false by (destruct l; congruence).
      pose proof (read_token eager number sep Hsep l Hl) as (t0 & l0 & E0 & Hlen & _).
      rewrite (tokens_first sep l Hl). cbn [length].
      replace (complaint number reason sep (S (length (tokens sep (after_token sep l)))) l) with
        (match problem number reason sep l with Some t => Some t | None => complaint number reason sep (length (tokens sep (after_token sep l))) (after_token sep l) end)
        by (destruct l; [congruence|reflexivity]).
      pose proof (read_says l Hl r st' after R') as H. destruct (problem number reason sep l) as [t|].
      * rewrite H. reflexivity.
      * destruct H as (v & r' & st2 & -> & R2). cbn [andthen].
        assert (L : length (after_token sep l) <= fuel).
        { unfold after_token. assert (1 <= length l) by (destruct l; [congruence|cbn; lia]). destruct (Nat.ltb _ _); rewrite skipn_length; lia. }
        specialize (IH r' st2 _ after R2 L). destruct (complaint number reason sep (length (tokens sep (after_token sep l))) (after_token sep l)) as [t|].
        -- rewrite IH. reflexivity.
        -- destruct IH as ([[vs r3] st3] & ->). cbn [andthen]. eauto.
Qed.

(** ** Comments *)
Lemma chunk_empty_t b after : read_chunk_t eager (Reader [] b) (open (tail after)) = Error (no_line after).
Proof.
  unfold read_chunk_t. cbn [fail open buf length]. change (Nat.eqb bufmaxsize 0) with false. cbv iota. unfold get_n. cbn [good eof fail negb andb rest open].
  destruct after as [r|]; cbn [tail].
  - reflexivity.
  - unfold bufmaxsize. change (64 - 0) with 64. cbn [take_line length skipn]. change (Nat.ltb 0 64) with true. rewrite orb_true_r. reflexivity.
Qed.
Lemma loop_error_t c : comments c -> forall after fuel b, length (c ++ tail after) < fuel ->
  skip_loop_t eager fuel (Reader [] b) (open (c ++ tail after)) = Error (no_line after).
Proof.
  induction 1 as [|body c Hbody Hc IH]; intros after fuel b Hf.
  - destruct fuel as [|fuel]; [lia|]. cbn [app skip_loop_t]. cbn [eof open]. rewrite chunk_empty_t. reflexivity.
  - cbn [app]. rewrite <- app_assoc. cbn [app]. set (l := hash :: body). set (nxt := Some (c ++ tail after)).
    replace (hash :: body ++ newline :: c ++ tail after) with (l ++ tail nxt) by reflexivity.
    destruct fuel as [|fuel]; [cbn in Hf; lia|]. cbn [skip_loop_t open eof].
    destruct (chunk eager (Reader [] b) l nxt) as (r' & st' & E & R & _ & Hb & (bb & Hbb) & Hlt); cbn [buf app length]; try lia; [|discriminate|].
    { intros [K|K]; [discriminate|auto]. }
    cbn [open] in E. rewrite <- chunk_same in E. apply erase_ok in E. rewrite E. cbn [andthen]. destruct (buf r') as [|d t] eqn:Eb; [congruence|].
    assert (Hd : d = hash). { destruct R as (_ & _ & l2 & El & _). rewrite Eb in El. cbn in El. injection El as <- _. reflexivity. }
    subst d. rewrite Z.eqb_refl.
    destruct (skip_rest_ok eager (S (length (rest st'))) r' st' l nxt R) as (b2 & st2 & E2 & He); [lia|].
    rewrite <- rest_same in E2. apply erase_ok in E2. rewrite E2. cbn [andthen keep_reading].
    cbn [at_end nxt] in He. subst st2. cbn [next_line_t buf open eof good fail negb andb rest get is_end]. rewrite Z.eqb_refl. cbn [andthen].
    apply IH. rewrite app_length in Hf |- *. cbn [length] in Hf. rewrite app_length in Hf. cbn [length] in Hf. lia.
Qed.
Lemma skip_error_t c after b st : comments c -> c <> [] -> at_text st (c ++ tail after) ->
  skip_comments_t eager (Reader [] b) st = Error (no_line after).
Proof.
  intros Hc Hn Hst. destruct (comment_first c (tail after) Hc Hn) as (t & Et). destruct Hst as [->|[E _]]; [|congruence].
  unfold skip_comments_t. cbn [buf open eof]. unfold peek, good. rewrite Et. cbn [open eof fail negb andb rest is_end].
  change (Z.eqb hash newline) with false. cbv iota. change (Stream (hash :: t) false false) with (open (hash :: t)). rewrite <- Et.
  apply loop_error_t; auto.
Qed.
Lemma skip_done r st x : skip_comments eager r st = Ok x -> skip_comments_t eager r st = Done x.
Proof. intros E. apply erase_ok. now rewrite skip_same. Qed.
(** A row that is an empty line, read with a new reader from an unused stream *)
Lemma empty_open after : exists st', skip_comments_t eager (Reader [] true) (open (tail after)) = Done (Reader [] true, st') /\ at_end st' after /\
  read_t eager number reason sep (Reader [] true) st' = Error (no_line after).
Proof.
  destruct after as [r|]; cbn [tail].
  - exists (open (newline :: r)). split; [reflexivity|]. split; [reflexivity|]. unfold read_t. cbn [keep_reading].
    change (newline :: r) with (tail (Some r)). rewrite chunk_empty_t. reflexivity.
  - exists (Stream [] true false). split; [reflexivity|]. split; [split; reflexivity|]. reflexivity.
Qed.
Definition says {A} (m : option (list Z)) (x : res A) : Prop := match m with Some t => x = Error t | None => exists a, x = Done a end.
Lemma row_says text c line after n b st : parts text c line after -> at_text st text -> (st = open text \/ b = false \/ n = 0) ->
  match row_complaint number reason sep b c line after n with
  | Some t => one_row_t eager number reason sep n (Reader [] b) st = Error t
  | None => exists vs b' st', one_row_t eager number reason sep n (Reader [] b) st = Done (vs, Reader [] b', st') /\ at_text st' (behind after) /\ (b' = false \/ n = 0)
  end.
Proof using Hsep.
  intros [t -> Hc Hf Hcom] Hst Hb. unfold row_complaint, one_row_t. rewrite behind_text_after. destruct line as [|h line].
  - destruct c as [|x c].
    + cbn [app] in Hst, Hb. destruct n as [|n].
      * destruct (skip_empty eager t after b st Hf Hst) as (st' & E & He). rewrite (skip_done _ _ _ E). cbn [andthen read_fields_t].
        destruct (next_line_end b st' after He) as (st2 & E2 & Ht). rewrite <- next_same in E2. apply erase_ok in E2. rewrite E2. cbn [andthen].
        exists [], b, st2. auto.
      * destruct Hb as [->|[->|Hb]]; [| |lia].
        -- destruct b.
           ++ pose proof Hf as Hf'. apply first_line_iff in Hf'. destruct Hf' as [-> _]. cbn [app].
              destruct (empty_open after) as (st' & -> & He & E). cbn [andthen read_fields_t]. rewrite E. reflexivity.
           ++ destruct (skip_empty eager t after false _ Hf Hst) as (st' & E & He). rewrite (skip_done _ _ _ E). cbn [andthen read_fields_t]. now rewrite read_nothing.
        -- destruct (skip_empty eager t after false _ Hf Hst) as (st' & E & He). rewrite (skip_done _ _ _ E). cbn [andthen read_fields_t]. now rewrite read_nothing.
    + apply first_line_iff in Hf. destruct Hf as [-> _]. cbn [app] in Hst.
      rewrite (skip_error_t (x :: c) after b st Hc); [reflexivity|discriminate|exact Hst].
  - destruct (Z.eqb_spec h hash) as [->|Hh].
    + rewrite (Hcom (ex_intro _ line eq_refl)) in *. apply first_line_iff in Hf. destruct Hf as [-> Hn]. cbn [tail] in Hst. rewrite app_nil_r in Hst.
      destruct (skip_unfinished eager c line b st Hc) as (st' & E & He); auto. { intros K. apply Hn. now right. }
      rewrite (skip_done _ _ _ E). cbn [andthen]. destruct n as [|n]; cbn [read_fields_t].
      * cbn [andthen]. destruct (next_line_end false st' None He) as (st2 & E2 & Ht). rewrite <- next_same in E2. apply erase_ok in E2. rewrite E2. cbn [andthen].
        exists [], false, st2. auto.
      * now rewrite read_nothing.
    + assert (Hnc : ~ is_comment (h :: line)) by (intros [body K]; congruence).
      destruct (skip_ok eager c t (h :: line) after b st Hc Hf) as (r & st' & E & R); auto; [discriminate|]. rewrite (skip_done _ _ _ E). cbn [andthen].
      pose proof (fields_say n r st' (h :: line) after R) as H. destruct (complaint number reason sep n (h :: line)) as [tx|]; [exact H|].
      destruct H as (vs & st2 & H & Ht). exists vs, false, st2. rewrite <- behind_text_after. auto.
Qed.
Lemma rows_say n first k text t : matrix_complaint number reason sep n first k text t -> forall b st, at_text st text ->
  (first = true -> b = true /\ st = open text) -> (first = false -> b = false \/ n = 0) ->
  says t (read_rows_t eager number reason sep k n (Reader [] b) st).
Proof using Hsep.
  induction 1 as [first text|first k text c line after t Hp Hn Hm IH|first k text c line after t Hp Hn]; intros b st Hst H1 H2; cbn [read_rows_t].
  - cbn. eauto.
  - assert (Hb : st = open text \/ b = false \/ n = 0) by (destruct first; [left; now apply H1|right; now apply H2]).
    pose proof (row_says text c line after n b st Hp Hst Hb) as H.
    assert (E : row_complaint number reason sep b c line after n = None).
    { destruct first; [now rewrite (proj1 (H1 eq_refl))|]. destruct (H2 eq_refl) as [->| ->]; [exact Hn|]. unfold row_complaint in *. destruct line, c; auto. }
    rewrite E in H. destruct H as (vs & b' & st' & -> & Ht & Hb'). cbn [andthen].
    specialize (IH b' st' Ht ltac:(discriminate) (fun _ => Hb')). unfold says in *. destruct t as [t|].
    + rewrite IH. reflexivity.
    + destruct IH as ([vss st2] & ->). cbn [andthen]. eauto.
  - assert (Hb : st = open text \/ b = false \/ n = 0) by (destruct first; [left; now apply H1|right; now apply H2]).
    pose proof (row_says text c line after n b st Hp Hst Hb) as H.
    assert (E : row_complaint number reason sep b c line after n = Some t).
    { destruct first; [now rewrite (proj1 (H1 eq_refl))|]. destruct (H2 eq_refl) as [->| ->]; [exact Hn|]. unfold row_complaint in *. destruct line, c; auto. }
    rewrite E in H. unfold says. rewrite H. reflexivity.
Qed.
Lemma vector_says text c line after : parts text c line after ->
  says (vector_complaint number reason sep c line after) (csv_read_row_std_vector_t eager number reason sep (open text)).
Proof using Hsep.
  intros Hp. pose proof (csv_vector_any eager number sep Hsep text c line after (open text) Hp (or_introl eq_refl)) as Hres.
  rewrite <- (vector_same eager number reason sep) in Hres.
  destruct Hp as [t -> Hc Hf Hcom]. unfold vector_complaint, row_values in *.
  assert (Hlen : length line <= length (c ++ t)).
  { apply first_line_iff in Hf. destruct Hf as [-> _]. rewrite !app_length. lia. }
  destruct line as [|h line]; cbn [row_tokens row_complaint] in *.
  - destruct c as [|x c].
    + cbn [length]. cbn [values_of] in Hres. destruct Hres as (st' & E & _). apply erase_ok in E. unfold says. eauto.
    + apply first_line_iff in Hf. destruct Hf as [-> _]. cbn [app]. unfold says, csv_read_row_std_vector_t, new_reader.
      cbn [app] in *. rewrite (skip_error_t (x :: c) after true (open (x :: c ++ tail after)) Hc); [reflexivity|discriminate|now left].
  - destruct (Z.eqb_spec h hash) as [->|Hh].
    + cbn [length]. cbn [values_of] in Hres. destruct Hres as (st' & E & _). apply erase_ok in E. unfold says. eauto.
    + assert (Hnc : ~ is_comment (h :: line)) by (intros [body K]; congruence).
      destruct (skip_ok eager c t (h :: line) after true (open (c ++ t)) Hc Hf) as (r & st' & E & R); auto; [discriminate|now left|].
      apply skip_done in E.
      pose proof (all_say (S (length (rest (open (c ++ t))))) r st' (h :: line) after R) as H. cbn [rest open] in H. specialize (H ltac:(lia)).
      unfold csv_read_row_std_vector_t in *. change new_reader with (Reader [] true) in *. rewrite E in Hres |- *. cbn [andthen rest open] in *.
      destruct (complaint number reason sep (length (tokens sep (h :: line))) (h :: line)) as [tx|] eqn:Ec.
      * cbn [says]. rewrite H. reflexivity.
      * destruct H as ([[vs r2] st2] & H). rewrite H in Hres |- *. cbn [andthen] in *. cbn [says].
        destruct (values_of number (tokens sep (h :: line))) as [ws|] eqn:Ev.
        -- destruct Hres as (st3 & Hres & _). apply erase_ok in Hres. eauto.
        -- exfalso. clear - Ec Ev Hsep. remember (length (tokens sep (h :: line))) as j eqn:Ej.
           assert (K : forall m l, length (tokens sep l) = m -> complaint number reason sep m l = None -> values_of number (tokens sep l) <> None).
           { induction m as [|m IHm]; intros l Hl Hcm.
             - destruct (tokens sep l); [discriminate|cbn in Hl; lia].
             - destruct l as [|d l]; [cbn in Hl; lia|]. rewrite (tokens_first sep (d :: l)) in Hl |- * by discriminate. cbn [length] in Hl. injection Hl as Hl.
               cbn [complaint] in Hcm. destruct (problem number reason sep (d :: l)) eqn:Ep; [discriminate|].
               specialize (IHm _ Hl Hcm). cbn [values_of]. unfold problem in Ep. unfold value_of.
               destruct (number (strip_plus (first_token sep (d :: l)))) as [[v k]|] eqn:En; [|discriminate].
               destruct (skipn k (strip_plus (first_token sep (d :: l)))) as [|e u] eqn:Ek; [|discriminate]. destruct Hsep as (_ & _ & Hlen & _). apply Hlen in En.
               apply (f_equal (@length Z)) in Ek. rewrite skipn_length in Ek. cbn [length] in Ek. rewrite (proj2 (Nat.eqb_eq _ _)) by lia.
               destruct (values_of number (tokens sep (after_token sep (d :: l)))); congruence. }
           exact (K j (h :: line) (eq_sym Ej) Ec Ev).
Qed.
End Texts.
