(** More about the CSV reader: comments in general, no other outcome than a result
    or csv_read_error, and the number parsers. *)
From Verif Require Import Base Csv_Spec Csv_Model Csv_Proofs.
Local Open Scope outcome_scope.
Local Arguments Nat.eqb : simpl never.
Local Arguments Nat.ltb : simpl never.
Local Arguments Nat.sub : simpl never.
Local Arguments Z.eqb : simpl never.

(** ** Comments, for any number parser *)
Section Comments.
Context (eager : bool) {V : Type} (number : list Z -> option (V * nat)) (sep : Z).
Lemma read_chunk_keep b b' st : read_chunk eager (Reader [] b) st = read_chunk eager (Reader [] b') st.
Proof. reflexivity. Qed.
Lemma skip_loop_clear d t fuel b fuel' b' : d <> newline -> d <> hash ->
  skip_loop eager (S fuel) (Reader [] b) (open (d :: t)) = skip_loop eager (S fuel') (Reader [] b') (open (d :: t)).
Proof.
  intros Hd Hh. cbn [skip_loop open eof]. rewrite (read_chunk_keep b b').
  destruct (first_line (d :: t)) as [line after] eqn:E. apply first_line_iff in E. destruct E as [E Hn].
  assert (Hl : line <> []). { intros ->. destruct after as [r|]; cbn in E; [injection E as -> _; now elim Hd|discriminate]. }
  destruct (chunk eager (Reader [] b') line after) as (r' & st' & Er & R & _ & Hb & _ & _); cbn [buf app length]; auto; [lia|].
  rewrite <- E in Er. cbn [open] in Er. rewrite Er. cbn [bind]. destruct (buf r') as [|c b2] eqn:Eb; [congruence|].
  assert (Hc : Z.eqb c hash = false).
  { apply Z.eqb_neq. intros ->. destruct R as (_ & _ & l2 & El & _). rewrite Eb in El. cbn in El. rewrite El in E. injection E as -> _. now elim Hh. }
  rewrite Hc. reflexivity.
Qed.
Lemma skip_loop_comments c : comments c -> forall d t fuel b fuel' b', d <> newline -> d <> hash -> length (c ++ d :: t) < fuel ->
  skip_loop eager fuel (Reader [] b) (open (c ++ d :: t)) = skip_loop eager (S fuel') (Reader [] b') (open (d :: t)).
Proof.
  induction 1 as [|body c Hbody Hc IH]; intros d t fuel b fuel' b' Hd Hh Hf.
  - destruct fuel as [|fuel]; [lia|]. now apply skip_loop_clear.
  - cbn [app]. rewrite <- app_assoc. cbn [app]. set (l := hash :: body). set (nxt := Some (c ++ d :: t)).
    replace (hash :: body ++ newline :: c ++ d :: t) with (l ++ tail nxt) by reflexivity.
    destruct fuel as [|fuel]; [cbn in Hf; lia|]. cbn [skip_loop open eof].
    destruct (chunk eager (Reader [] b) l nxt) as (r' & st' & E & R & _ & Hb & (bb & Hbb) & Hlt); cbn [buf app length]; try lia; [|discriminate|].
    { intros [K|K]; [discriminate|auto]. }
    cbn [open] in E. rewrite E. cbn [bind]. destruct (buf r') as [|c0 t0] eqn:Eb; [congruence|].
    assert (Hc0 : c0 = hash). { destruct R as (_ & _ & l2 & El & _). rewrite Eb in El. cbn in El. injection El as <- _. reflexivity. }
    subst c0. rewrite Z.eqb_refl.
    destruct (skip_rest_ok eager (S (length (rest st'))) r' st' l nxt R) as (b2 & st2 & -> & He); [lia|]. cbn [bind keep_reading].
    cbn [at_end nxt] in He. subst st2. cbn [next_line buf open eof good fail negb andb rest get is_end]. rewrite Z.eqb_refl. cbn [bind].
    change (Stream (c ++ d :: t) false false) with (open (c ++ d :: t)). apply IH; auto.
    rewrite app_length in Hf |- *. cbn [length] in Hf. rewrite app_length in Hf. cbn [length] in *. lia.
Qed.
Lemma skip_comments_eq c d t b b' : comments c -> d <> newline -> d <> hash ->
  skip_comments eager (Reader [] b) (open (c ++ d :: t)) = skip_comments eager (Reader [] b') (open (d :: t)).
Proof.
  intros Hc Hd Hh. unfold skip_comments. cbn [buf open eof]. unfold peek, good. cbn [eof fail negb andb rest open is_end].
  rewrite (proj2 (Z.eqb_neq d newline) Hd). destruct Hc as [|body c Hb Hc].
  - cbn [app is_end]. rewrite (proj2 (Z.eqb_neq d newline) Hd). now apply (skip_loop_clear d t).
  - cbn [app is_end]. change (Z.eqb hash newline) with false. cbv iota.
    change (Stream (hash :: (body ++ newline :: c) ++ d :: t) false false) with (open ((hash :: body ++ newline :: c) ++ d :: t)).
    apply (skip_loop_comments (hash :: body ++ newline :: c)); auto. now constructor.
Qed.
Lemma one_row_comments n c d t b b' : comments c -> d <> newline -> d <> hash ->
  one_row eager number sep n (Reader [] b) (open (c ++ d :: t)) = one_row eager number sep n (Reader [] b') (open (d :: t)).
Proof. intros. unfold one_row. now rewrite (skip_comments_eq c d t b b'). Qed.
End Comments.

(** ** Only results and csv_read_error *)
Definition fine {A} (m : outcome A) : Prop := match m with Ok _ => True | Throw e => e = csv_read_error | _ => False end.
Section Total.
Context (eager : bool) {V : Type} (number : list Z -> option (V * nat)) (sep : Z)
  (Hnum : forall s v k, number s = Some (v, k) -> 1 <= k <= length s).
Definition left (r : reader) (st : stream) : nat := length (buf r) + length (rest st).
Lemma fine_bind {A B} (m : outcome A) (f : A -> outcome B) : fine m -> (forall a, m = Ok a -> fine (f a)) -> fine (bind m f).
Proof. destruct m; cbn; auto. Qed.
Lemma peek_rest st c st' : peek st = (c, st') -> rest st' = rest st.
Proof.
  unfold peek. destruct (good st); [|intros H; now injection H as <- <-]. destruct (rest st) eqn:E; intros H; injection H as <- <-; auto.
Qed.
Lemma take_line_length k : forall s, length (take_line k s) <= length s.
Proof. induction k as [|k IH]; intros [|c s]; cbn; try lia. destruct (Z.eqb c newline); cbn; [lia|]. specialize (IH s). lia. Qed.
Lemma read_chunk_fine r st : fine (read_chunk eager r st).
Proof.
  unfold read_chunk. destruct (fail st); [reflexivity|]. destruct (Nat.eqb _ _); [exact I|]. destruct (get_n _ _ _) as [t st1]. destruct (fail st1); [reflexivity|].
  destruct (peek st1). exact I.
Qed.
Lemma read_chunk_left r st r' st' : read_chunk eager r st = Ok (r', st') -> left r' st' <= left r st /\ (length (buf r) < 64 -> length (rest st') < length (rest st)).
Proof.
  unfold read_chunk. destruct (fail st); [discriminate|]. destruct (Nat.eqb_spec bufmaxsize (length (buf r))) as [E|N].
  - intros H. injection H as <- <-. split; [lia|]. unfold bufmaxsize in E. lia.
  - destruct (get_n eager (bufmaxsize - length (buf r)) st) as [t st1] eqn:Eg. destruct (fail st1) eqn:Ef; [discriminate|]. destruct (peek st1) as [c st2] eqn:Ep.
    intros H. injection H as <- <-. apply peek_rest in Ep. unfold left. cbn [buf]. rewrite Ep, app_length. unfold get_n in Eg. destruct (good st).
    + injection Eg as Et <-. cbn [rest fail] in *. apply Nat.eqb_neq in Ef. subst t. rewrite skipn_length. pose proof (take_line_length (bufmaxsize - length (buf r)) (rest st)). lia.
    + injection Eg as <- <-. cbn [fail set_fail] in Ef. discriminate.
Qed.
Lemma read_single_fine s : fine (read_single number s).
Proof. rewrite single_end. destruct (number _) as [[v k]|]; reflexivity. Qed.
Lemma read_fine r st : fine (read eager number sep r st).
Proof.
  unfold read. apply fine_bind; [destruct (keep_reading r); [apply read_chunk_fine|exact I]|]. intros [r' st'] _. apply fine_bind; [apply read_single_fine|].
  intros [v k] _. destruct (skipn k (buf r')) as [|c t]; [exact I|]. destruct (Z.eqb c sep); [exact I|reflexivity].
Qed.
Lemma read_left r st v r' st' : read eager number sep r st = Ok (v, r', st') -> left r' st' < left r st.
Proof.
  unfold read. destruct (if keep_reading r then _ else _) as [[r1 st1]|e| |] eqn:E; try discriminate. cbn [bind].
  assert (L : left r1 st1 <= left r st).
  { destruct (keep_reading r); [now apply (read_chunk_left r st r1 st1)|injection E as <- <-; lia]. }
  rewrite single_end. destruct (number (strip_plus (buf r1))) as [[w k]|] eqn:En; [|discriminate]. cbn [bind]. apply Hnum in En.
  assert (Hs : length (strip_plus (buf r1)) <= length (buf r1)) by (unfold strip_plus; destruct (buf r1) as [|c p]; auto; destruct (Z.eqb c plus); cbn; lia).
  unfold left in *. destruct (skipn _ (buf r1)) as [|c t] eqn:Ek.
  - intros H. injection H as <- <- <-. cbn [buf length]. lia.
  - destruct (Z.eqb c sep); [|discriminate]. intros H. injection H as <- <- <-. cbn [buf].
    apply (f_equal (@length Z)) in Ek. rewrite skipn_length in Ek. cbn [length] in Ek. lia.
Qed.
Lemma next_line_fine r st : fine (next_line r st).
Proof. unfold next_line. destruct (buf r); [|reflexivity]. destruct (eof st); [exact I|]. destruct (get st) as [c st']. destruct (is_end c); [exact I|reflexivity]. Qed.
Lemma skip_rest_fine fuel : forall r st, length (rest st) < fuel -> fine (skip_rest eager fuel r st) /\
  forall r' st', skip_rest eager fuel r st = Ok (r', st') -> length (rest st') <= length (rest st).
Proof.
  induction fuel as [|fuel IH]; intros r st Hf; [lia|]. cbn [skip_rest]. destruct (keep_reading r).
  - pose proof (read_chunk_fine (Reader [] true) st) as F. pose proof (read_chunk_left (Reader [] true) st) as L.
    destruct (read_chunk eager (Reader [] true) st) as [[r1 st1]|e| |]; cbn [bind]; try (split; [exact F|discriminate]).
    destruct (L r1 st1 eq_refl) as [_ L2]. cbn [buf length] in L2. specialize (L2 ltac:(lia)). destruct (IH r1 st1 ltac:(lia)) as [I1 I2]. split; [exact I1|].
    intros r' st' E. specialize (I2 r' st' E). lia.
  - split; [exact I|]. intros r' st' E. injection E as <- <-. lia.
Qed.
Lemma next_line_rest r st st' : next_line r st = Ok st' -> length (rest st') <= length (rest st).
Proof.
  unfold next_line. destruct (buf r); [|discriminate]. destruct (eof st); [intros H; injection H as <-; lia|].
  unfold get. destruct (good st).
  - destruct (rest st) as [|c t]; cbn [is_end]; [discriminate|]. destruct (Z.eqb c newline); [|discriminate]. intros H. injection H as <-. cbn. lia.
  - cbn [is_end]. discriminate.
Qed.
Lemma skip_loop_fine fuel : forall b st, length (rest st) < fuel -> fine (skip_loop eager fuel (Reader [] b) st) /\
  forall r' st', skip_loop eager fuel (Reader [] b) st = Ok (r', st') -> left r' st' <= length (rest st).
Proof.
  induction fuel as [|fuel IH]; intros b st Hf; [lia|]. cbn [skip_loop]. destruct (eof st).
  { split; [exact I|]. intros r' st' E. injection E as <- <-. reflexivity. }
  pose proof (read_chunk_fine (Reader [] b) st) as F. pose proof (read_chunk_left (Reader [] b) st) as L.
  destruct (read_chunk eager (Reader [] b) st) as [[r1 st1]|e| |]; cbn [bind]; try (split; [exact F|discriminate]).
  destruct (L r1 st1 eq_refl) as [L1 L2]. cbn [buf length] in L2. specialize (L2 ltac:(lia)). unfold left in L1 at 2. cbn [buf length Nat.add] in L1.
  assert (G : forall r' st', @Ok (reader * stream) (r1, st1) = Ok (r', st') -> left r' st' <= length (rest st)) by (intros r' st' E; injection E as <- <-; lia).
  destruct (buf r1) as [|c t]; [split; [exact I|exact G]|]. destruct (Z.eqb c hash); [|split; [exact I|exact G]].
  destruct (skip_rest_fine (S (length (rest st1))) r1 st1 ltac:(lia)) as [F2 R2].
  destruct (skip_rest eager (S (length (rest st1))) r1 st1) as [[r2 st2]|e| |]; cbn [bind]; try (split; [exact F2|discriminate]).
  specialize (R2 r2 st2 eq_refl). pose proof (next_line_fine (Reader [] (keep_reading r2)) st2) as F3.
  pose proof (next_line_rest (Reader [] (keep_reading r2)) st2) as R3.
  destruct (next_line (Reader [] (keep_reading r2)) st2) as [st3|e| |]; cbn [bind]; try (split; [exact F3|discriminate]).
  specialize (R3 st3 eq_refl). destruct (IH (keep_reading r2) st3 ltac:(lia)) as [I1 I2]. split; [exact I1|]. intros r' st' E. specialize (I2 r' st' E). lia.
Qed.
Lemma skip_comments_fine b st : fine (skip_comments eager (Reader [] b) st) /\
  forall r' st', skip_comments eager (Reader [] b) st = Ok (r', st') -> left r' st' <= length (rest st).
Proof.
  unfold skip_comments. cbn [buf]. destruct (eof st); [split; [exact I|intros r' st' E; injection E as <- <-; reflexivity]|].
  destruct (peek st) as [c st1] eqn:Ep. apply peek_rest in Ep. destruct (is_end c).
  - split; [exact I|]. intros r' st' E. injection E as <- <-. unfold left. cbn. now rewrite Ep.
  - rewrite <- Ep. apply skip_loop_fine. lia.
Qed.
Lemma read_fields_fine n : forall r st, fine (read_fields eager number sep n r st).
Proof.
  induction n as [|n IH]; intros r st; cbn [read_fields]; [exact I|]. apply fine_bind; [apply read_fine|]. intros [[v r1] st1] _.
  apply fine_bind; [apply IH|]. intros [[vs r2] st2] _. exact I.
Qed.
(** After a successful row the buffer is empty. *)
Lemma one_row_fine n b st : fine (one_row eager number sep n (Reader [] b) st) /\
  forall vs r' st', one_row eager number sep n (Reader [] b) st = Ok (vs, r', st') -> buf r' = [].
Proof.
  unfold one_row. destruct (skip_comments_fine b st) as [F _]. destruct (skip_comments eager (Reader [] b) st) as [[r1 st1]|e| |]; cbn [bind]; try (split; [exact F|discriminate]).
  pose proof (read_fields_fine n r1 st1) as F2. destruct (read_fields eager number sep n r1 st1) as [[[vs r2] st2]|e| |]; cbn [bind]; try (split; [exact F2|discriminate]).
  pose proof (next_line_fine r2 st2) as F3. destruct (next_line r2 st2) as [st3|e| |] eqn:En; cbn [bind]; try (split; [exact F3|discriminate]).
  split; [exact I|]. intros vs' r' st' E. injection E as <- <- <-. unfold next_line in En. destruct (buf r2); [reflexivity|discriminate].
Qed.
Lemma read_rows_fine rows cols : forall b st, fine (read_rows eager number sep rows cols (Reader [] b) st).
Proof.
  induction rows as [|rows IH]; intros b st; cbn [read_rows]; [exact I|]. destruct (one_row_fine cols b st) as [F B].
  destruct (one_row eager number sep cols (Reader [] b) st) as [[[vs r] st1]|e| |]; cbn [bind]; auto. specialize (B vs r st1 eq_refl). destruct r as [bb k]. cbn in B. subst bb.
  apply fine_bind; [apply IH|]. intros [vss st2] _. exact I.
Qed.
Lemma done_left r st d st' : done r st = (d, st') -> left r st' = left r st.
Proof. unfold done. destruct (peek st) as [c st1] eqn:Ep. apply peek_rest in Ep. intros H. injection H as _ <-. unfold left. now rewrite Ep. Qed.
Lemma read_all_fine fuel : forall r st, left r st < fuel -> fine (read_all eager number sep fuel r st).
Proof.
  induction fuel as [|fuel IH]; intros r st Hf; [lia|]. cbn [read_all]. destruct (done r st) as [d st1] eqn:Ed. pose proof (done_left _ _ _ _ Ed) as L.
  destruct d; [exact I|]. pose proof (read_fine r st1) as F. destruct (read eager number sep r st1) as [[[v r2] st2]|e| |] eqn:Er; cbn [bind]; auto.
  apply read_left in Er. apply fine_bind; [apply IH; lia|]. intros [[vs r3] st3] _. exact I.
Qed.
Lemma read_all_fuel f1 : forall f2 r st, left r st < f1 -> left r st < f2 -> read_all eager number sep f1 r st = read_all eager number sep f2 r st.
Proof.
  induction f1 as [|f1 IH]; intros f2 r st H1 H2; [lia|]. destruct f2 as [|f2]; [lia|]. cbn [read_all]. destruct (done r st) as [d st1] eqn:Ed. pose proof (done_left _ _ _ _ Ed) as L.
  destruct d; [reflexivity|]. destruct (read eager number sep r st1) as [[[v r2] st2]|e| |] eqn:Er; cbn [bind]; auto.
  apply read_left in Er. rewrite (IH f2 r2 st2) by lia. reflexivity.
Qed.
Lemma read_vector_fine st : fine (csv_read_row_std_vector eager number sep st).
Proof.
  unfold csv_read_row_std_vector, new_reader. destruct (skip_comments_fine true st) as [F L]. apply fine_bind; [exact F|]. intros [r st1] E. specialize (L r st1 E).
  apply fine_bind; [apply read_all_fine; lia|]. intros [[vs r2] st2] _. apply fine_bind; [apply next_line_fine|]. intros st3 _. exact I.
Qed.
End Total.
