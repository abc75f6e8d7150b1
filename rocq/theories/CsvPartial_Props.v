(** C111: what csv_read_row and csv_read leave in their destination, also when they throw. *)
From Verif Require Import Base Bytes Csv_Spec Csv_Model Csv_Proofs Csv_More Csv_Exact Csv_Numbers CsvAny_Spec CsvAny_Proofs CsvPartial_Spec CsvPartial_Model.
Local Open Scope outcome_scope.

Section Same.
Context (eager : bool) {V : Type} (number : list Z -> option (V * nat)) (sep : Z).
Lemma assign_same n : forall r st, read_fields eager number sep n r st = (let '(w, o) := assign_fields eager number sep n r st in '(r, st) <- o ;; Ok (w, r, st)).
Proof.
  induction n as [|n IH]; intros r st; cbn [read_fields assign_fields]; [reflexivity|].
  destruct (read eager number sep r st) as [[[v r'] st']| | |]; cbn [bind]; auto. rewrite IH.
  destruct (assign_fields eager number sep n r' st') as [w [[r2 st2]| | |]]; reflexivity.
Qed.
Lemma assign_length n : forall r st w r' st', assign_fields eager number sep n r st = (w, Ok (r', st')) -> length w = n.
Proof.
  induction n as [|n IH]; intros r st w r' st' H; cbn [assign_fields] in H; [injection H as <- _ _; reflexivity|].
  destruct (read eager number sep r st) as [[[v r2] st2]| | |]; try discriminate.
  destruct (assign_fields eager number sep n r2 st2) as [w2 o] eqn:E. injection H as <- ->. cbn [length]. f_equal. eauto.
Qed.
Lemma overwrite_all (w v : list V) : length w = length v -> overwrite w v = w.
Proof. intros H. unfold overwrite. rewrite H, skipn_all. apply app_nil_r. Qed.
Lemma row_same v r st : one_row eager number sep (length v) r st = (let '(w, o) := row_into eager number sep v r st in '(r, st) <- o ;; Ok (w, r, st)).
Proof.
  unfold one_row, row_into. destruct (skip_comments eager r st) as [[r' st']| | |]; cbn [bind]; auto. rewrite assign_same.
  destruct (assign_fields eager number sep (length v) r' st') as [w [[r2 st2]| | |]] eqn:E; cbn [bind]; auto.
  destruct (next_line r2 st2); cbn [bind]; auto. rewrite overwrite_all; [reflexivity|]. eapply assign_length; eauto.
Qed.
Lemma rows_same n m : Forall (fun v => length v = n) m -> forall r st,
  read_rows eager number sep (length m) n r st = (let '(w, o) := rows_into eager number sep m r st in st <- o ;; Ok (w, st)).
Proof.
  induction 1 as [|v m Hv Hm IH]; intros r st; cbn [length read_rows rows_into]; [reflexivity|]. rewrite <- Hv, row_same.
  destruct (row_into eager number sep v r st) as [w [[r2 st2]| | |]]; cbn [bind]; auto. rewrite Hv, IH.
  destruct (rows_into eager number sep m r2 st2) as [w2 [st3| | |]]; reflexivity.
Qed.
End Same.

Section Any.
Context (eager : bool) {V : Type} (number : list Z -> option (V * nat)) (sep : Z) (Hsep : separates number sep).
Lemma assigned_none n : forall ts (ws : list V), 0 <= length ts -> (0 = n \/ 0 = length ts \/ value_of number (nth 0 ts []) = None) -> ws = [] ->
  exists k, k <= length ts /\ k <= n /\ values_of number (firstn k ts) = Some ws /\ length ws = k /\ (k = n \/ k = length ts \/ value_of number (nth k ts []) = None).
Proof. intros ts ws _ H ->. exists 0. cbn [firstn values_of length]. repeat split; auto; lia. Qed.
Lemma assign_any n : forall r st l after, rep r st l after ->
  exists k, let ts := tokens sep l in let ws := fst (assign_fields eager number sep n r st) in
  k <= length ts /\ k <= n /\ values_of number (firstn k ts) = Some ws /\ length ws = k /\
  (k = n \/ k = length ts \/ value_of number (nth k ts []) = None).
Proof using Hsep.
  induction n as [|n IH]; intros r st l after H; cbv zeta; cbn [assign_fields].
  - apply assigned_none; auto. lia.
  - destruct (list_eq_dec Z.eq_dec l []) as [->|Hl].
    + destruct (rep_nil _ _ _ H) as [-> He]. rewrite (read_nil eager number sep Hsep). apply assigned_none; auto; lia.
    + destruct (read_token eager number sep Hsep l Hl) as (t & l' & -> & _ & Hr). specialize (Hr r st after H). destruct (value_of number t) as [v|] eqn:Ev.
      * destruct Hr as (r' & st' & -> & R). destruct (IH r' st' l' after R) as (k & K). cbv zeta in K.
        destruct (assign_fields eager number sep n r' st') as [w o]. cbn [fst] in K |- *. destruct K as (K1 & K2 & K3 & K4 & K5).
        exists (S k). cbn [length firstn values_of nth]. rewrite Ev, K3. repeat split; try lia.
        destruct K5 as [->|[->|K5]]; auto.
      * rewrite Hr. apply assigned_none; auto. lia.
Qed.
Lemma into_any text c line after v b st : parts text c line after -> at_text st text ->
  assigned number (tokens_or_none sep c line) v (fst (row_into eager number sep v (Reader [] b) st)).
Proof using Hsep.
  assert (Same : forall ts, (length ts = 0 \/ length v = 0) -> assigned number ts v v).
  { intros ts H. exists 0, []. cbn [firstn values_of skipn app length]. repeat split; auto; lia. }
  intros [t -> Hc Hf Hcom] Hst. unfold tokens_or_none, row_into. destruct line as [|h line]; cbn [row_tokens].
  - destruct c as [|x c].
    + cbn [app] in Hst. destruct (skip_empty eager t after b st Hf Hst) as (st' & -> & He).
      assert (E : fst (assign_fields eager number sep (length v) (Reader [] b) st') = []).
      { destruct (length v); cbn [assign_fields]; [reflexivity|]. rewrite (read_empty eager number sep Hsep b st' after He). reflexivity. }
      destruct (assign_fields eager number sep (length v) (Reader [] b) st') as [w o]. cbn [fst] in E |- *. subst w. apply Same. auto.
    + apply first_line_iff in Hf. destruct Hf as [-> _]. cbn [app] in Hst.
      rewrite (skip_error eager (x :: c) after b st Hc); [apply Same; auto|discriminate|exact Hst].
  - destruct (Z.eqb_spec h hash) as [->|Hh].
    + rewrite (Hcom (ex_intro _ line eq_refl)) in *. apply first_line_iff in Hf. destruct Hf as [-> Hn]. cbn [tail] in Hst. rewrite app_nil_r in Hst.
      destruct (skip_unfinished eager c line b st Hc) as (st' & -> & He); auto. { intros K. apply Hn. now right. }
      assert (E : fst (assign_fields eager number sep (length v) (Reader [] false) st') = []).
      { destruct (length v); cbn [assign_fields]; [reflexivity|]. rewrite (read_empty eager number sep Hsep false st' None He). reflexivity. }
      destruct (assign_fields eager number sep (length v) (Reader [] false) st') as [w o]. cbn [fst] in E |- *. subst w. apply Same. auto.
    + assert (Hnc : ~ is_comment (h :: line)) by (intros [body K]; congruence).
      destruct (skip_ok eager c t (h :: line) after b st Hc Hf) as (r & st' & -> & R); auto; [discriminate|].
      destruct (assign_any (length v) r st' (h :: line) after R) as (k & K). cbv zeta in K.
      destruct (assign_fields eager number sep (length v) r st') as [w o]. cbn [fst] in K |- *. destruct K as (K1 & K2 & K3 & K4 & K5).
      exists k, w. unfold overwrite. rewrite K4. auto.
Qed.
Lemma rows_any m : forall text b st, at_text st text -> exists rest0,
  left_in number sep text m (fst (rows_into eager number sep m (Reader [] b) st)) rest0 /\
  match rest0 with
  | Some t => exists st', snd (rows_into eager number sep m (Reader [] b) st) = Ok st' /\ at_text st' t
  | None => snd (rows_into eager number sep m (Reader [] b) st) = Throw csv_read_error
  end.
Proof using Hsep.
  induction m as [|v m IH]; intros text b st Hst; cbn [rows_into].
  - exists (Some text). cbn [fst snd]. split; [constructor|eauto].
  - destruct (every_text text) as (c & line & after & Hp).
    pose proof (row_any eager number sep Hsep text c line after (length v) b st Hp Hst) as H.
    pose proof (into_any text c line after v b st Hp Hst) as A. rewrite row_same in H. unfold any_result in H.
    destruct (row_into eager number sep v (Reader [] b) st) as [w o]. cbn [fst] in A.
    assert (Bad : ~ fits number sep c line (length v) -> o = Throw csv_read_error -> exists rest0,
      left_in number sep text (v :: m) (fst (match o with Ok (r, st0) => let '(m0, o0) := rows_into eager number sep m r st0 in (w :: m0, o0) | Throw e => (w :: m, Throw e) | Abort => (w :: m, Abort) | UB => (w :: m, UB) end)) rest0 /\
      match rest0 with
      | Some t => exists st', snd (match o with Ok (r, st0) => let '(m0, o0) := rows_into eager number sep m r st0 in (w :: m0, o0) | Throw e => (w :: m, Throw e) | Abort => (w :: m, Abort) | UB => (w :: m, UB) end) = Ok st' /\ at_text st' t
      | None => snd (match o with Ok (r, st0) => let '(m0, o0) := rows_into eager number sep m r st0 in (w :: m0, o0) | Throw e => (w :: m, Throw e) | Abort => (w :: m, Abort) | UB => (w :: m, UB) end) = Throw csv_read_error
      end).
    { intros F ->. exists None. cbn [fst snd]. split; [|reflexivity]. eapply left_error; eauto. }
    destruct (row_values number sep c line) as [vs|] eqn:Ev.
    + destruct (Nat.eqb_spec (length vs) (length v)) as [L|L].
      * destruct H as (b' & st' & E & Ht). destruct o as [[r2 st2]| | |]; try discriminate. cbn [bind] in E. injection E as -> -> ->.
        destruct (IH (behind after) b' st' Ht) as (rest0 & I1 & I2). exists rest0.
        destruct (rows_into eager number sep m (Reader [] b') st') as [m2 o2]. cbn [fst snd] in *. split; [|exact I2].
        eapply left_row; eauto.
      * apply Bad.
        { intros (us & E & K). congruence. }
        destruct o as [[r2 st2]| | |]; cbn [bind] in H; congruence.
    + apply Bad.
      { intros (us & E & K). congruence. }
      destruct o as [[r2 st2]| | |]; cbn [bind] in H; congruence.
Qed.
End Any.

(** The calls with the destination are those of Csv_Model: they succeed and fail together,
    and on success they leave the values in the destination. *)
Theorem C111_same_row : forall eager V (number : list Z -> option (V * nat)) sep v st,
  csv_read_row eager number sep (length v) st = (let '(w, o) := csv_read_row_into eager number sep v st in st <- o ;; Ok (w, st)).
Proof.
  intros. unfold csv_read_row, csv_read_row_into. rewrite row_same. destruct (row_into eager number sep v new_reader st) as [w [[r st']| | |]]; reflexivity.
Qed.
Print Assumptions C111_same_row.
Theorem C111_same_matrix : forall eager V (number : list Z -> option (V * nat)) sep n m st, Forall (fun v => length v = n) m ->
  csv_read eager number sep (length m) n st = (let '(w, o) := csv_read_into eager number sep m st in st <- o ;; Ok (w, st)).
Proof. intros. unfold csv_read, csv_read_into. now apply rows_same. Qed.
Print Assumptions C111_same_matrix.
(** csv_read_row, any text, any previous contents: exactly the numbers in front of the first
    token that is not one are assigned, no other element changes, and the call succeeds if
    and only if the row has one number for every element. *)
Theorem C111_row : forall eager V (number : list Z -> option (V * nat)) sep text c line after v st,
  separates number sep -> parts text c line after -> at_text st text ->
  assigned number (tokens_or_none sep c line) v (fst (csv_read_row_into eager number sep v st)) /\
  (fits number sep c line (length v) -> exists vs st', row_values number sep c line = Some vs /\
     csv_read_row_into eager number sep v st = (vs, Ok st') /\ at_text st' (behind after)) /\
  (~ fits number sep c line (length v) -> snd (csv_read_row_into eager number sep v st) = Throw csv_read_error).
Proof.
  intros eager V number sep text c line after v st Hs Hp Hst.
  pose proof (into_any eager number sep Hs text c line after v true st Hp Hst) as A.
  pose proof (row_any eager number sep Hs text c line after (length v) true st Hp Hst) as H. rewrite row_same in H. unfold any_result in H.
  unfold csv_read_row_into, new_reader. destruct (row_into eager number sep v (Reader [] true) st) as [w o]. cbn [fst snd] in *. split; [exact A|].
  destruct (row_values number sep c line) as [vs|] eqn:Ev.
  - destruct (Nat.eqb_spec (length vs) (length v)) as [L|L].
    + destruct H as (b' & st' & E & Ht). destruct o as [[r2 st2]| | |]; try discriminate. cbn [bind] in E. injection E as -> -> ->. cbn [bind].
      split; [eauto|]. intros K. destruct K. exists vs. auto.
    + split; [intros (us & E & K); congruence|]. intros _. destruct o as [[r2 st2]| | |]; cbn [bind] in H |- *; congruence.
  - split; [intros (us & E & K); congruence|]. intros _. destruct o as [[r2 st2]| | |]; cbn [bind] in H |- *; congruence.
Qed.
Print Assumptions C111_row.
(** csv_read: rows before the first one that does not fit are read, that row is assigned
    in part, the rows behind it are what they were. *)
Theorem C111_matrix : forall eager V (number : list Z -> option (V * nat)) sep text m st,
  separates number sep -> at_text st text -> exists rest0,
  left_in number sep text m (fst (csv_read_into eager number sep m st)) rest0 /\
  match rest0 with
  | Some t => exists st', snd (csv_read_into eager number sep m st) = Ok st' /\ at_text st' t
  | None => snd (csv_read_into eager number sep m st) = Throw csv_read_error
  end.
Proof. intros eager V number sep text m st Hs Hst. exact (rows_any eager number sep Hs m text true st Hst). Qed.
Print Assumptions C111_matrix.
Lemma assigned_length {V} (number : list Z -> option (V * nat)) ts v v' : assigned number ts v v' -> length v' = length v.
Proof.
  intros (k & ws & K1 & K2 & K3 & -> & _). apply values_length in K3. rewrite app_length, skipn_length, K3, firstn_length. lia.
Qed.
Lemma left_shape {V} (number : list Z -> option (V * nat)) sep text m m' r : left_in number sep text m m' r -> map (@length V) m' = map (@length V) m.
Proof. induction 1; cbn [map]; f_equal; eauto using assigned_length. Qed.
(** No call changes the number of elements or rows. *)
Theorem C111_shape : forall eager V (number : list Z -> option (V * nat)) sep text m st,
  separates number sep -> at_text st text -> map (@length V) (fst (csv_read_into eager number sep m st)) = map (@length V) m.
Proof.
  intros eager V number sep text m st Hs Hst. destruct (C111_matrix eager V number sep text m st Hs Hst) as (r & H & _).
  eapply left_shape; eauto.
Qed.
Print Assumptions C111_shape.
(** So the strong exception guarantee does not hold: the destination of a call that throws can have changed. *)
Theorem C111_destination_unchanged_refuted : ~ forall eager V (number : list Z -> option (V * nat)) sep v st,
  separates number sep -> snd (csv_read_row_into eager number sep v st) = Throw csv_read_error -> fst (csv_read_row_into eager number sep v st) = v.
Proof.
  intros H. specialize (H true Z (integer (- 2 ^ 31) (2 ^ 31 - 1)) 44%Z [7; 8; 9]%Z (open (bytes "1,2,x"))).
  assert (S : separates (integer (- 2 ^ 31) (2 ^ 31 - 1)) 44) by (apply integer_separates; vm_compute; congruence).
  specialize (H S). vm_compute in H. specialize (H eq_refl). discriminate.
Qed.
Print Assumptions C111_destination_unchanged_refuted.
(** It is unchanged if the first token is not a number. *)
Theorem C111_unchanged_before_first_number : forall eager V (number : list Z -> option (V * nat)) sep text c line after v st,
  separates number sep -> parts text c line after -> at_text st text ->
  (forall t ts, tokens_or_none sep c line = t :: ts -> value_of number t = None) ->
  fst (csv_read_row_into eager number sep v st) = v.
Proof.
  intros eager V number sep text c line after v st Hs Hp Hst Ht. destruct (C111_row eager V number sep text c line after v st Hs Hp Hst) as ((k & ws & K1 & K2 & K3 & -> & K5) & _).
  destruct k as [|k].
  - cbn [firstn values_of] in K3. injection K3 as <-. reflexivity.
  - destruct (tokens_or_none sep c line) as [|t ts]; [cbn [length] in K1; lia|]. cbn [firstn values_of] in K3. rewrite (Ht t ts eq_refl) in K3. discriminate.
Qed.
Print Assumptions C111_unchanged_before_first_number.

(** ** Examples *)
Definition int32 := integer (- 2 ^ 31) (2 ^ 31 - 1).
Example C111_row_run : csv_read_row_into true int32 44 [7; 8; 9]%Z (open (bytes "1,2,x")) = ([1; 2; 9]%Z, Throw csv_read_error).
Proof. vm_compute. reflexivity. Qed.
Example C111_too_long : csv_read_row_into true int32 44 [7; 8]%Z (open (bytes "1,2,3")) = ([1; 2]%Z, Throw csv_read_error).
Proof. vm_compute. reflexivity. Qed.
Example C111_too_short : csv_read_row_into false int32 44 [7; 8; 9]%Z (open (bytes "1,2")) = ([1; 2; 9]%Z, Throw csv_read_error).
Proof. vm_compute. reflexivity. Qed.
Example C111_matrix_run : csv_read_into false int32 44 [[0; 0]; [0; 0]; [0; 0]]%Z (open (bytes "1,2" ++ newline :: bytes "3,y" ++ newline :: bytes "5,6")) =
  ([[1; 2]; [3; 0]; [0; 0]]%Z, Throw csv_read_error).
Proof. vm_compute. reflexivity. Qed.
Example C111_parts : separates int32 44 /\ parts (bytes "1,2,x") [] (bytes "1,2,x") None /\ tokens_or_none 44 [] (bytes "1,2,x") = [bytes "1"; bytes "2"; bytes "x"] /\
  ~ fits int32 44 [] (bytes "1,2,x") 3.
Proof.
  split; [apply integer_separates; vm_compute; congruence|]. split; [|split; [reflexivity|]].
  - apply (Parts _ _ _ _ (bytes "1,2,x")); [reflexivity|constructor|reflexivity|reflexivity].
  - intros (vs & E & _). vm_compute in E. discriminate.
Qed.
