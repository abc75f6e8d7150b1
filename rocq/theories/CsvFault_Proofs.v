(** Proofs for C93: the run on a stream that breaks follows the run on one that does
    not, until the break; then it can only end with csv_read_error. *)
From Verif Require Import Base Csv_Spec Csv_Model Csv_Proofs Csv_More CsvFault_Model.
Local Open Scope outcome_scope.

(** The stream delivers [r] and then breaks. *)
Definition fopen (r : list Z) : fstream := FStream r false false false.
Definition faulted (r : reader) (f : fstream) : Prop := fbad f = true /\ feof f = false /\ keep_reading r = true.

Section Sim.
Context (eager : bool) {V : Type} (number : list Z -> option (V * nat)) (sep : Z) (more : list Z).
Context (Hnum : forall s v k, number s = Some (v, k) -> 1 <= k <= length s).
Local Notation fpeek := (fpeek true). Local Notation fget := (fget true).

Lemma take_line_app k : forall r, length (take_line k r) < length r \/ k <= length r -> take_line k (r ++ more) = take_line k r.
Proof.
  induction k as [|k IH]; intros r H; [now destruct (r ++ more), r|]. destruct r as [|c r]; [cbn in H; lia|]. cbn [app take_line] in *.
  destruct (Z.eqb c newline); [reflexivity|]. f_equal. apply IH. cbn [length] in H. lia.
Qed.
Lemma take_line_le k : forall r, length (take_line k r) <= k.
Proof. induction k as [|k IH]; intros [|c r]; cbn; try lia. destruct (Z.eqb c newline); cbn; [lia|]. specialize (IH r). lia. Qed.
Lemma skipn_nil_length {A} n (l : list A) : skipn n l = [] -> length l <= n.
Proof. intros H. pose proof (skipn_length n l) as E. rewrite H in E. cbn in E. lia. Qed.

(** Related results of reading: same reader and related streams, or the stream has broken. *)
Definition rel {A} (x : A * reader * fstream) (y : A * reader * stream) : Prop :=
  fst (fst x) = fst (fst y) /\ snd (fst x) = snd (fst y) /\ exists q, snd x = fopen q /\ snd y = open (q ++ more).
Definition sim {A} (f : outcome (A * reader * fstream)) (h : outcome (A * reader * stream)) : Prop :=
  match f with
  | Ok x => (exists y, h = Ok y /\ rel x y) \/ faulted (snd (fst x)) (snd x)
  | Throw e => e = csv_read_error
  | _ => False
  end.
Definition un {A} (m : outcome (reader * A)) : outcome (unit * reader * A) := '(r, st) <- m ;; Ok (tt, r, st).

Lemma fread_chunk_bad r f : fbad f = true -> fread_chunk true eager r f = Throw csv_read_error.
Proof. intros H. unfold fread_chunk. rewrite H. now destruct (ffail f). Qed.

Lemma chunk_sim r q : sim (un (fread_chunk true eager r (fopen q))) (un (read_chunk eager r (open (q ++ more)))).
Proof.
  unfold fread_chunk, read_chunk. cbn [ffail fbad fopen orb fail open]. destruct (Nat.eqb bufmaxsize (length (buf r))).
  - cbn [un bind]. left. eexists. split; [reflexivity|]. split; [reflexivity|]. split; [reflexivity|]. now exists q.
  - unfold fget_n, get_n, fgood, good. cbn [feof ffail fbad fopen negb andb eof fail open frest rest].
    set (k := bufmaxsize - length (buf r)). destruct (skipn (length (take_line k q)) q) as [|c0 q'] eqn:Eq.
    + apply skipn_nil_length in Eq. destruct (eager || Nat.ltb (length (take_line k q)) k) eqn:Ee.
      * cbn [at_the_end ffail fbad]. rewrite orb_true_r. cbn. reflexivity.
      * apply orb_false_elim in Ee as [-> Ek]. apply Nat.ltb_ge in Ek. pose proof (take_line_le k q). pose proof (take_line_length k q).
        cbn [ffail fbad orb]. rewrite orb_false_r. destruct (Nat.eqb (length (take_line k q)) 0) eqn:E0; [reflexivity|].
        unfold CsvFault_Model.fpeek, fgood. cbn [feof ffail fbad negb andb frest at_the_end is_end un bind]. right.
        split; [reflexivity|]. split; reflexivity.
    + assert (L : length (take_line k q) < length q).
      { pose proof (skipn_length (length (take_line k q)) q) as E. rewrite Eq in E. cbn [length] in E. lia. }
      rewrite take_line_app by (now left). rewrite skipn_app, Eq. replace (length (take_line k q) - length q) with 0 by lia. cbn [skipn app].
      cbn [ffail fbad fail]. rewrite orb_false_r. destruct (Nat.eqb (length (take_line k q)) 0) eqn:E0; [reflexivity|].
      unfold CsvFault_Model.fpeek, peek, fgood, good. cbn [feof ffail fbad negb andb frest eof fail rest un bind]. left. eexists. split; [reflexivity|].
      split; [reflexivity|]. split; [reflexivity|]. exists (c0 :: q'). split; reflexivity.
Qed.
(** The same as equations. *)
Lemma chunk_cases r q :
  (exists r' q', fread_chunk true eager r (fopen q) = Ok (r', fopen q') /\ read_chunk eager r (open (q ++ more)) = Ok (r', open (q' ++ more)) /\
     length q' <= length q /\ (length (buf r) < 64 -> length q' < length q)) \/
  (exists r' f, fread_chunk true eager r (fopen q) = Ok (r', f) /\ faulted r' f) \/
  fread_chunk true eager r (fopen q) = Throw csv_read_error.
Proof.
  assert (H := chunk_sim r q). unfold sim in H. destruct (fread_chunk true eager r (fopen q)) as [[r' f]|e| |]; cbn [un bind snd fst] in H; try tauto; [|right; right; now subst].
  destruct H as [(y & Hy & R)|H]; [|right; left; exists r', f; auto].
  left. destruct (read_chunk eager r (open (q ++ more))) as [[r2 st]|e| |] eqn:E; try discriminate. cbn [un bind] in Hy. injection Hy as <-.
  destruct R as (_ & R1 & q' & R2 & R3). cbn [fst snd] in *. subst r2 st. subst f. exists r', q'. split; [reflexivity|]. split; [reflexivity|].
  destruct (read_chunk_left eager _ _ _ _ E) as [L1 L2]. unfold left in L1. cbn [rest open] in *. rewrite !app_length in *. split; [|lia].
  destruct (Nat.eqb_spec bufmaxsize (length (buf r))) as [Eb|Eb].
  - unfold read_chunk in E. cbn [fail open] in E. rewrite Eb, Nat.eqb_refl in E. injection E as _ E. apply app_inv_tail in E. subst. lia.
  - unfold read_chunk in E. cbn [fail open] in E. apply Nat.eqb_neq in Eb. rewrite Eb in E. destruct (get_n _ _ _) as [t st1] eqn:Eg. destruct (fail st1); [discriminate|].
    destruct (peek st1) as [c st2] eqn:Ep. injection E as E E'. subst st2. apply peek_rest in Ep. cbn [rest open] in Ep. unfold get_n in Eg.
    unfold good in Eg. cbn [eof fail open negb andb rest] in Eg. injection Eg as _ Eg. subst st1. cbn [rest] in Ep.
    assert (Lq : length (q' ++ more) <= length (q ++ more)) by (rewrite Ep, skipn_length; lia). rewrite !app_length in Lq. lia.
Qed.

Lemma read_single_cases s : (exists v p, read_single number s = Ok (v, p)) \/ read_single number s = Throw csv_read_error.
Proof. unfold read_single. destruct (match s with [] => _ | _ :: _ => _ end) as [k s']. destruct (number s') as [[v p]|]; eauto. Qed.
(** What read() does with the buffer. *)
Lemma take_sim r q v p : sim (match skipn p (buf r) with
  | [] => Ok (v, Reader [] (keep_reading r), fopen q)
  | c :: tail => if Z.eqb c sep then Ok (v, Reader tail (keep_reading r), fopen q) else Throw csv_read_error
  end) (match skipn p (buf r) with
  | [] => Ok (v, Reader [] (keep_reading r), open (q ++ more))
  | c :: tail => if Z.eqb c sep then Ok (v : V, Reader tail (keep_reading r), open (q ++ more)) else Throw csv_read_error
  end).
Proof.
  assert (D : forall x, sim (Ok (v, x, fopen q)) (Ok (v, x, open (q ++ more)))).
  { intros x. left. eexists. split; [reflexivity|]. split; [reflexivity|]. split; [reflexivity|]. now exists q. }
  destruct (skipn p (buf r)) as [|c t]; [apply D|]. destruct (Z.eqb c sep); [apply D|reflexivity].
Qed.
Lemma read_sim r q : sim (fread true eager number sep r (fopen q)) (read eager number sep r (open (q ++ more))).
Proof.
  unfold fread, read. destruct (keep_reading r) eqn:K.
  - destruct (chunk_cases r q) as [(r' & q' & E1 & E2 & _)|[(r' & f & E1 & F)|E1]].
    + rewrite E1, E2. cbn [bind]. destruct (read_single_cases (buf r')) as [(v & p & Er)|Er]; rewrite Er; cbn [bind]; [|reflexivity].
      apply take_sim.
    + rewrite E1. cbn [bind]. destruct F as (F1 & F2 & F3). destruct (read_single_cases (buf r')) as [(v & p & Er)|Er]; rewrite Er; cbn [bind]; [|reflexivity].
      destruct (skipn p (buf r')) as [|c t]; [right; split; [exact F1|split; [exact F2|exact F3]]|].
      destruct (Z.eqb c sep); [|reflexivity]. right; split; [exact F1|split; [exact F2|exact F3]].
    + rewrite E1. reflexivity.
  - cbn [bind]. destruct (read_single_cases (buf r)) as [(v & p & Er)|Er]; rewrite Er; cbn [bind]; [|reflexivity].
    apply take_sim.
Qed.
Lemma read_faulted r f : faulted r f -> fread true eager number sep r f = Throw csv_read_error.
Proof. intros (F1 & F2 & F3). unfold fread. rewrite F3, (fread_chunk_bad r f F1). reflexivity. Qed.

(** next_line *)
Lemma next_faulted r f : faulted r f -> fnext_line true r f = Throw csv_read_error.
Proof.
  intros (F1 & F2 & F3). unfold fnext_line. destruct (buf r); [|reflexivity]. rewrite F2. unfold CsvFault_Model.fget, fgood. rewrite F1, !andb_false_r. reflexivity.
Qed.
Lemma next_cases r q : (exists q', fnext_line true r (fopen q) = Ok (fopen q') /\ next_line r (open (q ++ more)) = Ok (open (q' ++ more)) /\ q = newline :: q') \/
  fnext_line true r (fopen q) = Throw csv_read_error.
Proof.
  unfold fnext_line, next_line. destruct (buf r); [|now right]. cbn [feof fopen eof open]. unfold CsvFault_Model.fget, get, fgood, good. cbn [feof ffail fbad fopen eof fail open negb andb frest rest].
  destruct q as [|c q]; [right; reflexivity|]. cbn [app is_end]. destruct (Z.eqb_spec c newline) as [->|N]; [left; exists q; auto|now right].
Qed.

Lemma skip_rest_cases fuel : forall fuel' r q, length q < fuel -> length (q ++ more) < fuel' ->
  (exists r' q', fskip_rest true eager fuel r (fopen q) = Ok (r', fopen q') /\ skip_rest eager fuel' r (open (q ++ more)) = Ok (r', open (q' ++ more)) /\ length q' <= length q) \/
  fskip_rest true eager fuel r (fopen q) = Throw csv_read_error.
Proof.
  induction fuel as [|fuel IH]; intros fuel' r q H1 H2; [lia|]. destruct fuel' as [|fuel']; [lia|]. cbn [fskip_rest skip_rest].
  destruct (keep_reading r) eqn:K; [|left; exists r, q; auto].
  destruct (chunk_cases (Reader [] true) q) as [(r' & q' & E1 & E2 & L1 & L2)|[(r' & f & E1 & F)|E1]]; rewrite E1; cbn [bind].
  - rewrite E2. cbn [bind]. specialize (L2 ltac:(cbn; lia)). rewrite app_length in *. destruct (IH fuel' r' q') as [(r2 & q2 & A & B & C)|A]; try rewrite app_length; try lia; [left; exists r2, q2; repeat split; auto; lia|now right].
  - right. destruct fuel as [|fuel]; cbn [fskip_rest]; destruct F as (F1 & F2 & F3); rewrite F3.
    + (* the stream cannot break without delivering a character *)
      exfalso. destruct q as [|c q]; [|cbn in H1; lia]. unfold fread_chunk in E1. cbn in E1. destruct eager; cbn in E1; discriminate.
    + rewrite (fread_chunk_bad _ f F1). reflexivity.
  - now right.
Qed.
Lemma skip_rest_faulted fuel r f : faulted r f -> fskip_rest true eager (S fuel) r f = Throw csv_read_error.
Proof. intros (F1 & F2 & F3). cbn [fskip_rest]. rewrite F3, (fread_chunk_bad _ f F1). reflexivity. Qed.

Lemma skip_loop_cases fuel : forall fuel' b q, length q < fuel -> length (q ++ more) < fuel' ->
  sim (un (fskip_loop true eager fuel (Reader [] b) (fopen q))) (un (skip_loop eager fuel' (Reader [] b) (open (q ++ more)))).
Proof.
  induction fuel as [|fuel IH]; intros fuel' b q H1 H2; [lia|]. destruct fuel' as [|fuel']; [lia|]. cbn [fskip_loop skip_loop feof fopen eof open].
  destruct (chunk_cases (Reader [] b) q) as [(r' & q' & E1 & E2 & L1 & L2)|[(r' & f & E1 & F)|E1]]; fold (fopen q); fold (open (q ++ more)); rewrite E1; cbn [bind].
  - rewrite E2. cbn [bind]. specialize (L2 ltac:(cbn; lia)). assert (D : sim (un (Ok (r', fopen q'))) (un (Ok (r', open (q' ++ more))))).
    { left. eexists. split; [reflexivity|]. split; [reflexivity|]. split; [reflexivity|]. now exists q'. }
    destruct (buf r') as [|c t]; [exact D|]. destruct (Z.eqb c hash); [|exact D]. clear D. cbn [frest fopen rest open].
    destruct (skip_rest_cases (S (length q')) (S (length (q' ++ more))) r' q') as [(r2 & q2 & A & B & C)|A]; try lia; fold (fopen q'); fold (open (q' ++ more)); rewrite A; cbn [bind]; [rewrite B; cbn [bind]|reflexivity].
    destruct (next_cases (Reader [] (keep_reading r2)) q2) as [(q3 & N1 & N2 & ->)|N1]; rewrite N1; cbn [bind]; [rewrite N2; cbn [bind]|reflexivity].
    apply IH; rewrite ?app_length in *; cbn [length] in *; lia.
  - assert (D : sim (un (Ok (r', f))) (un (skip_loop eager (S fuel') (Reader [] b) (open (q ++ more))))) by (right; exact F).
    destruct (buf r') as [|c t]; [right; exact F|]. destruct (Z.eqb c hash); [|right; exact F]. rewrite skip_rest_faulted by exact F. reflexivity.
  - reflexivity.
Qed.

Lemma fpeek_end : fpeek (fopen []) = (None, FStream [] false false true).
Proof. reflexivity. Qed.
Lemma fpeek_char c q : fpeek (fopen (c :: q)) = (Some c, fopen (c :: q)).
Proof. reflexivity. Qed.
Lemma peek_char c q : peek (open (c :: q)) = (Some c, open (c :: q)).
Proof. reflexivity. Qed.
Lemma fskip_end b : fskip_comments true eager (Reader [] b) (fopen []) = Throw csv_read_error.
Proof.
  unfold fskip_comments. rewrite fpeek_end. cbn [buf feof fopen is_end frest length fskip_loop]. now rewrite fread_chunk_bad.
Qed.
Lemma skip_comments_sim b q : sim (un (fskip_comments true eager (Reader [] b) (fopen q))) (un (skip_comments eager (Reader [] b) (open (q ++ more)))).
Proof.
  destruct q as [|c q]; [rewrite fskip_end; reflexivity|].
  unfold fskip_comments, skip_comments. rewrite fpeek_char. cbn [app]. rewrite peek_char. cbn [buf feof fopen eof open is_end].
  destruct (Z.eqb c newline).
  + left. eexists. split; [reflexivity|]. split; [reflexivity|]. split; [reflexivity|]. now exists (c :: q).
  + apply (skip_loop_cases (S (length (c :: q))) (S (length (c :: q ++ more))) b (c :: q)); cbn [length app]; lia.
Qed.

Lemma read_fields_sim n : forall r q, sim (fread_fields true eager number sep n r (fopen q)) (read_fields eager number sep n r (open (q ++ more))).
Proof.
  induction n as [|n IH]; intros r q; cbn [fread_fields read_fields].
  - left. eexists. split; [reflexivity|]. split; [reflexivity|]. split; [reflexivity|]. now exists q.
  - pose proof (read_sim r q) as H. destruct (fread true eager number sep r (fopen q)) as [[[v r'] f]|e| |]; cbn [bind]; try exact H.
    destruct H as [(y & Hy & R)|F].
    + rewrite Hy. destruct y as [[v2 r2] st2]. destruct R as (R1 & R2 & q' & R3 & R4). cbn in R1, R2, R3, R4. subst. cbn [bind]. specialize (IH r2 q').
      destruct (fread_fields true eager number sep n r2 (fopen q')) as [[[vs r3] f3]|e| |]; cbn [bind]; try exact IH.
      destruct IH as [(y & Hy2 & R)|F]; [|right; exact F]. rewrite Hy2. destruct y as [[vs4 r4] st4]. destruct R as (R1 & R2 & q5 & R3 & R4). cbn in R1, R2, R3, R4. subst.
      left. eexists. split; [reflexivity|]. split; [reflexivity|]. split; [reflexivity|]. now exists q5.
    + destruct n as [|n]; cbn [fread_fields bind]; [right; exact F|]. cbn [snd fst] in F. rewrite (read_faulted _ _ F). reflexivity.
Qed.

(** A row: once the last newline has been read, the stream is not broken. *)
Definition sim_row {A} (f : outcome (A * reader * fstream)) (h : outcome (A * reader * stream)) : Prop :=
  match f with
  | Ok x => exists y, h = Ok y /\ rel x y /\ buf (snd (fst x)) = []
  | Throw e => e = csv_read_error
  | _ => False
  end.
Lemma finish_sim {A} (f : outcome (A * reader * fstream)) (h : outcome (A * reader * stream)) : sim f h ->
  sim_row ('(vs, r, st) <- f ;; st <- fnext_line true r st ;; Ok (vs, r, st)) ('(vs, r, st) <- h ;; st <- next_line r st ;; Ok (vs, r, st)).
Proof.
  intros H. destruct f as [[[vs r] f]|e| |]; cbn [bind]; try exact H. destruct H as [(y & -> & R)|F].
  - destruct y as [[vs2 r2] st2]. destruct R as (R1 & R2 & q' & R3 & R4). cbn in R1, R2, R3, R4. subst. cbn [bind].
    destruct (next_cases r2 q') as [(q3 & N1 & N2 & ->)|N1]; rewrite N1; cbn [bind]; [rewrite N2; cbn [bind]|reflexivity].
    eexists. split; [reflexivity|]. split; [split; [reflexivity|]; split; [reflexivity|]; now exists q3|]. cbn.
    unfold fnext_line in N1. destruct (buf r2); [reflexivity|discriminate].
  - cbn [snd fst] in F. rewrite (next_faulted _ _ F). reflexivity.
Qed.
Lemma one_row_sim n b q : sim_row (fone_row true eager number sep n (Reader [] b) (fopen q)) (one_row eager number sep n (Reader [] b) (open (q ++ more))).
Proof.
  unfold fone_row, one_row. pose proof (skip_comments_sim b q) as H. destruct (fskip_comments true eager (Reader [] b) (fopen q)) as [[r f]|e| |]; cbn [un bind] in H |- *; try exact H.
  destruct H as [(y & Hy & R)|F].
  - destruct (skip_comments eager (Reader [] b) (open (q ++ more))) as [[r2 st2]|e| |]; try discriminate. cbn [un bind] in Hy. injection Hy as <-.
    destruct R as (_ & R2 & q' & R3 & R4). cbn in R2, R3, R4. subst. cbn [bind]. apply finish_sim, read_fields_sim.
  - cbn [snd fst] in F. destruct n as [|n]; cbn [fread_fields bind]; [rewrite (next_faulted _ _ F); reflexivity|rewrite (read_faulted _ _ F); reflexivity].
Qed.
Lemma read_rows_sim rows cols : forall b q,
  match fread_rows true eager number sep rows cols (Reader [] b) (fopen q) with
  | Ok (vss, f) => exists q', f = fopen q' /\ read_rows eager number sep rows cols (Reader [] b) (open (q ++ more)) = Ok (vss, open (q' ++ more))
  | Throw e => e = csv_read_error
  | _ => False
  end.
Proof.
  induction rows as [|rows IH]; intros b q; cbn [fread_rows read_rows]; [now exists q|].
  pose proof (one_row_sim cols b q) as H. destruct (fone_row true eager number sep cols (Reader [] b) (fopen q)) as [[[vs r] f]|e| |]; cbn [bind]; try exact H.
  destruct H as (y & -> & R & B). destruct y as [[vs2 r2] st2]. destruct R as (R1 & R2 & q' & R3 & R4). cbn in R1, R2, R3, R4, B. subst. cbn [bind].
  destruct r2 as [bb k]. cbn in B. subst bb. specialize (IH k q'). destruct (fread_rows true eager number sep rows cols (Reader [] k) (fopen q')) as [[vss f]|e| |]; cbn [bind]; auto.
  destruct IH as (q2 & -> & ->). now exists q2.
Qed.

(** csv_read_row_std_vector *)
Lemma done_cases r q : (exists d, fdone true r (fopen q) = (d, fopen q) /\ done r (open (q ++ more)) = (d, open (q ++ more))) \/
  (q = [] /\ fst (fdone true r (fopen q)) = false /\ fbad (snd (fdone true r (fopen q))) = true /\ feof (snd (fdone true r (fopen q))) = false).
Proof.
  unfold fdone, done, CsvFault_Model.fpeek, peek, fgood, good. cbn [feof ffail fbad fopen eof fail open negb andb frest rest].
  destruct q as [|c q]; [right|left]; cbn; [now rewrite andb_false_r|]. eexists. split; reflexivity.
Qed.
(** In every state that is reached, a reader that does not want more characters has seen the character that stopped it. *)
Definition ready (r : reader) (q : list Z) : Prop := keep_reading r = true \/ q <> [].
Lemma chunk_ready r q r' q' : fread_chunk true eager r (fopen q) = Ok (r', fopen q') -> keep_reading r = true -> ready r' q'.
Proof.
  unfold fread_chunk. change (ffail (fopen q) || fbad (fopen q)) with false. cbv iota. destruct (Nat.eqb _ _); [intros H; injection H as <- <-; now left|].
  destruct (fget_n true eager (bufmaxsize - length (buf r)) (fopen q)) as [t f] eqn:Eg. destruct (ffail f || fbad f) eqn:Ef; [discriminate|]. apply orb_false_elim in Ef as [Ef1 Ef2].
  unfold CsvFault_Model.fpeek. intros H K. destruct (fgood f); [destruct (frest f) as [|c l] eqn:Er|]; unfold fset_fail, fopen in H; cbn [at_the_end] in H; try discriminate H.
  - injection H as <- E. unfold ready. right. rewrite E in Er. cbn in Er. congruence.
Qed.
Lemma read_ready r q v r' q' : fread true eager number sep r (fopen q) = Ok (v, r', fopen q') -> ready r q -> ready r' q'.
Proof.
  unfold fread. intros H Hr. destruct (keep_reading r) eqn:K.
  - destruct (fread_chunk true eager r (fopen q)) as [[r1 f1]|e| |] eqn:E; try discriminate. cbn [bind] in H. destruct (read_single number (buf r1)) as [[v1 p]|e| |]; try discriminate. cbn [bind] in H.
    assert (f1 = fopen q' /\ keep_reading r' = keep_reading r1) as [-> Hk].
    { destruct (skipn p (buf r1)) as [|c t]; [|destruct (Z.eqb c sep); [|discriminate]]; injection H as _ <- <-; auto. }
    pose proof (chunk_ready _ _ _ _ E K) as C. unfold ready in *. rewrite Hk. exact C.
  - cbn [bind] in H. destruct (read_single number (buf r)) as [[v1 p]|e| |]; try discriminate. cbn [bind] in H.
    assert (fopen q = fopen q' /\ keep_reading r' = keep_reading r) as [Hq Hk].
    { destruct (skipn p (buf r)) as [|c t]; [|destruct (Z.eqb c sep); [|discriminate]]; injection H as _ <- <-; auto. }
    injection Hq as <-. unfold ready in *. rewrite Hk, K. destruct Hr as [Hr|Hr]; [congruence|now right].
Qed.

Lemma read_all_sim fuel : forall fuel' r q, ready r q -> length (buf r) + length q < fuel -> length (buf r) + length (q ++ more) < fuel' ->
  sim (fread_all true eager number sep fuel r (fopen q)) (read_all eager number sep fuel' r (open (q ++ more))).
Proof.
  induction fuel as [|fuel IH]; intros fuel' r q Hr H1 H2; [lia|]. destruct fuel' as [|fuel']; [lia|]. cbn [fread_all read_all].
  destruct (done_cases r q) as [(d & D1 & D2)|(-> & D1 & D2 & D3)].
  - rewrite D1, D2. destruct d; [left; eexists; split; [reflexivity|]; split; [reflexivity|]; split; [reflexivity|]; now exists q|].
    pose proof (read_sim r q) as H. destruct (fread true eager number sep r (fopen q)) as [[[v r'] f]|e| |] eqn:Er; cbn [bind]; try exact H.
    destruct H as [(y & Hy & R)|F].
    + rewrite Hy. destruct y as [[v2 r2] st2]. destruct R as (R1 & R2 & q' & R3 & R4). cbn in R1, R2, R3, R4. subst. cbn [bind].
      pose proof (read_left eager number sep Hnum _ _ _ _ _ Hy) as L. unfold left in L. cbn [rest open] in L.
      specialize (IH fuel' r2 q' (read_ready _ _ _ _ _ Er Hr)). rewrite !app_length in *. specialize (IH ltac:(lia) ltac:(lia)).
      destruct (fread_all true eager number sep fuel r2 (fopen q')) as [[[vs r3] f3]|e| |]; cbn [bind]; try exact IH.
      destruct IH as [(y & Hy2 & R)|F]; [|right; exact F]. rewrite Hy2. destruct y as [[vs4 r4] st4]. destruct R as (R1 & R2 & q5 & R3 & R4). cbn in R1, R2, R3, R4. subst.
      left. eexists. split; [reflexivity|]. split; [reflexivity|]. split; [reflexivity|]. now exists q5.
    + cbn [snd fst] in F. destruct F as (F1 & F2 & F3).
      assert (Ed : fdone true r' f = (false, fset_fail f)).
      { unfold fdone, CsvFault_Model.fpeek, fgood. rewrite F1, !andb_false_r. cbn [is_end fset_fail feof]. rewrite F2. cbn. now rewrite andb_false_r. }
      destruct fuel as [|fuel]; cbn [fread_all]; rewrite Ed.
      * exfalso. (* no fuel left: nothing was left to read *)
        assert (q = [] /\ buf r = []) as [-> Hb] by (split; [destruct q; [reflexivity|cbn in H1; lia]|destruct (buf r); [reflexivity|cbn in H1; lia]]).
        destruct Hr as [Hr|Hr]; [|now elim Hr]. unfold fread in Er. rewrite Hr in Er. unfold fread_chunk in Er. cbn [ffail fbad fopen orb] in Er. rewrite Hb in Er. cbn in Er. destruct eager; discriminate.
      * rewrite read_faulted; [reflexivity|]. split; [exact F1|]. split; [exact F2|exact F3].
  - destruct (fdone true r (fopen [])) as [d f]. cbn [fst snd] in *. subst d.
    destruct Hr as [Hr|Hr]; [|now elim Hr]. rewrite read_faulted; [reflexivity|]. split; [exact D2|]. split; [exact D3|exact Hr].
Qed.

Lemma skip_comments_ready b q r' q' : fskip_comments true eager (Reader [] b) (fopen q) = Ok (r', fopen q') -> b = true -> ready r' q'.
Proof.
  intros H Hb. destruct q as [|c q].
  - rewrite fskip_end in H. discriminate.
  - unfold fskip_comments in H. rewrite fpeek_char in H. cbn [buf feof fopen is_end] in H. destruct (Z.eqb c newline); [injection H as <- <-; now left|]. subst b.
    assert (K : forall fuel b q0, (b = true \/ q0 <> []) -> fskip_loop true eager fuel (Reader [] b) (fopen q0) = Ok (r', fopen q') -> ready r' q').
    { clear H. induction fuel as [|fuel IH]; intros b q0 Hq0 H; cbn [fskip_loop feof fopen] in H; [discriminate|].
      destruct (fread_chunk true eager (Reader [] b) (fopen q0)) as [[r1 f1]|e| |] eqn:E1; try discriminate H. cbn [bind] in H.
      assert (E1' : fread_chunk true eager (Reader [] true) (fopen q0) = Ok (r1, f1)) by exact E1.
      assert (D : Ok (r1, f1) = Ok (r', fopen q') -> ready r' q').
      { intros X. injection X as -> ->. exact (chunk_ready (Reader [] true) q0 _ _ E1' eq_refl). }
      destruct (buf r1) as [|d t]; [exact (D H)|]. destruct (Z.eqb d hash); [|exact (D H)]. clear D.
      destruct (fskip_rest true eager (S (length (frest f1))) r1 f1) as [[r2 f2]|e| |] eqn:E2; try discriminate. cbn [bind] in H.
      destruct (chunk_cases (Reader [] true) q0) as [(ra & qa & A1 & _ & _)|[(ra & fa & A1 & F)|A1]]; rewrite A1 in E1'; try discriminate; injection E1' as X1 X2; subst.
      + destruct (skip_rest_cases (S (length qa)) (S (length (qa ++ more))) r1 qa) as [(rb & qb & B1 & _ & _)|B1]; try lia; cbn [frest fopen] in E2; rewrite B1 in E2; [|discriminate]. injection E2 as X3 X4; subst.
        destruct (next_cases (Reader [] (keep_reading r2)) qb) as [(qc & N1 & _ & _)|N1]; rewrite N1 in H; [|discriminate]. cbn [bind] in H.
        (* the loop continues: a further chunk is read, with whatever keep_reading *)
        destruct fuel as [|fuel]; [discriminate|]. apply (IH true qc); [now left|]. exact H.
      + rewrite skip_rest_faulted in E2 by exact F. discriminate. }
    apply (K (S (length (c :: q))) true (c :: q)); [now left|exact H].
Qed.

Lemma vector_sim q :
  match fcsv_read_row_std_vector true eager number sep (fopen q) with
  | Ok (vs, f) => exists q', f = fopen q' /\ csv_read_row_std_vector eager number sep (open (q ++ more)) = Ok (vs, open (q' ++ more))
  | Throw e => e = csv_read_error
  | _ => False
  end.
Proof.
  unfold fcsv_read_row_std_vector, csv_read_row_std_vector, new_reader. pose proof (skip_comments_sim true q) as H. pose proof (fun r' q' E => skip_comments_ready true q r' q' E eq_refl) as Hrd.
  destruct (skip_comments_fine eager true (open (q ++ more))) as [_ Lh].
  destruct (fskip_comments true eager (Reader [] true) (fopen q)) as [[r f]|e| |] eqn:Es; cbn [un bind] in H |- *; try exact H.
  destruct H as [(y & Hy & R)|F].
  - destruct (skip_comments eager (Reader [] true) (open (q ++ more))) as [[r2 st2]|e| |]; try discriminate. cbn [un bind] in Hy. injection Hy as <-.
    destruct R as (_ & R2 & q' & R3 & R4). cbn in R2, R3, R4. subst. cbn [bind]. specialize (Lh _ _ eq_refl). unfold left in Lh. cbn [rest open] in Lh.
    cbn [frest fopen rest open]. rewrite !app_length in Lh.
    assert (S1 : sim (fread_all true eager number sep (S (length q)) r2 (fopen q')) (read_all eager number sep (S (length (q ++ more))) r2 (open (q' ++ more)))).
    { apply read_all_sim; [now apply Hrd|lia|rewrite !app_length; lia]. }
    apply finish_sim in S1.
    destruct (fread_all true eager number sep (S (length q)) r2 (fopen q')) as [[[vs r3] f3]|e| |]; cbn [bind] in S1 |- *; try exact S1.
    destruct (fnext_line true r3 f3) as [f4|e| |]; cbn [bind] in S1 |- *; try exact S1. destruct S1 as (y & Hy & (R1 & R2 & q5 & R3 & R4) & _). cbn in R1, R2, R3, R4. subst.
    destruct (read_all eager number sep (S (length (q ++ more))) r2 (open (q' ++ more))) as [[[vs4 r4] st4]|e| |]; try discriminate Hy. cbn [bind] in Hy |- *.
    destruct (next_line r4 st4) as [st5|e| |]; try discriminate Hy. cbn [bind] in Hy |- *. injection Hy as <-. cbn in *. subst. exists q5. split; reflexivity.
  - cbn [snd fst] in F. destruct F as (F1 & F2 & F3). cbn [fread_all].
    assert (Ed : fdone true r f = (false, fset_fail f)).
    { unfold fdone, CsvFault_Model.fpeek, fgood. rewrite F1, !andb_false_r. cbn [is_end fset_fail feof]. rewrite F2. cbn. now rewrite andb_false_r. }
    rewrite Ed, read_faulted; [reflexivity|]. split; [exact F1|]. split; [exact F2|exact F3].
Qed.
End Sim.
