(** Proofs for C74. *)
From Verif Require Import Base Streambuf_Spec Streambuf_Model Streambuf_Proofs StreambufThrow_Spec StreambufThrow_Model.
Local Arguments Nat.eqb : simpl never.
Local Arguments Nat.ltb : simpl never.

Lemma to_deliver_spec s : inv s ->
  match to_deliver s with
  | None => out (sync_ s) = out s
  | Some sp => out (sync_ s) = out s ++ [sp] /\ sp <> [] /\ buffered s <> [] /\
      sp = firstn (length (buffered s) - utf8_remainder (rev (buffered s))) (buffered s)
  end.
Proof.
  intros I. pose proof (buffered_length s I) as BL. unfold to_deliver.
  destruct (Nat.eqb_spec (pp s) 0) as [Zr|Zr].
  { unfold sync_. now rewrite (proj2 (Nat.eqb_eq _ _) Zr). }
  assert (B : buffered s <> []) by (intros E; rewrite E in BL; cbn in BL; lia).
  destruct (sync_spec s I) as (_ & _ & _ & _ & S1). destruct (S1 B) as [_ O]. rewrite BL in O. fold (buffered s).
  rewrite BL. destruct (Nat.ltb_spec (utf8_remainder (rev (buffered s))) (pp s)) as [Q|Q].
  - destruct (Nat.eqb_spec (pp s - utf8_remainder (rev (buffered s))) 0); [lia|].
    assert (EF : firstn (pp s - utf8_remainder (rev (buffered s))) (mem s)
               = firstn (pp s - utf8_remainder (rev (buffered s))) (buffered s)).
    { unfold buffered at 3. rewrite firstn_firstn. f_equal. lia. }
    rewrite EF. repeat split; auto. intros E. apply (f_equal (@length Z)) in E. rewrite firstn_length in E. cbn in E. lia.
  - destruct (Nat.eqb_spec (pp s - utf8_remainder (rev (buffered s))) 0); [|lia]. now rewrite app_nil_r in O.
Qed.

(** What holds of every state: pptr() is within the storage, [out] lists the
    calls that returned. *)
Definition good_t (x : state) : Prop := inv (fst x) /\ out (fst x) = returned (snd x).

(** Bytes received by the callback, then the buffered ones. *)
Definition content (x : state) : list Z := delivered (fst x) ++ buffered (fst x).

Definition moves (x : state) (d : list Z) (x' : state) : Prop :=
  good_t x' /\ cap (fst x') = cap (fst x) /\ length (mem (fst x')) = length (mem (fst x)) /\
  content x' = content x ++ d.

Lemma returned_snoc log sp t : returned (log ++ [(sp, t)]) = returned log ++ (if t then [] else [sp]).
Proof. unfold returned. rewrite filter_app, map_app. cbn [filter snd]. now destruct t. Qed.

Lemma moves_refl x : good_t x -> moves x [] x.
Proof. intros G. unfold moves. rewrite app_nil_r. auto. Qed.

Lemma moves_trans x d y e z : moves x d y -> moves y e z -> moves x (d ++ e) z.
Proof.
  intros (G1 & C1 & M1 & D1) (G2 & C2 & M2 & D2). split; [exact G2|]. split; [congruence|]. split; [congruence|].
  now rewrite D2, D1, app_assoc.
Qed.

Lemma sync_moves throws x : good_t x -> moves x [] (snd (sync_t throws x)).
Proof.
  destruct x as [s log]. intros [I O]. cbn [fst snd] in *. unfold sync_t.
  pose proof (to_deliver_spec s I) as D. destruct (sync_spec s I) as (I' & C' & M' & _).
  pose proof (sync_keeps s I) as K.
  destruct (to_deliver s) as [sp|] eqn:TD; cbn [snd].
  - destruct D as (D & _). destruct (throws (length log)) eqn:T.
    + split; [split; cbn [fst snd]; [exact I|rewrite returned_snoc, app_nil_r; exact O]|].
      cbn [fst]. split; [reflexivity|]. split; [reflexivity|]. now rewrite app_nil_r.
    + split; [split; cbn [fst snd]; [exact I'|rewrite returned_snoc, D, O; reflexivity]|].
      cbn [fst]. split; [exact C'|]. split; [exact M'|]. unfold content. cbn [fst]. now rewrite app_nil_r.
  - split; [split; cbn [fst snd]; [exact I'|congruence]|].
    cbn [fst]. split; [exact C'|]. split; [exact M'|]. unfold content. cbn [fst]. now rewrite app_nil_r.
Qed.

Lemma store1_moves c s s' log : good_t (s, log) -> store1 c s = Ok s' ->
  moves (s, log) [c] (s', log) /\ pp s' = S (pp s) /\ buffered s' = buffered s ++ [c].
Proof.
  intros [I O] R. cbn [fst snd] in *. assert (Q : pp s < length (mem s)).
  { unfold store1 in R. destruct (Nat.ltb_spec (pp s) (length (mem s))); [lia|discriminate R]. }
  destruct (store1_ok c s Q) as (s1 & E & I1 & C1 & M1 & P1 & O1 & B1). rewrite E in R. injection R as <-.
  split; [|auto]. split; [split; cbn [fst snd]; congruence|]. cbn [fst]. split; [exact C1|]. split; [exact M1|].
  unfold content, delivered. cbn [fst]. rewrite O1, B1. now rewrite app_assoc.
Qed.

Lemma store_n_moves d s s' log : good_t (s, log) -> store_n d s = Ok s' ->
  moves (s, log) d (s', log) /\ pp s' = pp s + length d /\ buffered s' = buffered s ++ d.
Proof.
  intros [I O] R. cbn [fst snd] in *. assert (Q : pp s + length d <= length (mem s)).
  { unfold store_n in R. destruct (Nat.leb_spec (pp s + length d) (length (mem s))); [lia|discriminate R]. }
  destruct (store_n_ok d s Q) as (s1 & E & I1 & C1 & M1 & P1 & O1 & B1). rewrite E in R. injection R as <-.
  split; [|auto]. split; [split; cbn [fst snd]; congruence|]. cbn [fst]. split; [exact C1|]. split; [exact M1|].
  unfold content, delivered. cbn [fst]. rewrite O1, B1. now rewrite app_assoc.
Qed.

Lemma overflow_moves throws c x t x' : good_t x -> overflow_t throws c x = Ok (t, x') -> moves x [c] x'.
Proof.
  destruct x as [s log]. intros G R. unfold overflow_t in R.
  destruct (store1 c s) as [s1|e| |] eqn:E; cbn [bind] in R; try discriminate R. injection R as R.
  destruct (store1_moves c s s1 log G E) as (M & _).
  pose proof (sync_moves throws (s1, log) ltac:(apply M)) as M2.
  replace (sync_t throws (s1, log)) with (t, x') in M2. cbn [snd] in M2. change [c] with ([c] ++ []). eapply moves_trans; eauto.
Qed.

Lemma xsputn_moves throws : forall fuel data x t x', length data <= fuel -> good_t x ->
  xsputn_t throws fuel data x = Ok (t, x') ->
  exists d1 d2, data = d1 ++ d2 /\ moves x d1 x' /\ (if t then d1 <> [] else d2 = []).
Proof.
  induction fuel as [|fuel IH]; intros data x t x' F G R.
  { destruct data; [|cbn in F; lia]. cbn [xsputn_t] in R. injection R as <- <-. exists [], []. split; [reflexivity|]. split; [now apply moves_refl|reflexivity]. }
  destruct data as [|c0 data0].
  { cbn [xsputn_t] in R. injection R as <- <-. exists [], []. split; [reflexivity|]. split; [now apply moves_refl|reflexivity]. }
  set (data := c0 :: data0) in *. destruct x as [s log].
  change (xsputn_t throws (S fuel) data (s, log)) with (if Nat.ltb (cap s) (pp s) then UB
    else let len := Nat.min (cap s - pp s) (length data) in
      bind (store_n (firstn len data) s) (fun s => match skipn len data with
      | [] => Ok (false, (s, log))
      | c :: rest => bind (overflow_t throws c (s, log)) (fun r => let (t, x) := r : bool * state in
          if t then Ok (true, x) else xsputn_t throws fuel rest x) end)) in R.
  destruct (Nat.ltb (cap s) (pp s)); [discriminate R|]. cbv zeta in R. set (len := Nat.min _ _) in R.
  destruct (store_n (firstn len data) s) as [s1|e| |] eqn:E; cbn [bind] in R; try discriminate R.
  destruct (store_n_moves _ _ _ log G E) as (M1 & _).
  assert (FS : data = firstn len data ++ skipn len data) by (symmetry; apply firstn_skipn).
  assert (LF : length (firstn len data) = len) by (rewrite firstn_length; lia).
  destruct (skipn len data) as [|c rest] eqn:SK.
  { injection R as <- <-. exists data, []. split; [now rewrite app_nil_r|]. split; [|reflexivity].
    rewrite app_nil_r in FS. rewrite FS. exact M1. }
  destruct (overflow_t throws c (s1, log)) as [[t1 x1]|e| |] eqn:E2; cbn [bind] in R; try discriminate R.
  pose proof (overflow_moves _ _ _ _ _ (proj1 M1) E2) as M2.
  pose proof (moves_trans _ _ _ _ _ M1 M2) as M12.
  destruct t1.
  - injection R as <- <-. exists (firstn len data ++ [c]), rest. split; [rewrite FS at 1; now rewrite <- app_assoc|].
    split; [exact M12|]. intros Q. apply app_eq_nil in Q as [_ Q]. discriminate Q.
  - assert (LR : length data = len + S (length rest)) by (rewrite FS, app_length, LF; reflexivity).
    destruct (IH rest x1 t x' ltac:(lia) (proj1 M2) R) as (d1 & d2 & -> & M3 & T).
    exists ((firstn len data ++ [c]) ++ d1), d2. split; [rewrite FS at 1; now rewrite <- !app_assoc|].
    split; [eapply moves_trans; eauto|]. destruct t; [|exact T]. intros Q. apply app_eq_nil in Q as [_ Q]. now apply T.
Qed.

Lemma step_moves throws o x t x' : good_t x -> step_t throws o x = Ok (t, x') ->
  exists d, accepts o t d /\ moves x d x'.
Proof.
  intros G R. destruct o as [c|d|]; cbn [step_t] in R.
  - exists [c]. split; [destruct t; [constructor|apply (acc_done (Put c))]|]. destruct x as [s log]. unfold sputc_t in R.
    destruct (Nat.ltb (pp s) (cap s)); [|eapply overflow_moves; eauto].
    destruct (store1 c s) as [s1|e| |] eqn:E; cbn [bind] in R; try discriminate R. injection R as <- <-.
    apply (store1_moves c s s1 log G E).
  - destruct (xsputn_moves throws (length d) d x t x' ltac:(lia) G R) as (d1 & d2 & -> & M & T).
    exists d1. split; [|exact M]. destruct t; [now constructor|]. subst d2. rewrite app_nil_r. apply (acc_done (Write d1)).
  - injection R as R. exists []. split; [destruct t; [constructor|apply (acc_done Flush)]|].
    pose proof (sync_moves throws x G) as M. replace (sync_t throws x) with (t, x') in M. exact M.
Qed.

Lemma run_moves throws : forall ops x ts x', good_t x -> run_t throws ops x = Ok (ts, x') ->
  exists d, accepted ops ts d /\ moves x d x'.
Proof.
  induction ops as [|o ops IH]; intros x ts x' G R; cbn [run_t] in R.
  - injection R as <- <-. exists []. split; [constructor|now apply moves_refl].
  - destruct (step_t throws o x) as [[t1 x1]|e| |] eqn:E; cbn [bind] in R; try discriminate R.
    destruct (run_t throws ops x1) as [[ts1 x2]|e| |] eqn:E2; cbn [bind] in R; try discriminate R.
    injection R as <- <-. destruct (step_moves _ _ _ _ _ G E) as (d & A & M).
    destruct (IH _ _ _ (proj1 M) E2) as (ds & A2 & M2). exists (d ++ ds). split; [now constructor|eapply moves_trans; eauto].
Qed.

Lemma good_start N slack : good_t (start N slack).
Proof. split; cbn; [unfold inv; cbn; lia|reflexivity]. Qed.

Lemma content_start N slack : content (start N slack) = [].
Proof. reflexivity. Qed.

(** Valid text: every span is, and a failed span is passed again. *)
Definition spans_ok (log : calls) : Prop := Forall (fun c => fst c <> [] /\ valid_utf8 (fst c)) log.
Definition retried (log : calls) : Prop :=
  forall l1 sp sp' t l2, log = l1 ++ (sp, true) :: (sp', t) :: l2 -> exists e, sp' = sp ++ e.
Definition kept (x : state) : Prop :=
  forall l1 sp, snd x = l1 ++ [(sp, true)] -> exists e, buffered (fst x) = sp ++ e.
Definition valid_t (x : state) : Prop :=
  forall rest, valid_utf8 (content x ++ rest) -> spans_ok (snd x) /\ retried (snd x) /\ kept x.

Lemma spans_returned log : spans_ok log -> Forall (fun sp => sp <> [] /\ valid_utf8 sp) (returned log).
Proof.
  unfold spans_ok, returned. rewrite !Forall_forall. intros H sp Q. apply in_map_iff in Q as ([sp' t] & <- & Q).
  apply filter_In in Q as [Q _]. now apply (H _ Q).
Qed.

Lemma not_incomplete p1 p2 : p1 <> [] -> valid_utf8 p1 -> incomplete (p1 ++ p2) -> False.
Proof.
  intros N ([|q cps] & -> & F) (r & Nr & C); [now apply N|]. apply Forall_inv in F. cbn [concat] in C.
  rewrite <- !app_assoc in C. set (r' := _ ++ p2 ++ r) in C. assert (E : r' = []).
  { destruct F; cbn [app] in C; inversion C; subst; unfold cont in *; try reflexivity; lia. }
  unfold r' in E. apply app_eq_nil in E as [_ E]. now apply app_eq_nil in E.
Qed.

(** A beginning of text made of whole code points is within the whole part. *)
Lemma whole_prefix sp e t p : valid_utf8 sp -> valid_utf8 t -> (p = [] \/ incomplete p) -> sp ++ e = t ++ p ->
  exists e', t = sp ++ e'.
Proof.
  intros V T P E. destruct (le_lt_dec (length sp) (length t)) as [L|L].
  - exists (skipn (length sp) t). rewrite <- (firstn_skipn (length sp) t) at 1. f_equal.
    apply (f_equal (firstn (length sp))) in E. rewrite firstn_app, firstn_all, Nat.sub_diag, firstn_app in E.
    cbn [firstn] in E. replace (length sp - length t) with 0 in E by lia. cbn [firstn] in E. now rewrite !app_nil_r in E.
  - exfalso.
    assert (S : sp = t ++ skipn (length t) sp).
    { rewrite <- (firstn_skipn (length t) sp) at 1. f_equal.
      apply (f_equal (firstn (length t))) in E. rewrite firstn_app, firstn_app, firstn_all, Nat.sub_diag in E.
      cbn [firstn] in E. replace (length t - length sp) with 0 in E by lia. cbn [firstn] in E. now rewrite !app_nil_r in E. }
    set (p1 := skipn (length t) sp) in *. assert (N1 : p1 <> []).
    { intros Q. rewrite Q, app_nil_r in S. rewrite S in L. lia. }
    rewrite S, <- app_assoc in E. apply app_inv_head in E.
    destruct V as (cps & V & F). destruct T as (cps' & T & F').
    assert (V1 : valid_utf8 p1) by (apply (valid_app_inv cps' F' cps p1 F); rewrite <- V, <- T; exact S).
    destruct P as [->|P]; [apply app_eq_nil in E as [E _]; contradiction|].
    rewrite <- E in P. exact (not_incomplete _ _ N1 V1 P).
Qed.

Lemma sync_valid throws x : good_t x -> valid_t x -> valid_t (snd (sync_t throws x)).
Proof.
  intros G V rest W. pose proof (sync_moves throws x G) as (_ & _ & _ & D). rewrite D, app_nil_r in W.
  destruct (V rest W) as (S & Rt & K). destruct x as [s log]. cbn [fst snd] in *. destruct G as [I O]. cbn [fst snd] in I, O.
  pose proof (to_deliver_spec s I) as TD. unfold sync_t in *. destruct (to_deliver s) as [sp|]; cbn [snd].
  2:{ split; [exact S|]. split; [exact Rt|]. intros l1 sp E. cbn [snd fst] in *. destruct (K l1 sp E) as (e & B). cbn [fst] in B.
      destruct (sync_spec s I) as (_ & _ & _ & S0 & S1). destruct (buffered s) as [|z b] eqn:Eb; [rewrite (S0 eq_refl); exists e; now rewrite Eb|].
      destruct (S1 ltac:(discriminate)) as [Hb Ho]. rewrite TD in Ho.
      destruct (Nat.eqb_spec (length (z :: b) - utf8_remainder (rev (z :: b))) 0) as [Zr|Zr].
      - rewrite Hb, Zr. exists e. exact B.
      - exfalso. apply (f_equal (@length _)) in Ho. rewrite app_length in Ho. cbn in Ho. lia. }
  destruct TD as (_ & NE & NB & Esp).
  assert (Wh : Streambuf_Proofs.whole s) by (unfold Streambuf_Proofs.whole; rewrite O; now apply spans_returned).
  destruct (pending_prefix s _ rest Wh eq_refl W) as (t & p & E & C).
  assert (St : sp = t).
  { rewrite Esp, E, (rem_text t p C) by (rewrite <- E; exact NB). rewrite app_length.
    replace (length t + length p - length p) with (length t) by lia.
    now rewrite firstn_app, firstn_all, Nat.sub_diag, app_nil_r. }
  split; [apply Forall_app; split; [exact S|constructor; [split; cbn [fst]; [exact NE|rewrite St; apply C]|constructor]]|].
  split.
  - intros l1 sp1 sp2 t2 l2 Q. destruct (exists_last (l := (sp1, true) :: (sp2, t2) :: l2)) as (l3 & y & Y); [discriminate|].
    rewrite Y, app_assoc in Q. apply app_inj_tail in Q as [Q Qy]. subst y.
    destruct l3 as [|a1 l3]; [discriminate Y|]. cbn [app] in Y. injection Y as Ya Y. subst a1.
    destruct l3 as [|a2 l3].
    + cbn [app] in Y. injection Y as Y1 Y2 Y3. rewrite Y1, St. destruct (K l1 sp1 Q) as (e & B). cbn [fst] in B. rewrite E in B.
      assert (V1 : valid_utf8 sp1). { rewrite Q in S. apply Forall_app in S as [_ S]. now apply Forall_inv in S. }
      destruct (whole_prefix sp1 e t p V1 (proj1 C) (proj2 C) (eq_sym B)) as (e' & ->). now exists e'.
    + cbn [app] in Y. injection Y as Ya Y. subst a2. now apply (Rt l1 sp1 sp2 t2 l3).
  - intros l1 sp1 Q. cbn [snd fst] in *. apply app_inj_tail in Q as [_ Q]. injection Q as Q1 Q2. rewrite Q2. subst sp1.
    rewrite Esp. exists (skipn (length (buffered s) - utf8_remainder (rev (buffered s))) (buffered s)). now rewrite firstn_skipn.
Qed.

Lemma stores_valid d s s' log : good_t (s, log) -> moves (s, log) d (s', log) -> buffered s' = buffered s ++ d ->
  valid_t (s, log) -> valid_t (s', log).
Proof.
  intros G (_ & _ & _ & D) B V rest W. rewrite D, <- app_assoc in W. destruct (V _ W) as (S & R & K).
  split; [exact S|]. split; [exact R|]. intros l1 sp E. destruct (K l1 sp E) as (e & Q). cbn [fst] in *.
  exists (e ++ d). now rewrite B, Q, app_assoc.
Qed.

Lemma overflow_valid throws c x t x' : good_t x -> valid_t x -> overflow_t throws c x = Ok (t, x') -> valid_t x'.
Proof.
  destruct x as [s log]. intros G V R. unfold overflow_t in R.
  destruct (store1 c s) as [s1|e| |] eqn:E; cbn [bind] in R; try discriminate R. injection R as R.
  destruct (store1_moves c s s1 log G E) as (M & _ & B).
  pose proof (sync_valid throws (s1, log) (proj1 M) (stores_valid _ _ _ _ G M B V)) as Q.
  replace (sync_t throws (s1, log)) with (t, x') in Q. exact Q.
Qed.

Lemma xsputn_valid throws : forall fuel data x t x', good_t x -> valid_t x ->
  xsputn_t throws fuel data x = Ok (t, x') -> valid_t x'.
Proof.
  induction fuel as [|fuel IH]; intros data x t x' G V R.
  { destruct data; cbn [xsputn_t] in R; injection R as <- <-; exact V. }
  destruct data as [|c0 data0]; [cbn [xsputn_t] in R; injection R as <- <-; exact V|].
  set (data := c0 :: data0) in *. destruct x as [s log].
  change (xsputn_t throws (S fuel) data (s, log)) with (if Nat.ltb (cap s) (pp s) then UB
    else let len := Nat.min (cap s - pp s) (length data) in
      bind (store_n (firstn len data) s) (fun s => match skipn len data with
      | [] => Ok (false, (s, log))
      | c :: rest => bind (overflow_t throws c (s, log)) (fun r => let (t, x) := r : bool * state in
          if t then Ok (true, x) else xsputn_t throws fuel rest x) end)) in R.
  destruct (Nat.ltb (cap s) (pp s)); [discriminate R|]. cbv zeta in R. set (len := Nat.min _ _) in R.
  destruct (store_n (firstn len data) s) as [s1|e| |] eqn:E; cbn [bind] in R; try discriminate R.
  destruct (store_n_moves _ _ _ log G E) as (M1 & _ & B1). pose proof (stores_valid _ _ _ _ G M1 B1 V) as V1.
  destruct (skipn len data) as [|c rest]; [injection R as <- <-; exact V1|].
  destruct (overflow_t throws c (s1, log)) as [[t1 x1]|e| |] eqn:E2; cbn [bind] in R; try discriminate R.
  pose proof (overflow_valid _ _ _ _ _ (proj1 M1) V1 E2) as V2.
  destruct t1; [injection R as <- <-; exact V2|].
  exact (IH rest x1 t x' (proj1 (overflow_moves _ _ _ _ _ (proj1 M1) E2)) V2 R).
Qed.

Lemma step_valid throws o x t x' : good_t x -> valid_t x -> step_t throws o x = Ok (t, x') -> valid_t x'.
Proof.
  intros G V R. destruct o as [c|d|]; cbn [step_t] in R.
  - destruct x as [s log]. unfold sputc_t in R. destruct (Nat.ltb (pp s) (cap s)); [|eapply overflow_valid; eauto].
    destruct (store1 c s) as [s1|e| |] eqn:E; cbn [bind] in R; try discriminate R. injection R as <- <-.
    destruct (store1_moves c s s1 log G E) as (M & _ & B). eapply stores_valid; eauto.
  - eapply xsputn_valid; eauto.
  - injection R as R. pose proof (sync_valid throws x G V) as Q. replace (sync_t throws x) with (t, x') in Q. exact Q.
Qed.

Lemma run_valid throws : forall ops x ts x', good_t x -> valid_t x -> run_t throws ops x = Ok (ts, x') -> valid_t x'.
Proof.
  induction ops as [|o ops IH]; intros x ts x' G V R; cbn [run_t] in R; [injection R as <- <-; exact V|].
  destruct (step_t throws o x) as [[t1 x1]|e| |] eqn:E; cbn [bind] in R; try discriminate R.
  destruct (run_t throws ops x1) as [[ts1 x2]|e| |] eqn:E2; cbn [bind] in R; try discriminate R.
  injection R as <- <-. destruct (step_moves _ _ _ _ _ G E) as (d & _ & M).
  eapply IH; [exact (proj1 M)|eapply step_valid; eauto|exact E2].
Qed.

Lemma valid_start N slack : valid_t (start N slack).
Proof.
  intros rest _. split; [constructor|]. split.
  - intros [|] sp sp' t l2 E; discriminate E.
  - intros [|] sp E; discriminate E.
Qed.

(** Definedness: [room N L d x] bounds pptr(): at most the size of the buffer, or
    one more while a writing operation that threw awaits a flush ([d]). *)
Record room (N L : nat) (d : bool) (x : state) : Prop := Room {
  room_cap : cap (fst x) = N;
  room_mem : length (mem (fst x)) = L;
  room_pp : pp (fst x) <= if d then S N else N;
}.

Lemma sync_room throws N L d x : 3 <= N -> S N <= L -> room N L d x ->
  let (t, x') := sync_t throws x in room N L (if t then d else false) x'.
Proof.
  intros H3 HL [C M P]. destruct x as [s log]. cbn [fst] in *.
  assert (I : inv s) by (unfold inv; destruct d; lia).
  destruct (sync_spec s I) as (_ & C' & M' & _). pose proof (sync_pp s I) as P'.
  unfold sync_t. destruct (to_deliver s) as [sp|].
  - destruct (throws (length log)); split; cbn [fst]; auto; try congruence; lia.
  - split; cbn [fst]; auto; try congruence; lia.
Qed.

Lemma overflow_room throws N L c x : 3 <= N -> S N <= L -> room N L false x ->
  exists t x', overflow_t throws c x = Ok (t, x') /\ room N L t x'.
Proof.
  intros H3 HL [C M P]. destruct x as [s log]. cbn [fst] in *. unfold overflow_t.
  destruct (store1_ok c s ltac:(lia)) as (s1 & E & I1 & C1 & M1 & P1 & _). rewrite E. cbn [bind].
  assert (R1 : room N L true (s1, log)) by (split; cbn [fst]; lia).
  pose proof (sync_room throws N L true (s1, log) H3 HL R1) as Q.
  destruct (sync_t throws (s1, log)) as [t x'] eqn:Es. exists t, x'. split; [reflexivity|]. now destruct t.
Qed.

Lemma xsputn_room throws N L : 3 <= N -> S N <= L -> forall fuel data x, length data <= fuel -> room N L false x ->
  exists t x', xsputn_t throws fuel data x = Ok (t, x') /\ room N L t x'.
Proof.
  intros H3 HL. induction fuel as [|fuel IH]; intros data x F R.
  { destruct data; [|cbn in F; lia]. exists false, x. split; [reflexivity|exact R]. }
  destruct data as [|c0 data0]; [exists false, x; split; [reflexivity|exact R]|].
  set (data := c0 :: data0) in *. pose proof R as [C M P]. destruct x as [s log]. cbn [fst] in *.
  change (xsputn_t throws (S fuel) data (s, log)) with (if Nat.ltb (cap s) (pp s) then UB
    else let len := Nat.min (cap s - pp s) (length data) in
      bind (store_n (firstn len data) s) (fun s => match skipn len data with
      | [] => Ok (false, (s, log))
      | c :: rest => bind (overflow_t throws c (s, log)) (fun r => let (t, x) := r : bool * state in
          if t then Ok (true, x) else xsputn_t throws fuel rest x) end)).
  destruct (Nat.ltb_spec (cap s) (pp s)); [lia|]. cbv zeta. set (len := Nat.min _ _).
  assert (LF : length (firstn len data) = len) by (rewrite firstn_length; lia).
  destruct (store_n_ok (firstn len data) s ltac:(lia)) as (s1 & E & I1 & C1 & M1 & P1 & _). rewrite E. cbn [bind].
  assert (R1 : room N L false (s1, log)) by (split; cbn [fst]; lia).
  assert (FS : data = firstn len data ++ skipn len data) by (symmetry; apply firstn_skipn).
  destruct (skipn len data) as [|c rest] eqn:SK; [exists false, (s1, log); split; [reflexivity|exact R1]|].
  assert (LR : length data = len + S (length rest)) by (rewrite FS, app_length, LF; reflexivity).
  destruct (overflow_room throws N L c (s1, log) H3 HL R1) as (t & x' & E2 & R2). rewrite E2. cbn [bind].
  destruct t; [exists true, x'; split; [reflexivity|exact R2]|]. apply IH; [lia|exact R2].
Qed.

Lemma step_room throws N L d o x : 3 <= N -> S N <= L -> room N L d x -> (d = true -> o = Flush) ->
  exists t x', step_t throws o x = Ok (t, x') /\ room N L (dirty1 d (o, t)) x'.
Proof.
  intros H3 HL R D. destruct o as [c|data|]; cbn [step_t].
  1,2: destruct d; [discriminate (D eq_refl)|]. 
  - pose proof R as [C M P]. destruct x as [s log]. cbn [fst] in *. unfold sputc_t.
    destruct (Nat.ltb_spec (pp s) (cap s)).
    + destruct (store1_ok c s ltac:(lia)) as (s1 & E & I1 & C1 & M1 & P1 & _). rewrite E. cbn [bind].
      exists false, (s1, log). split; [reflexivity|]. split; cbn [fst dirty1 orb]; lia.
    + destruct (overflow_room throws N L c (s, log) H3 HL R) as (t & x' & E2 & R2). exists t, x'. split; [exact E2|]. now destruct t.
  - destruct (xsputn_room throws N L H3 HL (length data) data x ltac:(lia) R) as (t & x' & E & R2).
    exists t, x'. split; [exact E|]. now destruct t.
  - pose proof (sync_room throws N L d x H3 HL R) as Q. destruct (sync_t throws x) as [t x'].
    exists t, x'. split; [reflexivity|]. now destruct t.
Qed.

Lemma room_start N slack : room N (N + slack) false (start N slack).
Proof. split; cbn; [reflexivity|apply repeat_length|lia]. Qed.

Lemma run_len throws : forall ops x ts x', run_t throws ops x = Ok (ts, x') -> length ts = length ops.
Proof.
  induction ops as [|o ops IH]; intros x ts x' R; cbn [run_t] in R; [injection R as <- <-; reflexivity|].
  destruct (step_t throws o x) as [[t1 x1]|e| |]; cbn [bind] in R; try discriminate R.
  destruct (run_t throws ops x1) as [[ts1 x2]|e| |] eqn:E2; cbn [bind] in R; try discriminate R.
  injection R as <- <-. cbn [length]. f_equal. eapply IH; eauto.
Qed.

(** Careful from a state whose pending flag is [d]. *)
Fixpoint careful_from (d : bool) (h : list (op * bool)) : Prop :=
  match h with [] => True | c :: h => (d = true -> fst c = Flush) /\ careful_from (dirty1 d c) h end.

Lemma careful_from_iff h : forall d, careful_from d h <->
  forall h1 o t h2, h = h1 ++ (o, t) :: h2 -> fold_left dirty1 h1 d = true -> o = Flush.
Proof.
  induction h as [|c h IH]; intros d; cbn [careful_from].
  - split; [intros _ [|] o t h2 E; discriminate E|auto].
  - rewrite IH. split.
    + intros [A B] [|c1 h1] o t h2 E F; cbn [app] in E; injection E as -> E.
      * now apply A.
      * cbn [fold_left] in F. eapply B; eauto.
    + intros A. split; [intros D; destruct c as [o t]; now apply (A [] o t h)|].
      intros h1 o t h2 E F. apply (A (c :: h1) o t h2); [cbn [app]; now f_equal|exact F].
Qed.

Lemma run_room throws N L : 3 <= N -> S N <= L -> forall ops d x ts x', room N L d x ->
  run_t throws ops x = Ok (ts, x') -> careful_from d (combine ops ts) ->
  room N L (fold_left dirty1 (combine ops ts) d) x'.
Proof.
  intros H3 HL. induction ops as [|o ops IH]; intros d x ts x' R E K; cbn [run_t] in E.
  - injection E as <- <-. exact R.
  - destruct (step_t throws o x) as [[t1 x1]|e| |] eqn:E1; cbn [bind] in E; try discriminate E.
    destruct (run_t throws ops x1) as [[ts1 x2]|e| |] eqn:E2; cbn [bind] in E; try discriminate E.
    injection E as <- <-. cbn [combine careful_from fold_left fst] in *. destruct K as [K1 K2].
    destruct (step_room throws N L d o x H3 HL R K1) as (t & x' & E3 & R3). rewrite E3 in E1. injection E1 as -> ->.
    eapply IH; eauto.
Qed.

(** Through an ostream. *)
Lemma run_os_ok throws N L : 3 <= N -> S N <= L -> forall ops bad x, good_t x -> valid_t x -> room N L bad x ->
  exists bad' x' d e, run_os throws ops bad x = Ok (bad', x') /\ written ops = d ++ e /\ moves x d x' /\ valid_t x' /\
    room N L bad' x' /\ (bad' = false -> e = []) /\ (bad = true -> bad' = true /\ d = [] /\ x' = x).
Proof.
  intros H3 HL. induction ops as [|o ops IH]; intros bad x G V R; cbn [run_os].
  { exists bad, x, [], []. pose proof (moves_refl x G). intuition auto. }
  assert (W : written (o :: ops) = written1 o ++ written ops) by reflexivity.
  destruct bad.
  - destruct (IH true x G V R) as (b & x' & d & e & E & Wd & M & V' & R' & B & S). destruct (S eq_refl) as (-> & -> & ->).
    exists true, x, [], (written1 o ++ e). split; [exact E|]. split; [rewrite W, Wd; reflexivity|].
    split; [now apply moves_refl|]. split; [exact V|]. split; [exact R|]. split; [discriminate|auto].
  - destruct (step_room throws N L false o x H3 HL R ltac:(discriminate)) as (t & x1 & E1 & R1). rewrite E1. cbn [bind].
    destruct (step_moves _ _ _ _ _ G E1) as (d1 & A & M1). pose proof (step_valid _ _ _ _ _ G V E1) as V1.
    assert (R1' : room N L t x1). { destruct R1 as [C M P]. split; auto. destruct o, t; cbn [dirty1 orb] in P; lia. }
    destruct (IH t x1 (proj1 M1) V1 R1') as (b & x' & d & e & E & Wd & M & V' & R' & B & S). rewrite E, W, Wd.
    destruct t.
    + destruct (S eq_refl) as (-> & -> & ->).
      assert (exists d2, written1 o = d1 ++ d2) as (d2 & ->).
      { inversion A; subst; cbn [written1]; eauto; exists []; now rewrite ?app_nil_r. }
      exists true, x1, d1, (d2 ++ e). split; [reflexivity|]. split; [rewrite <- app_assoc; reflexivity|].
      split; [exact M1|]. split; [exact V1|]. split; [exact R'|]. split; discriminate.
    + assert (d1 = written1 o) as -> by (inversion A; reflexivity).
      exists b, x', (written1 o ++ d), e. split; [reflexivity|]. split; [now rewrite app_assoc|].
      split; [eapply moves_trans; eauto|]. split; [exact V'|]. split; [exact R'|]. split; [exact B|discriminate].
Qed.

(** When every call throws, ASCII characters pile up. *)
Lemma rem_repeat c n : (0 <= c <= 127)%Z -> utf8_remainder (rev (repeat c (S n))) = 0.
Proof.
  intros Hc. assert (RR : rev (repeat c (S n)) = c :: repeat c n).
  { replace (S n) with (n + 1) by lia. rewrite repeat_app, rev_app_distr. cbn [repeat rev app]. f_equal.
    induction n as [|n IH]; [reflexivity|]. cbn [repeat rev]. rewrite IH.
    clear. induction n as [|n IH]; [reflexivity|]. cbn [repeat app]. now rewrite IH. }
  rewrite RR. now apply rem_ascii.
Qed.

Lemma failing_puts c : (0 <= c <= 127)%Z -> forall k s log, pp s + k <= length (mem s) -> buffered s = repeat c (pp s) ->
  exists ts s' log', run_t (fun _ => true) (repeat (Put c) k) (s, log) = Ok (ts, (s', log')) /\
    pp s' = pp s + k /\ cap s' = cap s /\ length (mem s') = length (mem s).
Proof.
  intros Hc. induction k as [|k IH]; intros s log P B.
  - exists [], s, log. split; [reflexivity|]. lia.
  - cbn [repeat run_t step_t].
    destruct (store1_ok c s ltac:(lia)) as (s1 & E & I1 & C1 & M1 & P1 & O1 & B1).
    assert (B1' : buffered s1 = repeat c (pp s1)).
    { rewrite B1, B, P1. replace (S (pp s)) with (pp s + 1) by lia. now rewrite repeat_app. }
    assert (Q : exists t log1, sputc_t (fun _ => true) c (s, log) = Ok (t, (s1, log1))).
    { unfold sputc_t. destruct (Nat.ltb (pp s) (cap s)).
      - rewrite E. cbn [bind]. eauto.
      - unfold overflow_t. rewrite E. cbn [bind]. unfold sync_t. destruct (to_deliver s1) as [sp|] eqn:Q; [cbv zeta beta iota; eauto|].
        exfalso. unfold to_deliver in Q. destruct (Nat.eqb_spec (pp s1) 0); [lia|].
        fold (buffered s1) in Q. rewrite B1', P1, rem_repeat in Q by exact Hc.
        destruct (Nat.ltb_spec 0 (S (pp s))); [discriminate Q|lia]. }
    destruct Q as (t & log1 & Q). rewrite Q. cbn [bind].
    destruct (IH s1 log1 ltac:(lia) B1') as (ts & s' & log' & R & P' & C' & M'). rewrite R. cbn [bind].
    exists (t :: ts), s', log'. split; [reflexivity|]. lia.
Qed.

Lemma run_t_snoc throws o : forall ops x ts x', run_t throws ops x = Ok (ts, x') ->
  run_t throws (ops ++ [o]) x = bind (step_t throws o x') (fun r => let (t, y) := r : bool * state in Ok (ts ++ [t], y)).
Proof.
  induction ops as [|o1 ops IH]; intros x ts x' R; cbn [run_t app] in *.
  - injection R as <- <-. destruct (step_t throws o x) as [[t y]|e| |]; reflexivity.
  - destruct (step_t throws o1 x) as [[t1 x1]|e| |]; cbn [bind] in *; try discriminate R.
    destruct (run_t throws ops x1) as [[ts1 x2]|e| |] eqn:E2; cbn [bind] in R; try discriminate R.
    injection R as <- <-. rewrite (IH _ _ _ E2). destruct (step_t throws o x2) as [[t y]|e| |]; reflexivity.
Qed.
