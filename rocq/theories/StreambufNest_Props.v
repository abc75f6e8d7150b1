(** C104: callbacks that write to the stream they serve. *)
From Verif Require Import Base Streambuf_Model Streambuf_Spec Streambuf_Proofs StreambufNest_Model.
Local Open Scope outcome_scope.

(** The state of a stream buffer that is in use: the bytes buffered are in the buffer. *)
Definition in_use (s : sb) : Prop := pp s <= cap s <= length (mem s).

Lemma andthen_ok s k : andthen (Ok (Some s)) k = k s.
Proof. reflexivity. Qed.
Lemma sync_n_quiet react fuel s : inv s -> (forall i span, react i span = []) -> sync_n react (S fuel) s = Ok (Some (sync_ s)).
Proof.
  intros I Q. unfold sync_. cbn [sync_n]. destruct (Nat.eqb_spec (pp s) 0) as [E|E]; [reflexivity|].
  set (r := utf8_remainder _). assert (L : r <= pp s).
  { unfold r. pose proof (remainder_le_len (rev (firstn (pp s) (mem s)))) as K. rewrite rev_length, firstn_length in K. unfold inv in I. rewrite Nat.min_l in K by lia. apply K. intros Z0. apply (f_equal (@length _)) in Z0. rewrite rev_length, firstn_length in Z0. cbn in Z0. lia. }
  destruct (Nat.ltb_spec r (pp s)) as [H|H]; [rewrite Q; cbn [run_n]|]; cbn [andthen pp mem cap out]; rewrite (proj2 (Nat.ltb_ge _ _)) by lia; reflexivity.
Qed.
(** A callback that does not use the stream: the model is that of C12-C14, and a nesting depth of one is enough. *)
Theorem C104_quiet_callback : forall react fuel, (forall i span, react i span = []) ->
  forall ops N slack, 3 <= N -> run_n (sync_n react (S fuel)) ops (create N slack) = (s <- run ops (create N slack);; Ok (Some s)).
Proof.
  intros react fuel Q ops N slack H3. assert (O : forall c s, inv s -> overflow_n (sync_n react (S fuel)) c s = (s <- overflow c s;; Ok (Some s))).
  { intros c s I. unfold overflow_n, overflow. destruct (Nat.ltb_spec (pp s) (length (mem s))) as [L|L].
    - destruct (store1_ok c s L) as (s1 & E & I1 & _). rewrite E. cbn [bind]. now apply sync_n_quiet.
    - unfold store1. now rewrite (proj2 (Nat.ltb_ge _ _) L). }
  assert (X : forall f d s, good N (N + slack) s -> length d <= f -> xsputn_n (sync_n react (S fuel)) f d s = (s <- xsputn f d s;; Ok (Some s))).
  { induction f as [|f IH]; intros d s G Lf; [destruct d; [reflexivity|cbn in Lf; lia]|]. destruct d as [|a d]; [reflexivity|]. cbn [xsputn_n xsputn].
    destruct (Nat.ltb (cap s) (pp s)) eqn:E; [reflexivity|]. apply Nat.ltb_ge in E. pose proof G as [C M P]. set (len := Nat.min (cap s - pp s) (length (a :: d))).
    destruct (store_n_ok (firstn len (a :: d)) s) as (s1 & E1 & I1 & C1 & M1 & P1 & _); [rewrite firstn_length; lia|]. rewrite E1. cbn [bind].
    destruct (skipn len (a :: d)) as [|c rest] eqn:Sk; [reflexivity|]. rewrite O by exact I1.
    assert (Lr : length rest <= f) by (apply (f_equal (@length _)) in Sk; rewrite skipn_length in Sk; cbn [length] in Sk, Lf; lia).
    assert (PN : pp s1 = N). { apply (f_equal (@length _)) in Sk. rewrite skipn_length in Sk. cbn [length] in Sk. rewrite P1, firstn_length. unfold len in *. cbn [length] in *. lia. }
    destruct (overflow_ok N (N + slack) c s1) as [(_ & _ & E2)|(s2 & E2 & G2 & _)]; [lia|lia|split; lia|exact PN|now rewrite E2|].
    rewrite E2. cbn [bind andthen]. now apply IH. }
  assert (G : good N (N + slack) (create N slack)) by apply good_create. revert G. generalize (create N slack). induction ops as [|o ops IH]; intros s G; [reflexivity|]. cbn [run_n run].
  pose proof (good_inv N (N + slack) s ltac:(lia) G) as I.
  assert (E : step_n (sync_n react (S fuel)) o s = (s <- step o s;; Ok (Some s))).
  { destruct o as [c|d|]; cbn [step_n step]; [|apply X; auto|cbn [bind]; now apply sync_n_quiet].
    unfold sputc_n, sputc. destruct (pp s <? cap s); [reflexivity|now apply O]. }
  rewrite E. destruct (step_ok N (N + slack) o s H3 ltac:(lia) G) as [(_ & _ & R)|(s1 & E1 & G1 & _)].
  - now rewrite R.
  - rewrite E1. cbn [bind andthen]. now apply IH.
Qed.
Print Assumptions C104_quiet_callback.

(** ** Output from within the callback *)
Definition plain_op (o : op) : Prop := match o with Flush => False | _ => True end.
Lemma xsputn_fits sync f d s : pp s <= cap s -> pp s + length d <= cap s -> cap s <= length (mem s) -> length d <= f ->
  exists s', xsputn_n sync f d s = Ok (Some s') /\ inv s' /\ cap s' = cap s /\ length (mem s') = length (mem s) /\ pp s' = pp s + length d /\ out s' = out s /\ buffered s' = buffered s ++ d.
Proof.
  intros H1 H2 H3 Hf. destruct d as [|a d].
  - exists s. destruct f; cbn [xsputn_n length]; rewrite app_nil_r, Nat.add_0_r; repeat split; unfold inv; lia.
  - destruct f as [|f]; [cbn in Hf; lia|]. cbn [xsputn_n]. rewrite (proj2 (Nat.ltb_ge _ _)) by lia. rewrite Nat.min_r by lia. rewrite firstn_all, skipn_all.
    destruct (store_n_ok (a :: d) s) as (s1 & E1 & I1); [lia|]. rewrite E1. cbn [bind]. exists s1. auto.
Qed.
Lemma run_fits_n sync ops : forall s, Forall plain_op ops -> pp s + length (written ops) <= cap s -> cap s <= length (mem s) -> inv s ->
  exists s', run_n sync ops s = Ok (Some s') /\ inv s' /\ cap s' = cap s /\ length (mem s') = length (mem s) /\ pp s' = pp s + length (written ops) /\ out s' = out s /\ buffered s' = buffered s ++ written ops.
Proof.
  induction ops as [|o ops IH]; intros s F L M I.
  - exists s. cbn. rewrite app_nil_r, Nat.add_0_r. auto 10.
  - inversion F as [|? ? Fo F']; subst. change (written (o :: ops)) with (written1 o ++ written ops) in *. rewrite app_length in *. cbn [run_n].
    assert (S1 : exists s1, step_n sync o s = Ok (Some s1) /\ inv s1 /\ cap s1 = cap s /\ length (mem s1) = length (mem s) /\ pp s1 = pp s + length (written1 o) /\ out s1 = out s /\ buffered s1 = buffered s ++ written1 o).
    { destruct o as [c|d|]; [| |destruct Fo]; cbn [step_n written1 length] in *.
      - unfold sputc_n. rewrite (proj2 (Nat.ltb_lt _ _)) by lia. destruct (store1_ok c s ltac:(lia)) as (s1 & E & I1 & C1 & M1 & P1 & O1 & B1). rewrite E. cbn [bind]. exists s1. repeat (split; [auto; lia|]). auto.
      - apply xsputn_fits; lia. }
    destruct S1 as (s1 & E1 & I1 & C1 & M1 & P1 & O1 & B1). rewrite E1. cbn [andthen].
    destruct (IH s1 F' ltac:(lia) ltac:(lia) I1) as (s2 & E2 & I2 & C2 & M2 & P2 & O2 & B2). exists s2. rewrite E2. split; [reflexivity|]. split; [exact I2|].
    split; [lia|]. split; [lia|]. split; [lia|]. split; [congruence|]. rewrite B2, B1. now rewrite <- app_assoc.
Qed.
(** What a flush (or a full buffer) does when the callback writes [w] to the same stream and [w] fits in the buffer:
    the callback gets its span; of everything that is buffered then, [w] included, only the last bytes
    stay, as many as there were bytes of an incomplete code point before. *)
Theorem C104_nested_output : forall react fuel s ops, in_use s ->
  let r := utf8_remainder (rev (buffered s)) in let span := firstn (pp s - r) (buffered s) in
  r < pp s -> react (length (out s)) span = ops -> Forall plain_op ops -> pp s + length (written ops) <= cap s ->
  exists s', sync_n react (S fuel) s = Ok (Some s') /\ out s' = out s ++ [span] /\
    buffered s' = skipn (pp s + length (written ops) - r) (buffered s ++ written ops).
Proof.
  intros react fuel s ops [U1 U2] r span Hr Ro F L. assert (I : inv s) by (unfold inv; lia). cbn [sync_n]. rewrite (proj2 (Nat.eqb_neq _ _)) by lia. cbv zeta.
  change (firstn (pp s) (mem s)) with (buffered s). fold r. rewrite (proj2 (Nat.ltb_lt _ _) Hr).
  assert (Es : firstn (pp s - r) (mem s) = span). { unfold span, buffered. rewrite firstn_firstn. f_equal. lia. } rewrite Es, Ro.
  set (s0 := Sb (mem s) (cap s) (pp s) (out s ++ [span])). destruct (run_fits_n (sync_n react fuel) ops s0 F) as (s1 & E1 & I1 & C1 & M1 & P1 & O1 & B1); [exact L|exact U2|exact I|].
  rewrite E1. cbn [andthen]. cbn [pp mem cap out s0] in *. rewrite (proj2 (Nat.ltb_ge (pp s1) r)) by lia. eexists. split; [reflexivity|]. cbn [out]. split; [exact O1|].
  unfold buffered at 1. cbn [pp mem]. change (buffered s0) with (buffered s) in B1. rewrite <- B1, <- P1. unfold inv in I1.
  rewrite firstn_app. rewrite firstn_length, skipn_length. rewrite Nat.min_l by lia. rewrite Nat.sub_diag. cbn [firstn]. rewrite app_nil_r. rewrite firstn_firstn, Nat.min_id.
  unfold buffered. rewrite skipn_firstn_comm. f_equal. lia.
Qed.
Print Assumptions C104_nested_output.
(** So it is lost, all of it, if the buffered text is complete: *)
Theorem C104_nested_output_lost_refuted : forall react fuel s ops, in_use s -> pp s <> 0 -> utf8_remainder (rev (buffered s)) = 0 ->
  react (length (out s)) (buffered s) = ops -> Forall plain_op ops -> pp s + length (written ops) <= cap s ->
  exists s', sync_n react (S fuel) s = Ok (Some s') /\ out s' = out s ++ [buffered s] /\ buffered s' = [].
Proof.
  intros react fuel s ops U N R Ro F L. assert (Lb : length (buffered s) = pp s) by (apply buffered_length; destruct U; unfold inv; lia).
  assert (Ef : firstn (pp s - 0) (buffered s) = buffered s) by (apply firstn_all2; lia).
  pose proof (C104_nested_output react fuel s ops U) as T. cbv zeta in T. rewrite R, Ef in T.
  destruct (T ltac:(lia) Ro F L) as (s' & E & O & B). exists s'. split; [exact E|]. split; [exact O|]. rewrite B. apply skipn_all2. rewrite app_length. lia.
Qed.
Print Assumptions C104_nested_output_lost_refuted.

(** A callback that flushes the stream is called again and again. *)
Theorem C104_nested_flush_refuted : forall react s, in_use s -> utf8_remainder (rev (buffered s)) < pp s ->
  (forall i span, exists more, react i span = Flush :: more) ->
  forall fuel, sync_n react fuel s = Ok None.
Proof.
  intros react s U R F fuel. revert s U R. induction fuel as [|fuel IH]; intros s U R; [reflexivity|]. cbn [sync_n]. rewrite (proj2 (Nat.eqb_neq _ _)) by lia. cbv zeta.
  change (firstn (pp s) (mem s)) with (buffered s). rewrite (proj2 (Nat.ltb_lt _ _) R).
  destruct (F (length (out s)) (firstn (pp s - utf8_remainder (rev (buffered s))) (mem s))) as (more & E). rewrite E. cbn [run_n step_n]. rewrite IH; [reflexivity|exact U|exact R].
Qed.
Print Assumptions C104_nested_flush_refuted.
(** A callback that writes a line to the stream with std::endl: the spans grow until the buffer is full, and then a byte is written
    behind the buffer. *)
Theorem C104_nested_endl_refuted : forall react s, in_use s -> cap s = length (mem s) -> pp s <> 0 -> utf8_remainder (rev (buffered s)) = 0 ->
  (forall i span, react i span = [Put 10%Z; Flush]) ->
  exists n, forall fuel, n <= fuel -> sync_n react fuel s = UB.
Proof.
  intros react s U C N R F. exists (S (cap s - pp s)). remember (cap s - pp s) as k eqn:K. intros fuel L.
  assert (R' : utf8_remainder (rev (buffered s)) < pp s) by lia. clear R. revert s U C N K R' fuel L. induction k as [|k IH]; intros s U C N K R fuel L.
  - destruct fuel as [|fuel]; [lia|]. destruct U as [U1 U2]. cbn [sync_n]. rewrite (proj2 (Nat.eqb_neq _ _) N). cbv zeta. change (firstn (pp s) (mem s)) with (buffered s). rewrite (proj2 (Nat.ltb_lt _ _) R), F.
    cbn [run_n step_n]. unfold sputc_n. cbn [pp cap mem out]. rewrite (proj2 (Nat.ltb_ge (pp s) (cap s))) by lia. unfold overflow_n, store1. cbn [pp cap mem out]. now rewrite (proj2 (Nat.ltb_ge (pp s) (length (mem s)))) by lia.
  - destruct fuel as [|fuel]; [lia|]. destruct U as [U1 U2]. cbn [sync_n]. rewrite (proj2 (Nat.eqb_neq _ _) N). cbv zeta. change (firstn (pp s) (mem s)) with (buffered s). rewrite (proj2 (Nat.ltb_lt _ _) R), F.
    cbn [run_n step_n]. unfold sputc_n. cbn [pp cap mem out]. rewrite (proj2 (Nat.ltb_lt (pp s) (cap s))) by lia.
    set (s0 := Sb (mem s) (cap s) (pp s) (out s ++ [_])). destruct (store1_ok 10%Z s0 ltac:(cbn; lia)) as (s1 & E & I1 & C1 & M1 & P1 & O1 & B1). rewrite E. cbn [bind andthen]. cbn [cap mem pp s0] in *.
    rewrite (IH s1); [reflexivity|split; lia|lia|lia|lia| |lia]. rewrite B1, rev_app_distr. cbn [rev app]. unfold utf8_remainder. change (is_ascii (nth 0 (10%Z :: rev (buffered s0)) 0%Z)) with true. cbv iota. lia.
Qed.
Print Assumptions C104_nested_endl_refuted.
(** A buffer of 8 bytes that holds "ab"; the callback writes "x" the first time it is called. *)
Example C104_nonvacuous :
  let s := Sb [97; 98; 0; 0; 0; 0; 0; 0]%Z 8 2 [] in
  in_use s /\ cap s = length (mem s) /\ pp s <> 0 /\ utf8_remainder (rev (buffered s)) = 0 /\ Forall plain_op [Put 120%Z] /\
  sync_n (fun _ _ => [Put 120%Z]) 1 s = Ok (Some (Sb [97; 98; 120; 0; 0; 0; 0; 0]%Z 8 0 [[97; 98]%Z])) /\
  (* an incomplete code point is replaced by what the callback writes *)
  sync_n (fun _ _ => [Put 120%Z]) 1 (Sb [97; 195; 0; 0; 0; 0; 0; 0]%Z 8 2 []) = Ok (Some (Sb [120; 195; 120; 0; 0; 0; 0; 0]%Z 8 1 [[97]%Z])).
Proof.
  cbv zeta. split; [unfold in_use; cbn; lia|]. split; [reflexivity|]. split; [discriminate|]. split; [reflexivity|].
  split; [constructor; [exact I|constructor]|]. split; reflexivity.
Qed.
