(** C14, the exact condition: when does the stream buffer stay within its vector? *)
From Verif Require Import Base Streambuf_Spec Streambuf_Model Streambuf_Proofs StreambufThrow_Proofs.
Local Arguments Nat.eqb : simpl never.
Local Arguments Nat.ltb : simpl never.

(** The bytes that a flush after the operations [a] has to hold back: the unfinished
    code point [p] at the end of what they write. *)
Definition held_back (a : list op) (p : list Z) : Prop :=
  exists t, written a = t ++ p /\ valid_utf8 t /\ (p = [] \/ incomplete p).

(** Between two flushes (or after the last one) never more bytes than the buffer
    size are written, counting those the first flush held back. *)
Definition within (N : nat) (ops : list op) : Prop :=
  forall a b c p, ops = a ++ b ++ c -> ~ In Flush b -> (a = [] \/ exists a', a = a' ++ [Flush]) ->
  held_back a p -> length p + length (written b) <= N.

Lemma whole_unique t p t' p' : valid_utf8 t -> valid_utf8 t' -> (p = [] \/ incomplete p) -> (p' = [] \/ incomplete p') ->
  t ++ p = t' ++ p' -> t = t' /\ p = p'.
Proof.
  intros V V' P P' E.
  destruct (whole_prefix _ _ _ _ V V' P' E) as (e1 & Q1).
  destruct (whole_prefix _ _ _ _ V' V P (eq_sym E)) as (e2 & Q2).
  assert (e1 = []).
  { rewrite Q2, <- app_assoc in Q1. rewrite <- (app_nil_r t') in Q1 at 1. apply app_inv_head in Q1.
    symmetry in Q1. now apply app_eq_nil in Q1. }
  subst e1. rewrite app_nil_r in Q1. subst t'. split; [reflexivity|]. now apply app_inv_head in E.
Qed.

Lemma step_noslack N o s s' : good N N s -> o <> Flush -> step o s = Ok s' ->
  pp s' = pp s + length (written1 o).
Proof.
  intros [C M P] NF R. destruct o as [c|d|]; [| |congruence]; cbn [step written1 length] in *.
  - unfold sputc in R. destruct (Nat.ltb_spec (pp s) (cap s)).
    + destruct (store1_ok c s ltac:(lia)) as (s1 & E & _ & _ & _ & P1 & _). rewrite E in R. injection R as <-. lia.
    + unfold overflow, store1 in R. destruct (Nat.ltb_spec (pp s) (length (mem s))); [lia|]. discriminate R.
  - destruct d as [|c0 dd]; [injection R as <-; cbn; lia|]. remember (c0 :: dd) as data.
    assert (X : xsputn (length data) data s = if Nat.ltb (cap s) (pp s) then UB
      else let len := Nat.min (cap s - pp s) (length data) in
      bind (store_n (firstn len data) s) (fun s => match skipn len data with
      | [] => Ok s | c :: rest => bind (overflow c s) (fun s => xsputn (length dd) rest s) end)) by (subst data; reflexivity).
    rewrite X in R. destruct (Nat.ltb_spec (cap s) (pp s)); [lia|]. cbv zeta in R. set (len := Nat.min _ _) in R.
    assert (LF : length (firstn len data) = len) by (rewrite firstn_length; lia).
    destruct (store_n_ok (firstn len data) s ltac:(lia)) as (s1 & E & I1 & C1 & M1 & P1 & O1 & B1).
    rewrite E in R. cbn [bind] in R. destruct (skipn len data) as [|c rest] eqn:SK.
    + injection R as <-. rewrite P1, LF. assert (length (skipn len data) = 0) by now rewrite SK.
      rewrite skipn_length in H0. lia.
    + assert (length (skipn len data) = S (length rest)) by now rewrite SK. rewrite skipn_length in H0.
      unfold overflow, store1 in R. destruct (Nat.ltb_spec (pp s1) (length (mem s1))); [lia|]. discriminate R.
Qed.

Lemma run_app a : forall b s, run (a ++ b) s = bind (run a s) (run b).
Proof.
  induction a as [|o a IH]; intros b s; [reflexivity|]. cbn [app run]. destruct (step o s); cbn [bind]; auto.
Qed.

Lemma run_noslack N : 3 <= N -> forall b s s', good N N s -> ~ In Flush b -> run b s = Ok s' ->
  good N N s' /\ pp s' = pp s + length (written b).
Proof.
  intros H3. induction b as [|o b IH]; intros s s' G NF R; cbn [run] in R.
  - injection R as <-. split; [exact G|]. cbn. lia.
  - destruct (step_ok N N o s H3 ltac:(lia) G) as [(_ & _ & U)|(s1 & E1 & G1 & D1)]; [rewrite U in R; discriminate R|].
    rewrite E1 in R. cbn [bind] in R. pose proof (step_noslack N o s s1 G ltac:(intros ->; apply NF; now left) E1) as P1.
    destruct (IH s1 s' G1 ltac:(intros Q; apply NF; now right) R) as [G' P']. split; [exact G'|].
    change (written (o :: b)) with (written1 o ++ written b). rewrite app_length. lia.
Qed.

Lemma written_app a b : written (a ++ b) = written a ++ written b.
Proof. unfold written. now rewrite map_app, concat_app. Qed.

(** After a flush (or nothing) the buffer holds what has to be held back. *)
Lemma held N a s p rest : 3 <= N -> run a (create N 0) = Ok s -> (a = [] \/ exists a', a = a' ++ [Flush]) ->
  valid_utf8 (written a ++ rest) -> held_back a p -> good N N s /\ pp s = length p.
Proof.
  intros H3 R A V (t & W & Vt & P).
  pose proof (good_create N 0) as G0. rewrite Nat.add_0_r in G0.
  destruct (run_ok N N H3 ltac:(lia) a _ s G0 R) as [G D]. split; [exact G|].
  pose proof (good_inv N N s ltac:(lia) G) as I. rewrite <- (buffered_length s I).
  cbn [delivered create out concat] in D. rewrite buffered_create in D. cbn [app] in D.
  destruct A as [->|(a' & ->)].
  - injection R as <-. cbn in W. symmetry in W. apply app_eq_nil in W as [_ ->]. reflexivity.
  - rewrite run_app in R. destruct (run a' (create N 0)) as [s0|e| |] eqn:R0; cbn [bind run step] in R; try discriminate R.
    injection R as <-. destruct (run_ok N N H3 ltac:(lia) a' _ s0 G0 R0) as [G1 D1].
    pose proof (good_inv N N s0 ltac:(lia) G1) as I1.
    cbn [delivered create out concat] in D1. rewrite buffered_create in D1. cbn [app] in D1.
    rewrite written_app in V. cbn [written map written1 concat] in V. rewrite app_nil_r in V.
    assert (W0 : Streambuf_Proofs.whole s0).
    { apply (run_whole N N H3 ltac:(lia) a' (create N 0) s0 rest G0); auto. constructor. }
    destruct (sync_whole s0 rest I1 W0) as [W1 B1]; [rewrite app_assoc, D1; exact V|].
    assert (E : concat (out (sync_ s0)) ++ buffered (sync_ s0) = t ++ p) by (unfold delivered in D; congruence).
    destruct (whole_unique _ _ _ _ (valid_concat _ W1) Vt B1 P E) as [_ ->]. reflexivity.
Qed.

Lemma last_flush (ops : list op) : exists a b, ops = a ++ b /\ ~ In Flush b /\ (a = [] \/ exists a', a = a' ++ [Flush]).
Proof.
  induction ops as [|o ops IH] using rev_ind; [exists [], []; cbn; auto|].
  destruct IH as (a & b & -> & NF & A). destruct o as [c|d|].
  - exists a, (b ++ [Put c]). rewrite app_assoc. split; [reflexivity|]. split; [|exact A].
    intros Q. apply in_app_or in Q as [Q|[Q|[]]]; [now apply NF|discriminate Q].
  - exists a, (b ++ [Write d]). rewrite app_assoc. split; [reflexivity|]. split; [|exact A].
    intros Q. apply in_app_or in Q as [Q|[Q|[]]]; [now apply NF|discriminate Q].
  - exists ((a ++ b) ++ [Flush]), []. rewrite app_nil_r. split; [reflexivity|]. split; [auto|right; eauto].
Qed.

Lemma held_exists a rest : valid_utf8 (written a ++ rest) -> exists p, held_back a p.
Proof.
  intros (cps & E & F). destruct (prefix_split cps F (written a) rest (eq_sym E)) as (t & p & W & V & P).
  exists p, t. auto.
Qed.

(** C14, exactly: writing valid text, all accesses stay within the vector if and
    only if the text between two flushes always fits (together with the unfinished
    code point held back by the first of them). *)
Theorem C14_exact_partial :
  forall N ops rest, 3 <= N -> valid_utf8 (written ops ++ rest) ->
  ((exists s, run ops (create N 0) = Ok s) <-> within N ops).
Proof.
  intros N ops rest H3 V. split.
  - intros (s & R) a b c p -> NF A HB. rewrite run_app in R.
    destruct (run a (create N 0)) as [s1|e| |] eqn:R1; cbn [bind] in R; try discriminate R.
    rewrite run_app in R. destruct (run b s1) as [s2|e| |] eqn:R2; cbn [bind] in R; try discriminate R.
    rewrite written_app, <- app_assoc in V.
    destruct (held N a s1 p _ H3 R1 A V HB) as [G P]. destruct (run_noslack N H3 b s1 s2 G NF R2) as [[_ _ P2] P2'].
    lia.
  - revert rest V. induction ops as [|o ops IH] using rev_ind; intros rest V W; [exists (create N 0); reflexivity|].
    rewrite written_app, <- app_assoc in V.
    assert (W' : within N ops).
    { intros a b c p E NF A HB. apply (W a b (c ++ [o]) p); auto. rewrite E. now rewrite <- !app_assoc. }
    destruct (IH _ V W') as (s & R). rewrite run_app, R. cbn [bind run].
    destruct (last_flush ops) as (a & b & -> & NF & A).
    rewrite run_app in R. destruct (run a (create N 0)) as [s1|e| |] eqn:R1; cbn [bind] in R; try discriminate R.
    rewrite written_app, <- app_assoc in V.
    destruct (held_exists a _ V) as (p & HB). destruct (held N a s1 p _ H3 R1 A V HB) as [G P].
    destruct (run_noslack N H3 b s1 s G NF R) as [G2 P2].
    destruct (step_ok N N o s H3 ltac:(lia) G2) as [(_ & L & _)|(s2 & E2 & _)]; [|rewrite E2; cbn [bind]; eauto].
    destruct o as [c|d|]; [| |exists (sync_ s); reflexivity]; exfalso.
    + assert (Q : length p + length (written (b ++ [Put c])) <= N).
      { apply (W a (b ++ [Put c]) [] p); auto; [now rewrite app_nil_r, app_assoc|].
        intros Q. apply in_app_or in Q as [Q|[Q|[]]]; [now apply NF|discriminate Q]. }
      rewrite written_app, app_length in Q. cbn [written map written1 concat app length] in *. lia.
    + assert (Q : length p + length (written (b ++ [Write d])) <= N).
      { apply (W a (b ++ [Write d]) [] p); auto; [now rewrite app_nil_r, app_assoc|].
        intros Q. apply in_app_or in Q as [Q|[Q|[]]]; [now apply NF|discriminate Q]. }
      rewrite written_app, app_length in Q. cbn [written map written1 concat app length] in *. rewrite app_nil_r in Q. lia.
Qed.
Print Assumptions C14_exact_partial.

(** Five bytes, of which the last begins an é: a flush holds it back, and two more
    bytes fit into the 3-byte buffer, three do not. *)
Example C14_exact_nonvacuous :
  (exists s, run [Write [97; 98; 195]; Flush; Put 169; Put 99]%Z (create 3 0) = Ok s) /\
  run [Write [97; 98; 195]; Flush; Put 169; Put 99; Put 100]%Z (create 3 0) = UB /\
  valid_utf8 (written [Write [97; 98; 195]; Flush; Put 169; Put 99]%Z ++ []).
Proof.
  split; [eexists; vm_compute; reflexivity|]. split; [reflexivity|].
  exists [[97]; [98]; [195; 169]; [99]]%Z. split; [reflexivity|]. repeat constructor; unfold cont; lia.
Qed.
