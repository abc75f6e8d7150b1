(** C12, C13, C14: callback_streambuf. *)
From Verif Require Import Base Streambuf_Spec Streambuf_Model Streambuf_Proofs.
Local Arguments Nat.eqb : simpl never.

(** C12. In every execution in which the accesses of the buffer stay defined
    (see C14; [slack] is the number of accessible bytes behind the buffer), the
    spans passed to the callback, followed by the buffered bytes, are the bytes
    written; *)
Theorem C12_nothing_lost :
  forall N slack ops s, 3 <= N -> run ops (create N slack) = Ok s ->
  concat (out s) ++ buffered s = written ops.
Proof.
  intros N slack ops s H R. now destruct (run_ok N (N + slack) H ltac:(lia) ops _ s (good_create N slack) R) as [_ D].
Qed.
Print Assumptions C12_nothing_lost.

(** ... with one accessible byte behind the buffer every execution is defined; *)
Theorem C12_defined :
  forall N slack ops, 3 <= N -> 1 <= slack -> exists s, run ops (create N slack) = Ok s.
Proof. intros. eapply run_defined; [eassumption| |apply good_create]. lia. Qed.
Print Assumptions C12_defined.

(** ... after a flush at most 3 bytes are buffered, none if the last byte
    written is ASCII; *)
Theorem C12_flush :
  forall N slack ops s, 3 <= N -> run (ops ++ [Flush]) (create N slack) = Ok s ->
  length (buffered s) <= 3 /\
  (forall t c, written ops = t ++ [c] -> (0 <= c <= 127)%Z -> buffered s = [] /\ concat (out s) = written ops).
Proof.
  intros N slack ops s H R.
  assert (R' : exists s0, run ops (create N slack) = Ok s0 /\ s = sync_ s0).
  { revert R. generalize (create N slack). induction ops as [|o ops IH]; intros s0 R.
    - cbn [app run step bind] in R. injection R as <-. exists s0. split; reflexivity.
    - cbn [app run] in *. destruct (step o s0); cbn [bind] in *; try discriminate. now apply IH. }
  destruct R' as (s0 & R0 & ->).
  destruct (run_ok N (N + slack) H ltac:(lia) ops _ s0 (good_create N slack) R0) as [G D].
  pose proof (good_inv N (N + slack) s0 ltac:(lia) G) as I. cbn [delivered create out concat] in D. rewrite buffered_create in D. cbn [app] in D.
  destruct (sync_spec s0 I) as (I' & _ & _ & S0 & S1).
  split; [rewrite buffered_length by auto; now apply sync_pp|].
  intros t c W A.
  assert (B : buffered (sync_ s0) = []).
  { destruct (buffered s0) as [|x b] eqn:Eb.
    - rewrite (S0 eq_refl). exact Eb.
    - destruct (S1 ltac:(discriminate)) as [Hb _].
      destruct (exists_last (l := x :: b)) as (b' & y & Ey); [discriminate|]. rewrite Ey in Hb, D.
      assert (y = c).
      { unfold delivered in D. rewrite W, app_assoc in D. now apply app_inj_tail in D. }
      subst y. rewrite rev_app_distr in Hb. cbn [rev app] in Hb. rewrite rem_ascii in Hb by exact A.
      rewrite Nat.sub_0_r, skipn_all in Hb. exact Hb. }
  split; [exact B|]. pose proof (sync_keeps s0 I) as K. rewrite B, app_nil_r, D in K. exact K.
Qed.
Print Assumptions C12_flush.

(** ... and destroying the buffer delivers everything but an unfinished code
    point at the end: if the bytes written are a valid text [t] followed by at
    most an incomplete code point [p], then exactly [t] is delivered. *)
Theorem C12_destroy :
  forall N slack ops s t p, 3 <= N -> run ops (create N slack) = Ok s ->
  written ops = t ++ p -> valid_utf8 t -> (p = [] \/ incomplete p) ->
  concat (out (destroy s)) = t.
Proof.
  intros N slack ops s t p H R W V P.
  destruct (run_ok N (N + slack) H ltac:(lia) ops _ s (good_create N slack) R) as [G D].
  pose proof (good_inv N (N + slack) s ltac:(lia) G) as I. cbn [delivered create out concat] in D. rewrite buffered_create in D. cbn [app] in D.
  assert (VV : exists v, valid_utf8 (delivered s ++ buffered s ++ v) /\ valid_utf8 (written ops ++ v)).
  { destruct V as (cps & -> & F). destruct P as [->|(r & _ & C)].
    - exists []. rewrite app_nil_r in W. rewrite !app_nil_r, D, W. split; exists cps; auto.
    - exists r. rewrite app_assoc, D, W, <- app_assoc.
      assert (valid_utf8 (concat cps ++ p ++ r)); [|split; auto].
      exists (cps ++ [p ++ r]). rewrite concat_app. cbn [concat]. rewrite app_nil_r. split; [reflexivity|].
      apply Forall_app; split; auto. }
  destruct VV as (v & V1 & V2).
  assert (Wh : whole s).
  { apply (run_whole N (N + slack) H ltac:(lia) ops (create N slack) s v); auto; [apply good_create|constructor]. }
  destruct (sync_whole s v I Wh V1) as [Wh' B].
  unfold destroy. pose proof (sync_keeps s I) as K. rewrite D, W in K. unfold delivered in K.
  destruct (valid_concat _ Wh') as (cps' & E' & F'). destruct V as (cps & -> & F).
  (* the two decompositions agree *)
  set (p' := buffered (sync_ s)) in *. rewrite E' in K |- *. clear - K F F' B P.
  assert (NI : forall q r, code_point q -> incomplete (q ++ r) -> False).
  { intros q r Q (r' & N & C). rewrite <- app_assoc in C. assert (r ++ r' = []).
    { destruct Q; cbn [app] in C; inversion C; subst; unfold cont in *; try reflexivity; lia. }
    apply app_eq_nil in H as [_ ->]. now apply N. }
  revert cps' F' K. induction F as [|q cps Q F IH]; intros cps' F' K.
  - destruct F' as [|q' cps' Q' F']; [reflexivity|]. exfalso. cbn [concat app] in K.
    destruct P as [->|P].
    + apply app_eq_nil in K as [K _]. apply app_eq_nil in K as [K _]. exact (code_point_nonempty _ Q' K).
    + rewrite <- K, <- app_assoc in P. exact (NI _ _ Q' P).
  - destruct F' as [|q' cps' Q' F'].
    + exfalso. cbn [concat app] in K. destruct B as [B|B].
      * rewrite B in K. symmetry in K. apply app_eq_nil in K as [K _]. apply app_eq_nil in K as [K _]. exact (code_point_nonempty _ Q K).
      * rewrite K, <- app_assoc in B. exact (NI _ _ Q B).
    + cbn [concat] in *. rewrite <- !app_assoc in K.
      assert (q' = q).
      { destruct Q', Q; cbn [app] in K; injection K; intros; unfold cont in *; subst; try reflexivity; try lia. }
      subst q'. apply app_inv_head in K. now rewrite (IH cps' F' K).
Qed.
Print Assumptions C12_destroy.

(** "aé€" written in pieces into a 3-byte buffer (the bytes of é and € split). *)
Definition text : list Z := [97; 195; 169; 226; 130; 172]%Z.
Example text_valid : valid_utf8 text.
Proof.
  exists [[97]; [195; 169]; [226; 130; 172]]%Z. split; [reflexivity|].
  repeat constructor; unfold cont; lia.
Qed.
(** C13. If the bytes written are the beginning of a valid text, every span is
    non-empty and is itself valid UTF-8 (also those delivered at destruction). *)
Theorem C13_spans_are_whole_code_points :
  forall N slack ops s rest, 3 <= N -> run ops (create N slack) = Ok s ->
  valid_utf8 (written ops ++ rest) ->
  Forall (fun span => span <> [] /\ valid_utf8 span) (out s) /\
  Forall (fun span => span <> [] /\ valid_utf8 span) (out (destroy s)).
Proof.
  intros N slack ops s rest H R V.
  destruct (run_ok N (N + slack) H ltac:(lia) ops _ s (good_create N slack) R) as [G D].
  pose proof (good_inv N (N + slack) s ltac:(lia) G) as I. cbn [delivered create out concat] in D. rewrite buffered_create in D. cbn [app] in D.
  assert (Wh : whole s).
  { apply (run_whole N (N + slack) H ltac:(lia) ops (create N slack) s rest); auto; [apply good_create|constructor]. }
  split; [exact Wh|]. apply (sync_whole s rest I Wh). rewrite app_assoc, D. exact V.
Qed.
Print Assumptions C13_spans_are_whole_code_points.

Example C12_C13_nonvacuous :
  exists s, run [Put 97; Write [195; 169; 226; 130]; Flush; Put 172]%Z (create 3 1) = Ok s /\
    written [Put 97; Write [195; 169; 226; 130]; Flush; Put 172]%Z = text /\
    out s = [[97; 195; 169]]%Z /\ buffered s = [226; 130; 172]%Z /\
    out (destroy s) = [[97; 195; 169]; [226; 130; 172]]%Z.
Proof. eexists. vm_compute. repeat split. Qed.

(** C14 is false: the constructor makes the whole vector the put area, and
    overflow() stores its character at epptr(), one past the end. Writing one
    byte more than the buffer size does it, for every buffer size. *)
Theorem C14_out_of_bounds_refuted :
  forall N c, run (repeat (Put c) (S N)) (create N 0) = UB.
Proof.
  intros N c. change (repeat (Put c) (S N)) with ([Put c] ++ repeat (Put c) N).
  assert (E : [Put c] ++ repeat (Put c) N = repeat (Put c) N ++ [Put c]).
  { induction N as [|N IH]; [reflexivity|]. cbn [repeat app] in *. now rewrite <- IH. }
  rewrite E. clear E.
  assert (A : forall k s, cap s = N -> length (mem s) = N -> pp s + k = N -> run (repeat (Put c) k ++ [Put c]) s = UB).
  { induction k as [|k IH]; intros s C M P.
    - cbn [repeat app run step]. unfold sputc. destruct (Nat.ltb_spec (pp s) (cap s)); [lia|].
      unfold overflow, store1. destruct (Nat.ltb_spec (pp s) (length (mem s))); [lia|]. reflexivity.
    - cbn [repeat app run step]. unfold sputc. destruct (Nat.ltb_spec (pp s) (cap s)); [|lia].
      destruct (store1_ok c s ltac:(lia)) as (s1 & E1 & _ & C1 & M1 & P1 & _). rewrite E1. cbn [bind]. apply IH; lia. }
  apply A; cbn; [reflexivity|rewrite repeat_length; lia|lia].
Qed.
Print Assumptions C14_out_of_bounds_refuted.

(** What holds: the damage is limited to one byte behind the buffer (C12_defined
    with slack 1), and nothing is written outside if the stream is flushed
    before the pending bytes (counting 3 left by a flush) exceed the size. *)
Theorem C14_flushed_in_time_partial :
  forall N ops, 3 <= N -> fits N 0 ops -> exists s, run ops (create N 0) = Ok s.
Proof.
  intros N ops H F. apply (run_fits N (N + 0) H ltac:(lia) ops _ 0); auto. apply good_create.
Qed.
Print Assumptions C14_flushed_in_time_partial.

Example C14_nonvacuous : fits 8 0 [Write text; Flush; Put 1; Write [2; 3]; Flush; Write [1; 2; 3; 4; 5]]%Z.
Proof. cbn. lia. Qed.
