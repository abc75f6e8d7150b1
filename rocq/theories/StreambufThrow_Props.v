(** C74: callback_streambuf with a callback that throws. *)
From Verif Require Import Base Streambuf_Spec Streambuf_Model Streambuf_Proofs
  StreambufThrow_Spec StreambufThrow_Model StreambufThrow_Proofs.
Local Arguments Nat.eqb : simpl never.
Local Arguments Nat.ltb : simpl never.

(** In every history in which the accesses stay defined, whichever calls of the
    callback throw: the calls that returned have received, in order and without
    repetition, the bytes accepted so far except those still buffered. A put that
    throws has accepted its character all the same, a write that throws a
    non-empty part of its data. *)
Theorem C74_nothing_lost_or_repeated :
  forall throws N slack ops ts s log,
  run_t throws ops (start N slack) = Ok (ts, (s, log)) ->
  exists d, accepted ops ts d /\ concat (returned log) ++ buffered s = d.
Proof.
  intros throws N slack ops ts s log R.
  destruct (run_moves throws ops _ _ _ (good_start N slack) R) as (d & A & [[I O] [_ [_ D]]]).
  exists d. split; [exact A|]. unfold content, delivered in D. cbn [fst snd] in *. now rewrite <- O.
Qed.
Print Assumptions C74_nothing_lost_or_repeated.

(** ... if the accepted bytes are the beginning of a valid text, every span passed
    to the callback is non-empty and valid, and a span for which it threw is passed
    to it again, at the beginning of the next span. *)
Theorem C74_failed_spans_are_passed_again :
  forall throws N slack ops ts s log rest,
  run_t throws ops (start N slack) = Ok (ts, (s, log)) ->
  valid_utf8 (concat (returned log) ++ buffered s ++ rest) ->
  Forall (fun c => fst c <> [] /\ valid_utf8 (fst c)) log /\
  (forall before span span' t after, log = before ++ (span, true) :: (span', t) :: after ->
     exists e, span' = span ++ e) /\
  (forall before span, log = before ++ [(span, true)] -> exists e, buffered s = span ++ e).
Proof.
  intros throws N slack ops ts s log rest R V.
  destruct (run_moves throws ops _ _ _ (good_start N slack) R) as (d & A & [[I O] _]). cbn [fst snd] in *.
  apply (run_valid throws ops _ _ _ (good_start N slack) (valid_start N slack) R rest).
  unfold content, delivered. cbn [fst]. now rewrite O, <- app_assoc.
Qed.
Print Assumptions C74_failed_spans_are_passed_again.

(** Through a std::ostream (an exception sets badbit, nothing more is written), one
    accessible byte behind the buffer is enough, whichever calls throw: a beginning
    of the written bytes is accepted, all of them if badbit is not set. *)
Theorem C74_ostream :
  forall throws N slack ops, 3 <= N -> 1 <= slack ->
  exists bad s log d e, run_os throws ops false (start N slack) = Ok (bad, (s, log)) /\
    written ops = d ++ e /\ concat (returned log) ++ buffered s = d /\ (bad = false -> e = []).
Proof.
  intros throws N slack ops H3 HL.
  destruct (run_os_ok throws N (N + slack) H3 ltac:(lia) ops false _ (good_start N slack) (valid_start N slack) (room_start N slack))
    as (bad & [s log] & d & e & E & W & [[I O] [_ [_ D]]] & _ & _ & B & _).
  exists bad, s, log, d, e. split; [exact E|]. split; [exact W|]. split; [|exact B].
  unfold content, delivered in D. cbn [fst snd] in *. now rewrite <- O.
Qed.
Print Assumptions C74_ostream.

(** Destruction, after any history in which the accepted bytes are a valid text [t]
    and perhaps an unfinished code point [p]: the callback gets what is missing of
    [t]; if it throws then, the program is terminated. *)
Theorem C74_destroy :
  forall throws N slack ops ts s log t p,
  run_t throws ops (start N slack) = Ok (ts, (s, log)) ->
  concat (returned log) ++ buffered s = t ++ p -> valid_utf8 t -> (p = [] \/ incomplete p) ->
  (concat (returned log) = t -> destroy_t throws (s, log) = Ok (sync_ s, log)) /\
  (concat (returned log) <> t ->
   if throws (length log) then destroy_t throws (s, log) = Abort
   else exists span s', destroy_t throws (s, log) = Ok (s', log ++ [(span, false)]) /\ concat (returned log) ++ span = t).
Proof.
  intros throws N slack ops ts s log t p R E Vt P.
  destruct (run_moves throws ops _ _ _ (good_start N slack) R) as (d & A & [[I O] _]). cbn [fst snd] in *.
  assert (EV : exists rest, valid_utf8 ((t ++ p) ++ rest)).
  { destruct Vt as (cps & -> & F). destruct P as [->|(r & _ & C)].
    - exists []. rewrite !app_nil_r. exists cps. auto.
    - exists r. exists (cps ++ [p ++ r]). rewrite concat_app. cbn [concat]. rewrite app_nil_r, <- app_assoc.
      split; [reflexivity|]. apply Forall_app. auto. }
  destruct EV as (rest & EV).
  pose proof (run_valid throws ops _ _ _ (good_start N slack) (valid_start N slack) R rest) as V.
  unfold content, delivered in V. cbn [fst snd] in V. rewrite O, E in V. destruct (V EV) as (S & _).
  assert (Wh : Streambuf_Proofs.whole s) by (unfold Streambuf_Proofs.whole; rewrite O; now apply spans_returned).
  pose proof (valid_concat _ Wh) as Vd. rewrite O in Vd.
  assert (V2 : valid_utf8 (delivered s ++ buffered s ++ rest)) by (unfold delivered; rewrite O, app_assoc, E; exact EV).
  rewrite app_assoc in V2.
  destruct (pending_prefix s _ rest Wh eq_refl V2) as (t' & p' & Eb & Cb).
  assert (Et : concat (returned log) ++ t' = t).
  { assert (Vdt : valid_utf8 (concat (returned log) ++ t')).
    { destruct Vd as (c1 & -> & F1). destruct (proj1 Cb) as (c2 & -> & F2). exists (c1 ++ c2). rewrite concat_app. split; [reflexivity|]. now apply Forall_app. }
    rewrite Eb, app_assoc in E.
    destruct (whole_prefix _ _ _ _ Vdt Vt P E) as (e1 & Q1).
    destruct (whole_prefix _ _ _ _ Vt Vdt (proj2 Cb) (eq_sym E)) as (e2 & Q2).
    rewrite Q2 in Q1. rewrite <- app_assoc in Q1. rewrite <- (app_nil_r t) in Q1 at 1. apply app_inv_head in Q1.
    symmetry in Q1. apply app_eq_nil in Q1 as [-> _]. now rewrite app_nil_r in Q2. }
  pose proof (to_deliver_spec s I) as TD. unfold destroy_t, sync_t.
  assert (Sp : forall sp, to_deliver s = Some sp -> sp = t' /\ sp <> []).
  { intros sp Q. rewrite Q in TD. destruct TD as (_ & NE & NB & Esp). split; [|exact NE].
    rewrite Esp, Eb, (rem_text t' p' Cb) by (rewrite <- Eb; exact NB). rewrite app_length.
    replace (length t' + length p' - length p') with (length t') by lia.
    now rewrite firstn_app, firstn_all, Nat.sub_diag, app_nil_r. }
  assert (Sn : to_deliver s = None -> t' = []).
  { intros Q. unfold to_deliver in Q. pose proof (buffered_length s I) as BL. destruct (Nat.eqb_spec (pp s) 0) as [Zr|Zr].
    - rewrite Eb, app_length in BL. destruct t'; [reflexivity|]. cbn in BL. lia.
    - fold (buffered s) in Q. rewrite Eb, (rem_text t' p' Cb) in Q.
      2:{ intros Z0. rewrite Eb, Z0 in BL. cbn in BL. lia. }
      destruct (Nat.ltb_spec (length p') (pp s)) as [L|L]; [discriminate Q|].
      rewrite Eb, app_length in BL. destruct t'; [reflexivity|]. cbn in BL. lia. }
  split; intros Q.
  - destruct (to_deliver s) as [sp|].
    + destruct (Sp sp eq_refl) as [-> NE]. exfalso. apply NE. rewrite <- Q in Et.
      rewrite <- (app_nil_r (concat (returned log))) in Et at 2. now apply app_inv_head in Et.
    + reflexivity.
  - destruct (to_deliver s) as [sp|].
    + destruct (Sp sp eq_refl) as [-> NE]. destruct (throws (length log)); [reflexivity|].
      exists t', (sync_ s). split; [reflexivity|exact Et].
    + exfalso. apply Q. rewrite (Sn eq_refl), app_nil_r in Et. exact Et.
Qed.
Print Assumptions C74_destroy.

(** A user of the stream buffer itself who, after a put or a write that threw,
    flushes until it works before writing on, needs one accessible byte as well. *)
Theorem C74_careful_histories_partial :
  forall throws N slack ops ts x o, 3 <= N -> 1 <= slack ->
  run_t throws ops (start N slack) = Ok (ts, x) -> careful (combine ops ts) ->
  (dirty (combine ops ts) = true -> o = Flush) ->
  exists t x', step_t throws o x = Ok (t, x').
Proof.
  intros throws N slack ops ts x o H3 HL R K D.
  assert (K' : careful_from false (combine ops ts)) by (apply careful_from_iff; exact K).
  pose proof (run_room throws N (N + slack) H3 ltac:(lia) ops false _ _ _ (room_start N slack) R K') as Q.
  destruct (step_room throws N (N + slack) _ o x H3 ltac:(lia) Q D) as (t & x' & E & _). eauto.
Qed.
Print Assumptions C74_careful_histories_partial.

(** But a user who does not: every put that fails stores one byte further behind
    the buffer, so no number of accessible bytes is enough; *)
Theorem C74_failing_puts_refuted :
  forall N slack c, (0 <= c <= 127)%Z ->
  run_t (fun _ => true) (repeat (Put c) (N + slack + 1)) (start N slack) = UB.
Proof.
  intros N slack c Hc. rewrite repeat_app. cbn [repeat].
  destruct (failing_puts c Hc (N + slack) (create N slack) []) as (ts & s' & log' & R & P & C & M).
  { cbn. rewrite repeat_length. lia. }
  { reflexivity. }
  unfold start. rewrite (run_t_snoc _ _ _ _ _ _ R). cbn [step_t create mem pp] in *. rewrite repeat_length in M.
  unfold sputc_t, overflow_t, store1. destruct (Nat.ltb_spec (pp s') (length (mem s'))); [lia|]. destruct (Nat.ltb _ _); reflexivity.
Qed.
Print Assumptions C74_failing_puts_refuted.

(** ... and a write after one failed put computes a negative space and copies out of
    bounds, however much memory is accessible. *)
Theorem C74_write_after_failed_put_refuted :
  forall N slack c d, (0 <= c <= 127)%Z -> d <> [] ->
  run_t (fun _ => true) (repeat (Put c) (N + 1) ++ [Write d]) (start N (S slack)) = UB.
Proof.
  intros N slack c d Hc Hd.
  destruct (failing_puts c Hc (N + 1) (create N (S slack)) []) as (ts & s' & log' & R & P & C & M).
  { cbn. rewrite repeat_length. lia. }
  { reflexivity. }
  unfold start. rewrite (run_t_snoc _ _ _ _ _ _ R). cbn [step_t create mem pp cap] in *.
  destruct d as [|z d]; [congruence|]. cbn [length xsputn_t].
  destruct (Nat.ltb_spec (cap s') (pp s')); [reflexivity|lia].
Qed.
Print Assumptions C74_write_after_failed_put_refuted.

(** Non-vacuity: "aé€b" through a 3-byte buffer; the first call throws ("aé"), the
    caller flushes (which throws once more and then works) and goes on. *)
Definition flaky (i : nat) : bool := Nat.ltb i 2.
Definition history : list op := [Write [97; 195; 169; 226; 130]%Z; Flush; Flush; Put 130%Z; Put 172%Z; Put 98%Z; Flush].
Example C74_nonvacuous :
  match run_t flaky history (start 3 1) with
  | Ok (ts, (s, log)) => ts = [true; true; false; false; false; false; false] /\
      log = [([97; 195; 169], true); ([97; 195; 169], true); ([97; 195; 169], false); ([226; 130; 172; 98], false)]%Z /\
      concat (returned log) ++ buffered s = [97; 195; 169; 226; 130; 172; 98]%Z
  | _ => False
  end.
Proof. vm_compute. auto. Qed.
Example C74_valid : valid_utf8 [97; 195; 169; 226; 130; 172; 98]%Z.
Proof.
  exists [[97]; [195; 169]; [226; 130; 172]; [98]]%Z. split; [reflexivity|].
  repeat constructor; unfold cont; lia.
Qed.
Example C74_careful_nonvacuous :
  careful (combine history [true; true; false; false; false; false; false]) /\
  dirty (combine (firstn 2 history) [true; true]) = true /\
  destroy_t flaky (fst (start 3 1), []) = Ok (start 3 1) /\
  destroy_t (fun _ => true) (Sb [97; 98; 0; 0]%Z 3 2 [], []) = Abort.
Proof.
  split; [|vm_compute; auto]. refine (proj1 (careful_from_iff _ false) _). cbn. repeat split; congruence.
Qed.
