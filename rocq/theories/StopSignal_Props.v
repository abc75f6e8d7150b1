(** C53: AtomicStopSignal. *)
From Verif Require Import Base StopSignal_Model StopSignal_Spec StopSignal_Proofs.

(** [knows es t o] (StopSignal_Spec): some stop() on [o] happens before what
    thread [t] does after history [es]. [stop_called es o]: [es] contains a
    stop() on [o]. *)

(** A stop() that happens before a stop_requested() is seen by it; and
    stop_requested() is true only on objects on which stop() was called. In
    particular an object made by copying or moving a stopped one reports false
    until stop() is called on itself. *)
Theorem C53_stop_never_lost :
  forall es m t o k b m',
    runs init es m -> step (Query t o k) m = Some (m', Some b) ->
    (knows es t o -> b = true) /\ (b = true -> stop_called es o).
Proof. exact stop_not_lost. Qed.
Print Assumptions C53_stop_never_lost.

(** Every thread can always query every object (so the above is not empty). *)
Theorem C53_query_always_possible :
  forall es m t o, runs init es m -> o < length (flags m) ->
  exists k b m', step (Query t o k) m = Some (m', Some b).
Proof. exact query_possible. Qed.
Print Assumptions C53_query_always_possible.

(** Thread 2 synchronises with the thread that stopped object 0: it must see
    the stop; the copy (object 1) is not stopped; an unsynchronised thread may
    still read false. *)
Definition demo : list event :=
  [(New, None); (Stop 1 0, None); (Query 3 0 0, Some false); (CopyNew 0, None); (MoveAssign 0 1, None); (Sync 1 2, None)].
Lemma runs_app m es m' es' m'' : runs m es m' -> runs m' es' m'' -> runs m (es ++ es') m''.
Proof.
  intros R R'. induction R' as [|m' es' m1 p m2 ob R' IH S]; [now rewrite app_nil_r|].
  rewrite app_assoc. econstructor; eauto.
Qed.
Lemma runs_one m p m' ob : step p m = Some (m', ob) -> runs m [(p, ob)] m'.
Proof. intros S. apply (runs_snoc m [] m p m' ob); [constructor|exact S]. Qed.
Example C53_nonvacuous :
  exists m, runs init demo m /\ knows demo 2 0 /\ ~ stop_called demo 1 /\
    (exists m', step (Query 2 0 1) m = Some (m', Some true)) /\
    step (Query 2 0 0) m = None /\
    (exists m', step (Query 2 1 0) m = Some (m', Some false)).
Proof.
  eexists. split.
  { unfold demo. repeat (eapply (runs_app _ [_]); [apply runs_one; reflexivity|]).
    apply runs_nil. }
  split; [|split; [|split; [eexists; reflexivity|split; [reflexivity|eexists; reflexivity]]]].
  - change demo with (([(New, None); (Stop 1 0, None); (Query 3 0 0, Some false); (CopyNew 0, None); (MoveAssign 0 1, None)] : list event) ++ [(Sync 1 2, None)]).
    apply knows_sync. change ([(New, None); (Stop 1 0, None); (Query 3 0 0, Some false); (CopyNew 0, None); (MoveAssign 0 1, None)] : list event)
      with (((([(New, None)] ++ [(Stop 1 0, None)]) ++ [(Query 3 0 0, Some false)]) ++ [(CopyNew 0, None)]) ++ [(MoveAssign 0 1, None)] : list event).
    do 3 apply knows_more. apply knows_stop.
  - intros (t & ob & H). unfold demo in H; cbn in H. repeat (destruct H as [H|H]; [discriminate H|]). exact H.
Qed.
