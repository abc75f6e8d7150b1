(** C99: does a stop request publish what was written before it? *)
From Verif Require Import Base StopSync_Model StopSync_Spec.
From Coq Require Import Relation_Operators Operators_Properties.

(** No: the load in stop_requested() is relaxed, so stop signals order nothing, in any execution. *)
Theorem C99_signals_do_not_synchronize : forall x e e', happens_before x e e' <-> ordered_otherwise x e e'.
Proof.
  intros x e e'. split; intros H.
  - induction H as [e e' [H|[H|H]]|a b c _ IH1 _ IH2].
    + apply t_step. now left.
    + exfalso. destruct H as (a & a' & o & o' & _ & _ & _ & Hl & _ & _ & Ha). destruct a'; cbn in Hl; try discriminate. injection Hl as <-. discriminate.
    + apply t_step. now right.
    + eapply t_trans; eauto.
  - induction H as [e e' [H|H]|a b c _ IH1 _ IH2].
    + apply t_step. now left.
    + apply t_step. right. now right.
    + eapply t_trans; eauto.
Qed.
Print Assumptions C99_signals_do_not_synchronize.
(** Thread 0 writes a variable and calls stop(); thread 1 sees the request and reads the variable: a data race. *)
Definition handover : execution :=
  Exec [(0, Write 7); (0, Stop 0); (1, Requested 0 true); (1, Read 7)] (fun e => if Nat.eqb e 2 then Some 1 else None) (fun _ _ => False).
Lemma handover_order e e' : happens_before handover e e' -> (e < e' /\ (e' < 2 \/ 2 <= e)).
Proof.
  intros H. apply C99_signals_do_not_synchronize in H. induction H as [e e' [(t & a & a' & L & H & H')|[]]|a b c _ IH1 _ IH2]; [|lia].
  destruct e as [|[|[|[|[|e]]]]], e' as [|[|[|[|[|e']]]]]; cbn in H, H'; try discriminate; try lia; injection H as <- <-; discriminate.
Qed.
Theorem C99_publication_refuted : exists x, consistent x /\
  program_order x 0 1 /\ act_of x 1 = Some (Stop 0) /\ act_of x 2 = Some (Requested 0 true) /\ reads x 2 = Some 1 /\ program_order x 2 3 /\ race x 0 3.
Proof.
  exists handover. split.
  - constructor.
    + intros e s b k H K. destruct e as [|[|[|[|[|e]]]]]; cbn in H, K; try discriminate. injection H as <- <-. injection K as <-. split; [reflexivity|]. split; [reflexivity|].
      intros F. apply handover_order in F. lia.
    + intros e s b H K. destruct e as [|[|[|[|[|e]]]]]; cbn in H, K; discriminate.
    + intros e F. apply handover_order in F. lia.
  - split; [exists 0, (Write 7), (Stop 0); cbn; auto|]. split; [reflexivity|]. split; [reflexivity|]. split; [reflexivity|].
    split; [exists 1, (Requested 0 true), (Read 7); cbn; auto|]. exists 7. split; [reflexivity|]. split; [now left|].
    split; intros F; apply handover_order in F; lia.
Qed.
Print Assumptions C99_publication_refuted.
(** If the threads synchronise otherwise, everything written before stop() is ordered before
    what follows: and then the request is seen, too. *)
Theorem C99_with_other_synchronization_partial : forall x w k q r s b, consistent x ->
  program_order x w k -> act_of x k = Some (Stop s) -> ordered_otherwise x k q -> act_of x q = Some (Requested s b) -> program_order x q r ->
  b = true /\ happens_before x w r /\ ~ race x w r.
Proof.
  intros x w k q r s b C Hw Hk Ho Hq Hr. assert (Hkq : happens_before x k q) by now apply C99_signals_do_not_synchronize.
  assert (Hwr : happens_before x w r).
  { eapply t_trans; [apply t_step; left; exact Hw|]. eapply t_trans; [exact Hkq|]. apply t_step. now left. }
  split; [|split; [exact Hwr|]].
  - destruct (reads x q) as [k'|] eqn:E; [now apply (result_true x C q s b k')|]. exfalso. destruct (result_false x C q s b Hq E) as [_ F]. now apply (F k Hk).
  - intros (d & _ & _ & F & _). now apply F.
Qed.
Print Assumptions C99_with_other_synchronization_partial.
(** The same hand-over with a join in between *)
Definition joined : execution := Exec (actions handover) (reads handover) (fun e e' => e = 1 /\ e' = 2).
Example C99_nonvacuous : consistent joined /\ ordered_otherwise joined 1 2.
Proof.
  assert (L : forall e e', happens_before joined e e' -> e < e').
  { intros e e' H. apply C99_signals_do_not_synchronize in H. induction H as [e e' [(t & a & a' & L & _)|[-> ->]]|a b c _ IH1 _ IH2]; lia. }
  split; [|apply t_step; right; cbn; auto]. constructor.
  - intros e s b k H K. destruct e as [|[|[|[|[|e]]]]]; cbn in H, K; try discriminate. injection H as <- <-. injection K as <-. split; [reflexivity|]. split; [reflexivity|].
    intros F. apply L in F. lia.
  - intros e s b H K. destruct e as [|[|[|[|[|e]]]]]; cbn in H, K; discriminate.
  - intros e F. apply L in F. lia.
Qed.
