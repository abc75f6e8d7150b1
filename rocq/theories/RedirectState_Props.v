(** C107: scoped redirects and the error state of streams. *)
From Verif Require Import Base RedirectState_Model RedirectState_Spec.

Lemma set_same {A} (f : nat -> A) i x : set f i x i = x.
Proof. unfold set. now rewrite Nat.eqb_refl. Qed.
Lemma set_other {A} (f : nat -> A) i j x : j <> i -> set f i x j = f j.
Proof. intros H. unfold set. now rewrite (proj2 (Nat.eqb_neq j i) H). Qed.
Lemma request_streams os e w : streams (request os e w) = streams w.
Proof. unfold request. destruct (streams w os) as [[b|] []]; reflexivity. Qed.

Lemma exec_raises p : forall w, snd (exec p w) = raises p.
Proof.
  induction p as [| | | | | |p IHp q IHq|os sb p IHp]; intros w; try reflexivity.
  - cbn [exec raises]. specialize (IHp w). destruct (exec p w) as [w1 r]. cbn in IHp. rewrite <- IHp.
    destruct r; [reflexivity|]. cbn. apply IHq.
  - cbn [exec raises]. specialize (IHp (set_rdbuf os sb w)). destruct (exec p (set_rdbuf os sb w)) as [w1 r]. exact IHp.
Qed.

Lemma exec_rdbuf p : forall w os, rdbuf (streams (fst (exec p w)) os) = rdbuf (streams w os).
Proof.
  induction p as [|i c|i|i|i| |p IHp q IHq|i sb p IHp]; intros w os; cbn [exec]; try reflexivity.
  - cbn. now rewrite request_streams.
  - cbn. now rewrite request_streams.
  - cbn. unfold set. destruct (Nat.eqb_spec os i) as [->|]; reflexivity.
  - cbn. unfold set. destruct (Nat.eqb_spec os i) as [->|]; reflexivity.
  - specialize (IHp w os). destruct (exec p w) as [w1 r]. cbn in IHp. destruct r; [exact IHp|]. now rewrite IHq.
  - specialize (IHp (set_rdbuf i sb w) os). destruct (exec p (set_rdbuf i sb w)) as [w1 r]. cbn [fst] in *.
    unfold set_rdbuf. cbn [streams]. rewrite request_streams.
    destruct (Nat.eq_dec os i) as [->|N]; [now rewrite set_same|]. rewrite set_other by exact N.
    rewrite IHp. unfold set_rdbuf. cbn [streams]. now rewrite set_other.
Qed.

(** After a scope every stream has the buffer it had before, whatever the program does, also if it leaves with an
    exception, whatever error bits are set and whichever buffers are missing. *)
Theorem C107_buffers_restored : forall p w os, rdbuf (streams (fst (exec p w)) os) = rdbuf (streams w os).
Proof. exact exec_rdbuf. Qed.
Print Assumptions C107_buffers_restored.

(** The error state of the redirected stream afterwards depends on nothing: it is good, unless it has no buffer. *)
Theorem C107_state_afterwards : forall os sb body w,
  err (streams (fst (exec (Scope os sb body) w)) os) = match rdbuf (streams w os) with None => true | _ => false end.
Proof.
  intros os sb body w. cbn [exec]. destruct (exec body (set_rdbuf os sb w)) as [w1 r]. cbn [fst].
  unfold set_rdbuf. cbn [streams]. now rewrite set_same.
Qed.
Print Assumptions C107_state_afterwards.

Lemma alone_state p : forall w os, leaves_alone os p -> err (streams (fst (exec p w)) os) = err (streams w os).
Proof.
  induction p as [|i c|i|i|i| |p IHp q IHq|i sb p IHp]; intros w os L; cbn [exec]; try reflexivity.
  - cbn. now rewrite request_streams.
  - cbn. now rewrite request_streams.
  - cbn in *. now rewrite set_other by congruence.
  - cbn in *. now rewrite set_other by congruence.
  - cbn [leaves_alone] in L. destruct L as [L1 L2]. specialize (IHp w os L1). destruct (exec p w) as [w1 r]. cbn in IHp.
    destruct r; [exact IHp|]. now rewrite IHq.
  - cbn [leaves_alone] in L. destruct L as [L1 L2]. specialize (IHp (set_rdbuf i sb w) os L2).
    destruct (exec p (set_rdbuf i sb w)) as [w1 r]. cbn [fst] in *.
    unfold set_rdbuf. cbn [streams]. rewrite request_streams, set_other by congruence.
    rewrite IHp. unfold set_rdbuf. cbn [streams]. now rewrite set_other by congruence.
Qed.

(** Streams that are not redirected keep their error state. *)
Theorem C107_other_streams : forall p w os, leaves_alone os p -> err (streams (fst (exec p w)) os) = err (streams w os).
Proof. exact alone_state. Qed.
Print Assumptions C107_other_streams.

(** Errors are not kept: an error bit that was set before the redirect is cleared, output inside and after it goes
    through; an error in the scope is forgotten at its end, and the buffer of the redirect has not been flushed. *)
Theorem C107_error_state_refuted :
  let before := World (fun os => Stream (Some os) true) [] in
  let start := World (fun os => Stream (Some os) false) [] in
  log (fst (exec (Out 0 1) before)) = [] /\
  log (fst (exec (Seq (Scope 0 (Some 5) (Out 0 1)) (Out 0 2)) before)) = [(5, Char 1); (5, Sync); (0, Char 2)] /\
  log (fst (exec (Seq (Scope 0 (Some 5) (Seq (Out 0 1) (Fail 0))) (Out 0 2)) start)) = [(5, Char 1); (0, Char 2)].
Proof. vm_compute. auto. Qed.
Print Assumptions C107_error_state_refuted.

Lemma ok_run p : forall w target, no_errors p -> sane w ->
  (forall os, err (streams w os) = true -> rdbuf (streams w os) = None) -> (forall os, target os = rdbuf (streams w os)) ->
  log (fst (exec p w)) = log w ++ delivered p target /\
  (forall os, err (streams (fst (exec p w)) os) = err (streams w os)).
Proof.
  assert (R : forall os e w target, (forall os, err (streams w os) = true -> rdbuf (streams w os) = None) ->
            (forall os, target os = rdbuf (streams w os)) ->
            log (request os e w) = log w ++ match target os with Some b => [(b, e)] | None => [] end).
  { intros os e w target G T. rewrite T. unfold request. specialize (G os).
    destruct (streams w os) as [[b|] [|]]; cbn in *; first [reflexivity|now rewrite app_nil_r|discriminate (G eq_refl)]. }
  induction p as [|i c|i|i|i| |p IHp q IHq|i sb p IHp]; intros w target N S G T; cbn [exec delivered].
  - split; [now rewrite app_nil_r|reflexivity].
  - split; [now apply R|]. intros os. cbn. now rewrite request_streams.
  - split; [now apply R|]. intros os. cbn. now rewrite request_streams.
  - destruct N.
  - split; [cbn; now rewrite app_nil_r|]. intros os. cbn. unfold set. destruct (Nat.eqb_spec os i) as [->|]; [|reflexivity].
    cbn. specialize (S i). specialize (G i). destruct (streams w i) as [[b|] [|]]; cbn in *;
      first [reflexivity|discriminate (G eq_refl)|discriminate (S eq_refl)].
  - split; [now rewrite app_nil_r|reflexivity].
  - destruct N as [N1 N2]. destruct (IHp w target N1 S G T) as [L E]. pose proof (exec_rdbuf p w) as B.
    pose proof (exec_raises p w) as X. destruct (exec p w) as [w1 r]. cbn [fst snd] in *. subst r.
    destruct (raises p); [split; [now rewrite app_nil_r|exact E]|].
    destruct (IHq w1 target N2) as [L' E'].
    + intros os H. rewrite E. apply S. now rewrite <- B.
    + intros os H. rewrite B. apply G. now rewrite <- E.
    + intros os. now rewrite B.
    + rewrite L', L, <- app_assoc. split; [reflexivity|]. intros os. now rewrite E'.
  - cbn [no_errors] in N. destruct N as [N1 N2]. destruct sb as [b|]; [|congruence].
    destruct (IHp (set_rdbuf i (Some b) w) (fun j => if Nat.eqb j i then Some b else target j) N2) as [L E].
    + intros os. unfold set_rdbuf. cbn [streams]. unfold set. destruct (Nat.eqb os i); [discriminate|apply S].
    + intros os. unfold set_rdbuf. cbn [streams]. unfold set. destruct (Nat.eqb os i); [discriminate|apply G].
    + intros os. unfold set_rdbuf. cbn [streams]. unfold set. destruct (Nat.eqb os i); [reflexivity|apply T].
    + pose proof (exec_rdbuf p (set_rdbuf i (Some b) w)) as B.
      destruct (exec p (set_rdbuf i (Some b) w)) as [w1 r]. cbn [fst] in *.
      assert (Hi : streams w1 i = Stream (Some b) false).
      { specialize (B i). specialize (E i). unfold set_rdbuf in B, E. cbn [streams] in B, E. rewrite set_same in B, E.
        destruct (streams w1 i). cbn in *. congruence. }
      split.
      * unfold set_rdbuf. cbn [log]. unfold request. rewrite Hi. cbn [log]. rewrite L. cbn [set_rdbuf log]. now rewrite <- app_assoc.
      * intros os. unfold set_rdbuf at 1. cbn [streams]. rewrite request_streams. unfold set.
        destruct (Nat.eqb_spec os i) as [->|Ne].
        -- cbn [err]. specialize (S i). specialize (G i). destruct (streams w i) as [[b'|] [|]]; cbn in *;
             first [reflexivity|discriminate (G eq_refl)|discriminate (S eq_refl)].
        -- rewrite E. unfold set_rdbuf. cbn [streams]. now rewrite set_other.
Qed.

(** If no error bits are set, before or by the program (streams without a buffer excepted), the states are kept and
    every character and every flush reaches the buffer chosen by the innermost redirect of its stream. *)
Theorem C107_no_errors_partial : forall p w, no_errors p -> sane w ->
  (forall os, err (streams w os) = true -> rdbuf (streams w os) = None) ->
  log (fst (exec p w)) = log w ++ delivered p (fun os => rdbuf (streams w os)) /\
  (forall os, err (streams (fst (exec p w)) os) = err (streams w os)) /\
  snd (exec p w) = raises p.
Proof.
  intros p w N S G. destruct (ok_run p w _ N S G (fun _ => eq_refl)) as [A B].
  split; [exact A|]. split; [exact B|apply exec_raises].
Qed.
Print Assumptions C107_no_errors_partial.

(** A stream without a buffer can be redirected: output is dropped before and after, not inside. *)
Example C107_null_stream :
  let w := World (fun os => Stream None true) [] in
  let p := Seq (Out 0 1) (Seq (Scope 0 (Some 5) (Seq (Out 0 2) Raise)) (Out 0 3)) in
  no_errors p /\ sane w /\ (forall os, err (streams w os) = true -> rdbuf (streams w os) = None) /\
  exec p w = (fst (exec p w), true) /\ log (fst (exec p w)) = [(5, Char 2); (5, Sync)].
Proof. cbn. repeat split; auto; discriminate. Qed.
(** A redirect to no buffer fails at once. *)
Example C107_redirect_to_nothing :
  log (fst (exec (Seq (Scope 0 None (Out 0 2)) (Out 0 3)) (World (fun os => Stream (Some os) false) []))) = [(0, Char 3)].
Proof. reflexivity. Qed.
