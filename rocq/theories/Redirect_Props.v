(** C15, C64: scoped_ostream_redirect. *)
From Verif Require Import Base Redirect_Model Redirect_Spec.
Local Arguments Nat.eqb : simpl never.

Definition all_good (w : world) : Prop := forall os, ok (streams w os) = true.
Definition same_streams (w w' : world) : Prop := forall os, streams w os = streams w' os.
Definition targets (w : world) : nat -> nat := fun os => rdbuf (streams w os).

Lemma set_same f k s : set f k s k = s.
Proof. unfold set. now rewrite Nat.eqb_refl. Qed.

(** Structural induction on programs with bodies. *)
Fixpoint size1 (p : prog) : nat :=
  match p with Scope _ _ b => S (fold_right (fun p n => size1 p + n) 0 b) | _ => 1 end.
Definition size (ps : list prog) : nat := fold_right (fun p n => size1 p + n) 0 ps.

Lemma exec1_scope os sb body w :
  exec1 (Scope os sb body) w =
  (destruct_ (Redirect os (rdbuf (streams w os))) (fst (exec body (construct os sb w))), snd (exec body (construct os sb w))).
Proof.
  cbn [exec1]. change (fix exec (ps : list prog) (w : world) {struct ps} : world * bool := _) with exec.
  now destruct (exec body _).
Qed.

Lemma expect1_scope os sb body t :
  expect1 (Scope os sb body) t =
  (fst (expect body (choose t os sb)) ++ [(sb, Sync)], snd (expect body (choose t os sb))).
Proof.
  cbn [expect1]. change (fix expect (ps : list prog) (target : nat -> nat) {struct ps} : list (nat * event) * bool := _) with expect.
  now destruct (expect body _).
Qed.

Lemma expect_ext n : forall ps t t', size ps <= n -> (forall i, t i = t' i) -> expect ps t = expect ps t'.
Proof.
  induction n as [|n IH]; intros [|p ps] t t' S E; try reflexivity.
  { destruct p; cbn in S; lia. }
  cbn [expect]. assert (E1 : expect1 p t = expect1 p t').
  { destruct p; try (cbn [expect1]; now rewrite ?E). rewrite !expect1_scope.
    assert (C : expect body (choose t os sb) = expect body (choose t' os sb)).
    { apply IH; [cbn [size fold_right size1] in S; fold (size body) in S; lia|]. intros i. unfold choose. now rewrite E. }
    now rewrite C. }
  rewrite E1. destruct (expect1 p t') as [l []]; [reflexivity|].
  rewrite (IH ps t t'); auto. cbn [size fold_right] in S. fold (size ps) in S. destruct p; cbn [size1] in S; lia.
Qed.

Lemma exec_main n : forall ps w, size ps <= n -> all_good w ->
  let '(w', raised) := exec ps w in
  same_streams w w' /\ log w' = log w ++ fst (expect ps (targets w)) /\ raised = snd (expect ps (targets w)).
Proof.
  induction n as [|n IH]; intros [|p ps] w S G; try (cbn; rewrite app_nil_r; repeat split; fail).
  { destruct p; cbn in S; lia. }
  cbn [exec expect].
  assert (H1 : let '(w', raised) := exec1 p w in
    same_streams w w' /\ log w' = log w ++ fst (expect1 p (targets w)) /\ raised = snd (expect1 p (targets w))).
  { destruct p as [os c|os| |os sb body].
    - cbn. unfold put. rewrite G. repeat split.
    - cbn. unfold flush. rewrite G. repeat split.
    - cbn. rewrite app_nil_r. repeat split.
    - rewrite exec1_scope, expect1_scope. set (w0 := construct os sb w).
      assert (G0 : all_good w0).
      { intros i. unfold w0, construct, set_rdbuf, set. cbn. destruct (Nat.eqb i os); [reflexivity|apply G]. }
      assert (Sb : size body <= n) by (cbn [size fold_right size1] in S; fold (size body) in S; lia).
      pose proof (IH body w0 Sb G0) as H. destruct (exec body w0) as [w1 r1]. destruct H as (SS & L & R).
      assert (T : expect body (targets w0) = expect body (choose (targets w) os sb)).
      { apply (expect_ext n); auto. intros i. unfold targets, w0, construct, set_rdbuf, set, choose. cbn. now destruct (Nat.eqb i os). }
      rewrite T in L, R. cbn [fst snd]. unfold destruct_, flush. cbn [r_os r_old].
      assert (E0 : streams w1 os = Stream sb true).
      { rewrite <- SS. unfold w0, construct, set_rdbuf, set. cbn. now rewrite Nat.eqb_refl. }
      rewrite E0. cbn [ok rdbuf]. unfold set_rdbuf. cbn [streams objs log]. split; [|split; [|exact R]].
      + intros i. cbn [streams]. unfold set. destruct (Nat.eqb i os) eqn:Ei.
        * apply Nat.eqb_eq in Ei. subst i. specialize (G os). destruct (streams w os); cbn in *. now subst.
        * rewrite <- SS. unfold w0, construct, set_rdbuf, set. cbn. now rewrite Ei.
      + rewrite L. rewrite <- app_assoc. reflexivity. }
  destruct (exec1 p w) as [w1 r1]. destruct (expect1 p (targets w)) as [l1 q1]. cbn [fst snd] in H1.
  destruct H1 as (SS & L & ->). destruct q1; [split; [exact SS|split; [exact L|reflexivity]]|].
  assert (G1 : all_good w1) by (intros i; rewrite <- SS; apply G).
  assert (Sp : size ps <= n).
  { cbn [size fold_right] in S. fold (size ps) in S. destruct p; cbn [size1] in S; lia. }
  pose proof (IH ps w1 Sp G1) as H. destruct (exec ps w1) as [w2 r2].
  assert (T : expect ps (targets w1) = expect ps (targets w)).
  { apply (expect_ext n); auto. intros i. unfold targets. now rewrite SS. }
  rewrite T in H. destruct (expect ps (targets w)) as [l2 q2]. cbn [fst snd] in *. destruct H as (SS2 & L2 & ->).
  split; [intros i; now rewrite SS|]. split; [|reflexivity]. rewrite L2, L. now rewrite <- app_assoc.
Qed.

(** C15. For every program of outputs, flushes, exceptions and arbitrarily nested
    redirects of any number of streams: each character reaches the buffer of the
    innermost live redirect of its stream, at the end of each scope that buffer
    is synced (also when the scope is left by an exception), and afterwards
    every stream has the buffer it had before. *)
Theorem C15_scoped_redirect :
  forall ps w, all_good w ->
  let '(w', raised) := exec ps w in
  (forall os, rdbuf (streams w' os) = rdbuf (streams w os)) /\
  log w' = log w ++ fst (expect ps (fun os => rdbuf (streams w os))) /\
  raised = snd (expect ps (fun os => rdbuf (streams w os))).
Proof.
  intros ps w G. pose proof (exec_main (size ps) ps w (le_n _) G) as H. destruct (exec ps w) as [w' r].
  destruct H as (SS & H). split; [intros os; now rewrite SS|exact H].
Qed.
Print Assumptions C15_scoped_redirect.

Definition start : world := World (fun os => Stream os true) [] [].
Example C15_nonvacuous :
  all_good start /\
  log (fst (exec [Out 0 1; Scope 0 5 [Out 0 2; Scope 0 6 [Out 0 3; Out 1 9]; Out 0 4; Raise; Out 0 8]; Out 0 7] start)) =
    [(0, Char 1); (5, Char 2); (6, Char 3); (1, Char 9); (6, Sync); (5, Char 4); (5, Sync)].
Proof. split; [intros os; reflexivity|reflexivity]. Qed.

(** C64 is false: a moved-from redirect still restores the old buffer when it is
    destroyed, which ends the redirect although its new owner is alive: the
    character 7 goes to the stream's own buffer 0. *)
Theorem C64_move_refuted :
  let w1 := construct 0 5 start in
  exists r r', nth_error (objs w1) 0 = Some r /\
    let w2 := move r w1 in nth_error (objs w2) 1 = Some r' /\
    let w3 := destruct_ r w2 in (* the moved-from object goes out of scope; r' is alive *)
    log (put 0 7 w3) = [(5, Sync); (0, Char 7)].
Proof. do 2 eexists. repeat split. Qed.
Print Assumptions C64_move_refuted.

(** What holds: if the owner is destroyed first and the moved-from object after
    it, with nothing else in between (both in one scope), the stream ends up as
    before the redirect. *)
Theorem C64_move_same_scope_partial :
  forall os sb ps w, all_good w ->
  let r := Redirect os (rdbuf (streams w os)) in
  let w1 := fst (exec ps (move r (construct os sb w))) in
  let w2 := destruct_ r (destruct_ r w1) in
  nth_error (objs (construct os sb w)) (length (objs w)) = Some r /\
  (forall i, rdbuf (streams w2 i) = rdbuf (streams w i)) /\
  log w2 = log w1 ++ [(sb, Sync); (rdbuf (streams w os), Sync)].
Proof.
  intros os sb ps w G r w1 w2. split.
  { cbn. rewrite nth_error_app2, Nat.sub_diag by lia. reflexivity. }
  assert (G0 : all_good (move r (construct os sb w))).
  { intros i. cbn. unfold set. destruct (Nat.eqb i os); [reflexivity|apply G]. }
  pose proof (exec_main (size ps) ps _ (le_n _) G0) as H. unfold w2, w1. destruct (exec ps (move r (construct os sb w))) as [w' q].
  cbn [fst]. destruct H as (SS & _ & _).
  assert (E0 : streams w' os = Stream sb true) by (rewrite <- SS; cbn; unfold set; now rewrite Nat.eqb_refl).
  unfold destruct_, flush, set_rdbuf, r. cbn [r_os r_old]. rewrite E0. cbn [ok rdbuf streams objs log].
  rewrite !set_same. cbn [ok rdbuf streams objs log]. split.
  - intros i. unfold set. destruct (Nat.eqb i os) eqn:Ei; [apply Nat.eqb_eq in Ei; now subst|].
    rewrite <- SS. cbn. unfold set. now rewrite Ei.
  - now rewrite <- app_assoc.
Qed.
Print Assumptions C64_move_same_scope_partial.

Example C64_nonvacuous :
  let r := Redirect 0 0 in
  log (destruct_ r (destruct_ r (fst (exec [Out 0 3] (move r (construct 0 5 start)))))) = [(5, Char 3); (5, Sync); (0, Sync)].
Proof. reflexivity. Qed.

(** Where it fails, in general: once the moved-from object has been destroyed,
    every program runs as if the stream had never been redirected, although the
    new owner is alive. *)
Theorem C64_source_destroyed_first :
  forall os sb ps w, all_good w ->
  let r := Redirect os (rdbuf (streams w os)) in
  let w1 := destruct_ r (move r (construct os sb w)) in
  let '(w2, raised) := exec ps w1 in
  log w2 = log w ++ [(sb, Sync)] ++ fst (expect ps (fun i => rdbuf (streams w i))) /\
  raised = snd (expect ps (fun i => rdbuf (streams w i))).
Proof.
  intros os sb ps w G r w1.
  assert (S1 : same_streams w w1).
  { intros i. unfold w1, destruct_, flush, set_rdbuf, construct, move, r. cbn. rewrite set_same. cbn. unfold set.
    destruct (Nat.eqb i os) eqn:Ei; [|reflexivity]. apply Nat.eqb_eq in Ei. subst i. specialize (G os). destruct (streams w os); cbn in *. now subst. }
  assert (L1 : log w1 = log w ++ [(sb, Sync)]).
  { unfold w1, destruct_, flush, set_rdbuf, construct, move, r. cbn. rewrite set_same. reflexivity. }
  assert (G1 : all_good w1) by (intros i; rewrite <- S1; apply G).
  pose proof (exec_main (size ps) ps w1 (le_n _) G1) as H. destruct (exec ps w1) as [w2 raised].
  destruct H as (_ & L & R). rewrite L, L1, <- app_assoc.
  assert (T : expect ps (targets w1) = expect ps (fun i => rdbuf (streams w i))).
  { apply (expect_ext (size ps)); auto. intros i. unfold targets. now rewrite <- S1. }
  rewrite T in *. split; [reflexivity|exact R].
Qed.
Print Assumptions C64_source_destroyed_first.

Example C64_source_first_nonvacuous :
  let r := Redirect 0 0 in
  log (fst (exec [Out 0 3; Out 1 4] (destruct_ r (move r (construct 0 5 start))))) = [(5, Sync); (0, Char 3); (1, Char 4)].
Proof. reflexivity. Qed.
