(** C78, C79: moves of ScopedLog. *)
From Verif Require Import Base ScopedLog_Model ScopedLog_Spec.
Local Open Scope Z_scope.
Local Arguments Nat.eqb : simpl never.

Lemma run_app h1 : forall h2 st, run (h1 ++ h2) st =
  match run h1 st with
  | Some (st1, es1) => match run h2 st1 with Some (st2, es2) => Some (st2, es1 ++ es2) | None => None end
  | None => None
  end.
Proof.
  induction h1 as [|o h1 IH]; intros h2 st; cbn [app run].
  - destruct (run h2 st) as [[? ?]|]; reflexivity.
  - destruct (step o st) as [[st1 e]|]; [|reflexivity]. rewrite IH. destruct (run h1 st1) as [[st2 es2]|]; [|reflexivity].
    destruct (run h2 st2) as [[? ?]|]; reflexivity.
Qed.
Lemma run_length h : forall st st' es, run h st = Some (st', es) -> length es = length h.
Proof.
  induction h as [|o h IH]; intros st st' es; cbn [run]; [intros E; now injection E as _ <-|].
  destruct (step o st) as [[st1 e]|]; [|discriminate]. destruct (run h st1) as [[st2 es2]|] eqn:R; [|discriminate].
  intros E. injection E as _ <-. cbn. f_equal. eauto.
Qed.

Lemma put_same v x st : put v x st v = x. Proof. unfold put. now rewrite Nat.eqb_refl. Qed.
Lemma put_other v x st u : u <> v -> put v x st u = st u. Proof. unfold put. intros N. now rewrite (proj2 (Nat.eqb_neq u v)). Qed.

(** One operation, seen from the holder of a region. *)
Lemma step_holder o st st' e v s t0 : step o st = Some (st', e) -> st v = Some (Some s, t0) ->
  match o with
  | Move u w => st' (if Nat.eqb u v then w else v) = Some (Some s, t0) /\ e = None
  | Destroy u t => if Nat.eqb u v then e = Some (s, t - t0) else st' v = Some (Some s, t0)
  | _ => st' v = Some (Some s, t0) /\ e = None
  end.
Proof.
  intros S V. destruct o as [u log now|u|u w|u t]; cbn [step] in S.
  - destruct (st u) eqn:E; [discriminate S|]. injection S as <- <-. split; [|reflexivity]. rewrite put_other; [exact V|]. intros ->. congruence.
  - destruct (st u) eqn:E; [discriminate S|]. injection S as <- <-. split; [|reflexivity]. rewrite put_other; [exact V|]. intros ->. congruence.
  - destruct (st u) as [[log start]|] eqn:E; [|discriminate S]. destruct (st w) eqn:E2; [discriminate S|]. injection S as <- <-. split; [|reflexivity].
    destruct (Nat.eqb_spec u v) as [->|N].
    + rewrite V in E. injection E as <- <-. rewrite put_other by (intros ->; congruence). now rewrite put_same.
    + rewrite put_other by congruence. rewrite put_other; [exact V|]. intros ->. congruence.
  - destruct (Nat.eqb_spec u v) as [->|N].
    + rewrite V in S. now injection S as _ <-.
    + destruct (st u) as [[[log|] start]|] eqn:E; try discriminate S; injection S as <- _; now rewrite put_other by congruence.
Qed.

Lemma follow_run h : forall st st' es v s t0, run h st = Some (st', es) -> st v = Some (Some s, t0) ->
  match follow v h with
  | Held w => st' w = Some (Some s, t0)
  | Ended j t => nth_error es j = Some (Some (s, t - t0)) /\ exists w, nth_error h j = Some (Destroy w t)
  end.
Proof.
  induction h as [|o h IH]; intros st st' es v s t0 R V; cbn [run follow] in *; [now injection R as <- _|].
  destruct (step o st) as [[st1 e]|] eqn:S; [|discriminate R]. destruct (run h st1) as [[st2 es2]|] eqn:R2; [|discriminate R].
  injection R as <- <-. pose proof (step_holder o st st1 e v s t0 S V) as K.
  assert (L : forall v', st1 v' = Some (Some s, t0) -> match later (follow v' h) with
     | Held w => st2 w = Some (Some s, t0)
     | Ended j t => nth_error (e :: es2) j = Some (Some (s, t - t0)) /\ exists w, nth_error (o :: h) j = Some (Destroy w t) end).
  { intros v' V'. specialize (IH st1 st2 es2 v' s t0 R2 V'). destruct (follow v' h); cbn [later]; exact IH. }
  destruct o as [u log now|u|u w|u t].
  - apply L, K.
  - apply L, K.
  - apply L, K.
  - destruct (Nat.eqb_spec u v) as [->|N]; [|now apply L]. cbn. split; [now rewrite K|]. now exists v.
Qed.

(** Where the log pointers come from. *)
Lemma follow_app v h o : follow v (h ++ [o]) =
  match follow v h with
  | Held w => match o with
              | Move u x => Held (if Nat.eqb u w then x else w)
              | Destroy u t => if Nat.eqb u w then Ended (length h) t else Held w
              | _ => Held w end
  | Ended j t => Ended j t
  end.
Proof.
  revert v. induction h as [|a h IH]; intros v; cbn [app follow].
  - destruct o; cbn; reflexivity.
  - assert (L : forall v, later (follow v (h ++ [o])) = match later (follow v h) with
      | Held w => match o with
              | Move u x => Held (if Nat.eqb u w then x else w)
              | Destroy u t => if Nat.eqb u w then Ended (length (a :: h)) t else Held w
              | _ => Held w end
      | Ended j t => Ended j t end).
    { intros v'. rewrite IH. destruct (follow v' h) as [w|j t]; cbn [later]; [|reflexivity]. destruct o as [| |? ?|u ?]; cbn [later length]; try reflexivity. destruct (Nat.eqb u w); reflexivity. }
    destruct a as [u log now|u|u w|u t]; try apply L. destruct (Nat.eqb u v); [reflexivity|apply L].
Qed.

Lemma origin h : forall st es, run h none = Some (st, es) ->
  (forall w s t0, st w = Some (Some s, t0) -> exists h1 v h2, h = h1 ++ Trace v (Some s) t0 :: h2 /\ follow v h2 = Held w) /\
  (forall i s d, nth_error es i = Some (Some (s, d)) -> exists h1 v t0 h2 j t,
     h = h1 ++ Trace v (Some s) t0 :: h2 /\ follow v h2 = Ended j t /\ i = (length h1 + 1 + j)%nat /\ d = t - t0).
Proof.
  induction h as [|o h IH] using rev_ind; intros st es R.
  - cbn in R. injection R as <- <-. split; [intros w s t0 E; discriminate E|]. intros [|i] s d E; discriminate E.
  - rewrite run_app in R. destruct (run h none) as [[st1 es1]|] eqn:R1; [|discriminate R]. cbn [run] in R.
    destruct (step o st1) as [[st2 e]|] eqn:S; [|discriminate R]. injection R as <- <-.
    destruct (IH st1 es1 eq_refl) as [IH1 IH2]. clear IH. pose proof (run_length _ _ _ _ R1) as L.
    assert (Keep : forall w w' s t0, st1 w = Some (Some s, t0) ->
       (match o with Move u x => Held (if Nat.eqb u w then x else w) | Destroy u t => if Nat.eqb u w then Ended (length h) t else Held w | _ => Held w end) = Held w' ->
       exists h1 v h2, h ++ [o] = h1 ++ Trace v (Some s) t0 :: h2 /\ follow v h2 = Held w').
    { intros w w' s t0 E F. destruct (IH1 w s t0 E) as (h1 & v & h2 & -> & Hf). exists h1, v, (h2 ++ [o]). split; [now rewrite <- app_assoc|].
      rewrite follow_app, Hf. destruct o as [u log now|u|u x|u t]; try exact F. destruct (Nat.eqb u w); [discriminate F|exact F]. }
    split.
    + intros w s t0 E. destruct o as [u log now|u|u x|u t]; cbn [step] in S.
      * destruct (st1 u) eqn:Eu; [discriminate S|]. injection S as <- _. unfold put in E. destruct (Nat.eqb_spec w u) as [->|N].
        -- injection E as -> ->. exists h, u, []. split; reflexivity.
        -- now apply (Keep w w).
      * destruct (st1 u) eqn:Eu; [discriminate S|]. injection S as <- _. unfold put in E. destruct (Nat.eqb_spec w u) as [->|N]; [discriminate E|]. now apply (Keep w w).
      * destruct (st1 u) as [[log start]|] eqn:Eu; [|discriminate S]. destruct (st1 x) eqn:Ex; [discriminate S|]. injection S as <- _. unfold put in E.
        destruct (Nat.eqb_spec w u) as [->|N]; [discriminate E|]. destruct (Nat.eqb_spec w x) as [->|N2].
        -- injection E as -> ->. apply (Keep u x); [exact Eu|]. now rewrite Nat.eqb_refl.
        -- apply (Keep w w); [exact E|]. now rewrite (proj2 (Nat.eqb_neq u w)) by congruence.
      * assert (Ne : w <> u /\ st1 w = Some (Some s, t0)).
        { destruct (st1 u) as [[[log|] start]|] eqn:Eu; try discriminate S; injection S as <- _; unfold put in E; (destruct (Nat.eqb_spec w u) as [->|N]; [discriminate E|auto]). }
        destruct Ne as [Ne Ew]. apply (Keep w w); [exact Ew|]. now rewrite (proj2 (Nat.eqb_neq u w)) by congruence.
    + intros i s d E. destruct (Nat.lt_ge_cases i (length es1)) as [Li|Li].
      * rewrite nth_error_app1 in E by exact Li. destruct (IH2 i s d E) as (h1 & v & t0 & h2 & j & t & -> & Hf & Hi & Hd).
        exists h1, v, t0, (h2 ++ [o]), j, t. split; [now rewrite <- app_assoc|]. split; [now rewrite follow_app, Hf|auto].
      * rewrite nth_error_app2 in E by exact Li. destruct (i - length es1)%nat as [|k] eqn:Ei; [|destruct k; discriminate E].
        cbn in E. injection E as ->.
        destruct o as [u log now|u|u x|u t]; cbn [step] in S.
        -- destruct (st1 u); [discriminate S|]. discriminate S.
        -- destruct (st1 u); [discriminate S|]. discriminate S.
        -- destruct (st1 u) as [[? ?]|]; [|discriminate S]. destruct (st1 x); discriminate S.
        -- destruct (st1 u) as [[[log|] start]|] eqn:Eu; try discriminate S. injection S as _ <- <-.
           destruct (IH1 u log start Eu) as (h1 & v & h2 & Eh & Hf). exists h1, v, start, (h2 ++ [Destroy u t]), (length h2), t.
           split; [rewrite Eh; now rewrite <- app_assoc|]. split; [rewrite follow_app, Hf, Nat.eqb_refl; reflexivity|].
           split; [|reflexivity]. rewrite Eh, app_length in L. cbn in L. lia.
Qed.

(** C78. For every program that constructs, moves and destroys ScopedLogs, and every
    call of trace() that got a slot s, at time t0: if the last object the result
    was moved to is destroyed at time t, that destructor sets the duration of slot s to
    t - t0; otherwise that object still has the slot and the time. *)
Theorem C78_last_owner : forall h st es h1 v s t0 h2, run h none = Some (st, es) -> h = h1 ++ Trace v (Some s) t0 :: h2 ->
  match follow v h2 with
  | Ended j t => nth_error es (length h1 + 1 + j) = Some (Some (s, t - t0)) /\ exists w, nth_error h (length h1 + 1 + j) = Some (Destroy w t)
  | Held w => st w = Some (Some s, t0)
  end.
Proof.
  intros h st es h1 v s t0 h2 R ->. rewrite run_app in R. destruct (run h1 none) as [[st1 es1]|] eqn:R1; [|discriminate R].
  cbn [run step] in R. destruct (st1 v) eqn:Ev; [discriminate R|]. destruct (run h2 _) as [[st2 es2]|] eqn:R2; [|discriminate R].
  injection R as <- <-. pose proof (follow_run h2 _ st2 es2 v s t0 R2 (put_same _ _ _)) as F. pose proof (run_length _ _ _ _ R1) as L.
  destruct (follow v h2) as [w|j t]; [exact F|]. destruct F as [F1 (w & F2)]. split.
  - rewrite nth_error_app2 by lia. replace (length h1 + 1 + j - length es1)%nat with (S j) by lia. exact F1.
  - exists w. rewrite nth_error_app2 by lia. replace (length h1 + 1 + j - length h1)%nat with (S j) by lia. exact F2.
Qed.
Print Assumptions C78_last_owner.

(** Nothing else is ever written: every assignment to a duration is made by the
    destructor of the last owner of a region, with its slot and time... *)
Theorem C78_nothing_else : forall h st es i s d, run h none = Some (st, es) -> nth_error es i = Some (Some (s, d)) ->
  exists h1 v t0 h2 j t, h = h1 ++ Trace v (Some s) t0 :: h2 /\ follow v h2 = Ended j t /\ i = (length h1 + 1 + j)%nat /\ d = t - t0.
Proof. intros h st es i s d R E. exact (proj2 (origin h st es R) i s d E). Qed.
Print Assumptions C78_nothing_else.

(** ...and by the last owner of one region only. *)
Lemma follow_apart : forall h st st' es v v' s s' t0 t0' j t j' t', run h st = Some (st', es) ->
  st v = Some (Some s, t0) -> st v' = Some (Some s', t0') -> v <> v' -> follow v h = Ended j t -> follow v' h = Ended j' t' -> j <> j'.
Proof.
  induction h as [|o h IH]; intros st st' es v v' s s' t0 t0' j t j' t' R V V' N F F'; cbn [follow] in *; [discriminate F|].
  cbn [run] in R. destruct (step o st) as [[st1 e]|] eqn:S; [|discriminate R]. destruct (run h st1) as [[st2 es2]|] eqn:R2; [|discriminate R].
  pose proof (step_holder o st st1 e v s t0 S V) as K. pose proof (step_holder o st st1 e v' s' t0' S V') as K'.
  assert (Main : forall u u', st1 u = Some (Some s, t0) -> st1 u' = Some (Some s', t0') -> u <> u' -> later (follow u h) = Ended j t -> later (follow u' h) = Ended j' t' -> j <> j').
  { intros u u' U U' Nu E E'. destruct (follow u h) as [|i x] eqn:Fu; [discriminate E|]. destruct (follow u' h) as [|i' x'] eqn:Fu'; [discriminate E'|].
    cbn in E, E'. injection E as <- <-. injection E' as <- <-. specialize (IH st1 st2 es2 u u' s s' t0 t0' i x i' x' R2 U U' Nu Fu Fu'). lia. }
  destruct o as [u log now|u|u w|u x].
  - apply (Main v v'); tauto.
  - apply (Main v v'); tauto.
  - apply (Main _ _ (proj1 K) (proj1 K')); try assumption.
    cbn [step] in S. destruct (st u) as [[? ?]|]; [|discriminate S]. destruct (st w) eqn:Ew; [discriminate S|].
    destruct (Nat.eqb_spec u v) as [E1|]; destruct (Nat.eqb_spec u v') as [E2|]; congruence.
  - destruct (Nat.eqb_spec u v) as [E1|N1]; destruct (Nat.eqb_spec u v') as [E2|N2]; try congruence.
    + injection F as <- <-. destruct (follow v' h); cbn in F'; [discriminate F'|]. injection F' as <- <-. lia.
    + injection F' as <- <-. destruct (follow v h); cbn in F; [discriminate F|]. injection F as <- <-. lia.
    + now apply (Main v v').
Qed.
Lemma held_inside h1 : forall st st1 es1 h2 v s t0 w, run h1 st = Some (st1, es1) -> st v = Some (Some s, t0) -> follow v h1 = Held w ->
  follow v (h1 ++ h2) = match follow w h2 with Held x => Held x | Ended j t => Ended (length h1 + j) t end.
Proof.
  induction h1 as [|o h1 IH]; intros st st1 es1 h2 v s t0 w R V F; cbn [app follow run] in *.
  - injection F as ->. destruct (follow w h2); reflexivity.
  - destruct (step o st) as [[st2 e]|] eqn:S; [|discriminate R]. destruct (run h1 st2) as [[st3 es3]|] eqn:R2; [|discriminate R].
    pose proof (step_holder o st st2 e v s t0 S V) as K.
    assert (Main : forall u, st2 u = Some (Some s, t0) -> later (follow u h1) = Held w -> later (follow u (h1 ++ h2)) = match follow w h2 with Held x => Held x | Ended j t => Ended (length (o :: h1) + j) t end).
    { intros u U E. destruct (follow u h1) as [x|] eqn:Fu; [|discriminate E]. cbn in E. injection E as ->.
      rewrite (IH st2 st3 es3 h2 u s t0 w R2 U Fu). destruct (follow w h2); reflexivity. }
    destruct o as [u log now|u|u x|u t]; try (apply Main; tauto). destruct (Nat.eqb u v); [discriminate F|]. now apply Main.
Qed.
Theorem C78_one_region : forall h st es h1 v s t0 h2 h1' v' s' t0' h2' j t j' t', run h none = Some (st, es) ->
  h = h1 ++ Trace v (Some s) t0 :: h2 -> h = h1' ++ Trace v' (Some s') t0' :: h2' -> length h1 <> length h1' ->
  follow v h2 = Ended j t -> follow v' h2' = Ended j' t' -> (length h1 + 1 + j <> length h1' + 1 + j')%nat.
Proof.
  assert (W : forall h st es h1 v s t0 h2 h1' v' s' t0' h2' j t j' t', run h none = Some (st, es) ->
    h = h1 ++ Trace v (Some s) t0 :: h2 -> h = h1' ++ Trace v' (Some s') t0' :: h2' -> (length h1 < length h1')%nat ->
    follow v h2 = Ended j t -> follow v' h2' = Ended j' t' -> (length h1 + 1 + j <> length h1' + 1 + j')%nat).
  { intros h st es h1 v s t0 h2 h1' v' s' t0' h2' j t j' t' R -> E L F F'.
    (* h2 = mid ++ Trace v' :: h2' *)
    assert (exists mid, h2 = mid ++ Trace v' (Some s') t0' :: h2' /\ h1' = h1 ++ Trace v (Some s) t0 :: mid) as (mid & -> & ->).
    { clear -E L. revert h1' E L. induction h1 as [|a h1 IH]; intros [|b h1'] E L; cbn in L; try lia.
      - cbn in E. injection E as <- ->. now exists h1'.
      - cbn in E. injection E as <- E. destruct (IH h1' E) as (mid & -> & ->); [lia|]. now exists mid. }
    rewrite run_app in R. destruct (run h1 none) as [[st1 es1]|] eqn:R1; [|discriminate R]. cbn [run step] in R.
    destruct (st1 v) eqn:Ev; [discriminate R|]. destruct (run (mid ++ _) _) as [[st2 es2]|] eqn:R2; [|discriminate R].
    rewrite run_app in R2. destruct (run mid _) as [[st3 es3]|] eqn:R3; [|discriminate R2]. cbn [run step] in R2.
    destruct (st3 v') eqn:Ev'; [discriminate R2|]. destruct (run h2' _) as [[st4 es4]|] eqn:R4; [|discriminate R2].
    pose proof (follow_run mid _ st3 es3 v s t0 R3 (put_same _ _ _)) as K.
    rewrite app_length. cbn [length].
    destruct (follow v mid) as [w|i x] eqn:Fm.
    - rewrite (held_inside mid _ st3 es3 _ v s t0 w R3 (put_same _ _ _) Fm) in F. cbn [follow] in F.
      destruct (follow w h2') as [|i x] eqn:Fw; [discriminate F|]. cbn [later] in F. injection F as <- <-.
      assert (Nw : w <> v') by congruence.
      pose proof (follow_apart h2' _ st4 es4 w v' s s' t0 t0' i x j' t' R4) as A. rewrite put_other in A by exact Nw.
      specialize (A K (put_same _ _ _) Nw Fw F'). lia.
    - assert (Fx : follow v (mid ++ Trace v' (Some s') t0' :: h2') = Ended i x /\ (i < length mid)%nat).
      { clear -Fm. revert v i x Fm. induction mid as [|o mid IH]; intros v i x Fm; cbn [follow app] in *; [discriminate Fm|].
        assert (M : forall u, later (follow u mid) = Ended i x -> later (follow u (mid ++ Trace v' (Some s') t0' :: h2')) = Ended i x /\ (i < length (o :: mid))%nat).
        { intros u E. destruct (follow u mid) as [|k y] eqn:Fu; [discriminate E|]. cbn in E. injection E as <- <-. destruct (IH u k y Fu) as [-> ?]. cbn. split; [reflexivity|lia]. }
        destruct o as [u log now|u|u w|u t]; try apply (M _ Fm). destruct (Nat.eqb u v); [|apply (M _ Fm)]. injection Fm as <- <-. cbn. split; [reflexivity|lia]. }
      destruct Fx as [Fx Li]. rewrite Fx in F. injection F as <- <-. lia. }
  intros h st es h1 v s t0 h2 h1' v' s' t0' h2' j t j' t' R E E' N F F'. destruct (Nat.lt_ge_cases (length h1) (length h1')) as [L|L].
  - exact (W h st es h1 v s t0 h2 h1' v' s' t0' h2' j t j' t' R E E' L F F').
  - pose proof (W h st es h1' v' s' t0' h2' h1 v s t0 h2 j' t' j t R E' E ltac:(lia) F' F). lia.
Qed.
Print Assumptions C78_one_region.

(** A region that is moved twice and outlives a later one. *)
Example C78_nonvacuous :
  let h := [Trace 0 (Some 7%nat) 100; Move 0 1; Destroy 0 110; Trace 0 (Some 8%nat) 120; Move 1 2; Destroy 1 130; Trace 1 None 135; Destroy 0 140; Destroy 2 150; Destroy 1 160] in
  (exists st, run h none = Some (st, [None; None; None; None; None; None; None; Some (8%nat, 20); Some (7%nat, 50); None])) /\
  follow 0 (tl h) = Ended 7 150.
Proof. split; [eexists; reflexivity|reflexivity]. Qed.
