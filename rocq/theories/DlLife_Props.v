(** C95: how long dynamically loaded libraries stay loaded. *)
From Verif Require Import Base Dl_Model DlLife_Model DlLife_Proofs.
Local Open Scope outcome_scope.

(** ** Specification *)
(** Variable x holds a handle of library l. *)
Definition holder (w : world) (x l : nat) : Prop :=
  exists c n, nth_error (vars w) x = Some (Some c) /\ nth_error (blocks w) c = Some (Some (l, n)).
(** Function pointer p points into library l as it is in memory now. *)
Definition callable (w : world) (p l : nat) : Prop :=
  nth_error (fps w) p = Some (Some (l, unmaps (ld w) l)) /\ mapped (ld w) l = true.
(** A program and the state it has reached. *)
Definition reached (windows : bool) (ext : nat -> nat) (nv nf : nat) (os : list op) (w : world) : Prop :=
  Forall (scoped nv nf) os /\ run windows os (initial ext nv nf) = Ok w.
(** The history does not look up another function for p. *)
Definition keeps (p : nat) (o : op) : Prop := match o with Func q _ _ => q <> p | _ => True end.
(** A load of l that asks for RTLD_NODELETE succeeded in this history (not on Windows). *)
Definition nodelete_load (windows : bool) (l : nat) (os : list op) : Prop :=
  windows = false /\ exists x f, In (Load x l true f) os /\ nodelete f = true.
(** The defaults of DynamicLoadFlags, dl-flags.hpp:8-17. *)
Definition default_flags : flags := Flags false false true true.

(** ** Proofs *)
Lemma run_inv windows ext : forall os w w', inv ext None w -> Forall (scoped (length (vars w)) (length (fps w))) os -> run windows os w = Ok w' ->
  inv ext None w' /\ length (vars w') = length (vars w) /\ length (fps w') = length (fps w) /\
  (forall l, pinned (ld w') l = pinned (ld w) l || existsb (fun o => pin_step windows o l) os).
Proof.
  induction os as [|o os IH]; intros w w' I S0 H; cbn [run] in H.
  - injection H as <-. split; [exact I|]. split; [reflexivity|]. split; [reflexivity|]. intros l. cbn [existsb]. now rewrite orb_false_r.
  - inversion S0 as [|? ? So Sos]; subst. destruct (step_ok windows ext o w I So) as [[E _]|(w1 & E & I1 & T & L1 & L2 & _ & P)]; rewrite E in H; cbn [bind] in H; [discriminate H|].
    rewrite <- L1, <- L2 in Sos. destruct (IH w1 w' I1 Sos H) as (I2 & L3 & L4 & P2). split; [exact I2|]. split; [congruence|]. split; [congruence|].
    intros l. rewrite P2, P. cbn [existsb]. now rewrite orb_assoc.
Qed.
Lemma reached_inv windows ext nv nf os w : reached windows ext nv nf os w ->
  inv ext None w /\ length (vars w) = nv /\ length (fps w) = nf /\ (forall l, pinned (ld w) l = existsb (fun o => pin_step windows o l) os).
Proof.
  intros [S0 H]. assert (Lv : length (vars (initial ext nv nf)) = nv) by apply repeat_length. assert (Lf : length (fps (initial ext nv nf)) = nf) by apply repeat_length.
  destruct (run_inv windows ext os (initial ext nv nf) w (initial_inv ext nv nf)) as (I & L1 & L2 & P); [rewrite Lv, Lf; exact S0|exact H|].
  split; [exact I|]. split; [congruence|]. split; [congruence|]. exact P.
Qed.
Lemma pins_iff windows l os : existsb (fun o => pin_step windows o l) os = true <-> nodelete_load windows l os.
Proof.
  rewrite existsb_exists. unfold nodelete_load. split.
  - intros (o & Ho & H). destruct o as [x l' [] f|x y|x|p x fd]; cbn [pin_step] in H; try discriminate H. apply andb_prop in H. destruct H as [H W]. apply andb_prop in H. destruct H as [H N].
    apply Nat.eqb_eq in H. subst l'. destruct windows; [discriminate W|]. split; [reflexivity|]. eauto.
  - intros (-> & x & f & Ho & N). exists (Load x l true f). split; [exact Ho|]. cbn [pin_step]. now rewrite Nat.eqb_refl, N.
Qed.
Lemma holder_pos ext w l : inv ext None w -> 0 < sumf (of_lib l) (blocks w) <-> exists x, holder w x l.
Proof.
  intros [B V X R F]. split.
  - intros H. destruct (sumf_pos _ _ H) as (c & b & Hc & Hb). destruct b as [[l' n]|]; cbn [of_lib] in Hb; [|lia]. destruct (Nat.eqb_spec l' l) as [->|]; [|lia].
    destruct (B c l n Hc) as [E1 E2]. cbn [is_some_c] in E1. destruct (sumf_pos (is_some_c c) (vars w)) as (x & v & Hx & Hv); [lia|]. destruct v as [d|]; cbn [is_some_c] in Hv; [|lia].
    destruct (Nat.eqb_spec d c) as [->|]; [|lia]. exists x, c, n. auto.
  - intros (x & c & n & Hx & Hc). pose proof (sumf_ge (of_lib l) (blocks w) c _ Hc) as K. cbn [of_lib] in K. rewrite Nat.eqb_refl in K. lia.
Qed.

(** Every history is defined: no handle is closed twice, no closed handle is used. The only
    thing that stops a program is load_func on an empty handle (its assertion). *)
Theorem C95_no_misuse windows ext nv nf os : Forall (scoped nv nf) os ->
  (exists w, run windows os (initial ext nv nf) = Ok w) \/
  run windows os (initial ext nv nf) = Abort /\
    exists pre p x found post w, os = pre ++ Func p x found :: post /\ run windows pre (initial ext nv nf) = Ok w /\ nth_error (vars w) x = Some None.
Proof.
  intros H. assert (Lv : length (vars (initial ext nv nf)) = nv) by apply repeat_length. assert (Lf : length (fps (initial ext nv nf)) = nf) by apply repeat_length.
  assert (H' : Forall (scoped (length (vars (initial ext nv nf))) (length (fps (initial ext nv nf)))) os) by (rewrite Lv, Lf; exact H). clear H Lv Lf. revert H'.
  generalize (initial_inv ext nv nf). generalize (initial ext nv nf) as w0. induction os as [|o os IH]; intros w0 I H; [left; cbn; eauto|].
  inversion H as [|? ? So Sos]; subst. destruct (step_ok windows ext o w0 I So) as [[E (p & x & fd & Eo & Hx)]|(w1 & E & I1 & _ & L1 & L2 & _)]; cbn [run]; rewrite E; cbn [bind].
  - right. split; [reflexivity|]. subst o. exists [], p, x, fd, os, w0. auto.
  - rewrite <- L1, <- L2 in Sos. destruct (IH w1 I1 Sos) as [K|[K (pre & p & x & fd & post & w & -> & R & Hx)]]; [left; exact K|right]. split; [exact K|].
    exists (o :: pre), p, x, fd, post, w. split; [reflexivity|]. split; [cbn [run]; rewrite E; exact R|exact Hx].
Qed.
Print Assumptions C95_no_misuse.

(** A library is in memory exactly as long as a copy of a handle exists, others use it, or
    RTLD_NODELETE was asked for. *)
Theorem C95_loaded_exactly windows ext nv nf os w l : reached windows ext nv nf os w ->
  mapped (ld w) l = true <-> (exists x, holder w x l) \/ 0 < ext l \/ nodelete_load windows l os.
Proof.
  intros H. destruct (reached_inv _ _ _ _ _ _ H) as (I & _ & _ & P). unfold mapped. rewrite orb_true_iff, Nat.ltb_lt, P, pins_iff, <- (holder_pos ext w l I), (I_refs _ _ _ I l). split.
  - intros [K|K]; [|auto]. destruct (ext l); [left; lia|right; left; lia].
  - intros [K|[K|K]]; [left; lia|left; lia|auto].
Qed.
Print Assumptions C95_loaded_exactly.
(** Without handles the loader's count is what it would be without this program. *)
Theorem C95_balanced windows ext nv nf os w l : reached windows ext nv nf os w -> (forall x, ~ holder w x l) -> refs (ld w) l = ext l.
Proof.
  intros H N. destruct (reached_inv _ _ _ _ _ _ H) as (I & _ & _ & _). rewrite (I_refs _ _ _ I l). destruct (sumf (of_lib l) (blocks w)) eqn:E; [lia|].
  destruct (proj1 (holder_pos ext w l I)) as (x & Hx); [lia|]. elim (N x Hx).
Qed.
Print Assumptions C95_balanced.

(** ** Functions *)
Lemma run_app windows os1 : forall os2 w, run windows (os1 ++ os2) w = (w1 <- run windows os1 w ;; run windows os2 w1).
Proof. induction os1 as [|o os1 IH]; intros os2 w; cbn [run app bind]; [reflexivity|]. destruct (step windows o w); cbn [bind]; auto. Qed.
Lemma step_fp windows ext o w w' p l g : inv ext None w -> scoped (length (vars w)) (length (fps w)) o -> keeps p o -> step windows o w = Ok w' ->
  nth_error (fps w) p = Some (Some (l, g)) -> nth_error (fps w') p = Some (Some (l, g)).
Proof.
  intros I S0 K E Hp. destruct (step_ok windows ext o w I S0) as [[E' _]|(w1 & E' & _ & _ & _ & _ & C & _)]; [congruence|]. rewrite E in E'. injection E' as <-.
  destruct C as [C|(q & x & l' & g' & Eo & C & _)]; [now rewrite C|]. subst o. cbn [keeps] in K. rewrite C, upd_other; auto.
Qed.
Lemma run_fp windows ext p l g : forall os w w', inv ext None w -> Forall (scoped (length (vars w)) (length (fps w))) os -> Forall (keeps p) os -> run windows os w = Ok w' ->
  nth_error (fps w) p = Some (Some (l, g)) ->
  nth_error (fps w') p = Some (Some (l, g)) /\ unmaps (ld w) l <= unmaps (ld w') l /\
  ((forall os1 os2 w1, os = os1 ++ os2 -> run windows os1 w = Ok w1 -> mapped (ld w1) l = true) -> unmaps (ld w') l = unmaps (ld w) l).
Proof.
  induction os as [|o os IH]; intros w w' I S0 K H Hp; cbn [run] in H.
  - injection H as <-. auto.
  - inversion S0 as [|? ? So Sos]; subst. inversion K as [|? ? Ko Kos]; subst. destruct (step windows o w) as [w1| | |] eqn:E; cbn [bind] in H; try discriminate H.
    pose proof (step_fp _ _ _ _ _ _ _ _ I So Ko E Hp) as Hp1. destruct (step_ok windows ext o w I So) as [[E' _]|(w2 & E' & I1 & T & L1 & L2 & _)]; [congruence|]. rewrite E in E'. injection E' as <-.
    rewrite <- L1, <- L2 in Sos. destruct (IH w1 w' I1 Sos Kos H Hp1) as (A1 & A2 & A3). split; [exact A1|]. pose proof (T_mono _ _ T l). split; [lia|].
    intros M. rewrite A3.
    + apply (T_keep _ _ T); [exact (M [] (o :: os) w eq_refl eq_refl)|]. apply (M [o] os w1 eq_refl). cbn [run]. rewrite E. reflexivity.
    + intros os1 os2 w3 E3 R3. apply (M (o :: os1) os2 w3); [now rewrite E3|]. cbn [run]. now rewrite E.
Qed.

(** A function can be called as long as its library stays loaded. *)
Theorem C95_functions_while_loaded windows ext nv nf os w more w' p l : reached windows ext nv nf os w -> callable w p l ->
  Forall (scoped nv nf) more -> Forall (keeps p) more -> run windows more w = Ok w' ->
  (forall m1 m2 w1, more = m1 ++ m2 -> run windows m1 w = Ok w1 -> mapped (ld w1) l = true) -> callable w' p l.
Proof.
  intros H [C1 C2] S0 K R M. destruct (reached_inv _ _ _ _ _ _ H) as (I & Lv & Lf & _). rewrite <- Lv, <- Lf in S0.
  destruct (run_fp windows ext p l _ more w w' I S0 K R C1) as (A1 & _ & A3). specialize (A3 M). split; [now rewrite A3|]. apply (M more [] w' (eq_sym (app_nil_r more)) R).
Qed.
Print Assumptions C95_functions_while_loaded.
(** Once it has been unloaded the function is gone, also after loading the library again. *)
Theorem C95_functions_dangle windows ext nv nf os w m1 w1 m2 w2 p l : reached windows ext nv nf os w -> callable w p l ->
  Forall (scoped nv nf) (m1 ++ m2) -> Forall (keeps p) (m1 ++ m2) -> run windows m1 w = Ok w1 -> run windows m2 w1 = Ok w2 ->
  mapped (ld w1) l = false -> ~ callable w2 p l.
Proof.
  intros H [C1 C2] S0 K R1 R2 M [D1 D2]. destruct (reached_inv _ _ _ _ _ _ H) as (I & Lv & Lf & _). rewrite <- Lv, <- Lf in S0.
  apply Forall_app in S0. destruct S0 as [S1 S2]. apply Forall_app in K. destruct K as [K1 K2].
  destruct (run_fp windows ext p l _ m1 w w1 I S1 K1 R1 C1) as (A1 & _ & _). destruct (run_inv windows ext m1 w w1 I S1 R1) as (I1 & L1 & L2 & _).
  destruct (I_fps _ _ _ I1 p l _ A1) as [_ G]. specialize (G M). rewrite <- L1, <- L2 in S2.
  destruct (run_fp windows ext p l _ m2 w1 w2 I1 S2 K2 R2 A1) as (B1 & B2 & _). rewrite D1 in B1. injection B1 as B1. lia.
Qed.
Print Assumptions C95_functions_dangle.
(** With the default flags (nodelete) functions can be called forever, whatever happens to
    the handles; not on Windows, where the flags are ignored. *)
Theorem C95_default_flags_partial ext nv nf os w more w' p l : reached false ext nv nf os w -> callable w p l -> nodelete_load false l os ->
  Forall (scoped nv nf) more -> Forall (keeps p) more -> run false more w = Ok w' -> callable w' p l.
Proof.
  intros H C N S0 K R. apply (C95_functions_while_loaded false ext nv nf os w more w' p l H C S0 K R). intros m1 m2 w1 E R1. subst more. apply Forall_app in S0.
  apply (C95_loaded_exactly false ext nv nf (os ++ m1) w1 l).
  - split; [apply Forall_app; split; [apply H|apply S0]|]. rewrite run_app. destruct H as [_ ->]. exact R1.
  - right. right. destruct N as (_ & x & f & Hi & Hf). split; [reflexivity|]. exists x, f. split; [apply in_or_app; now left|exact Hf].
Qed.
Print Assumptions C95_default_flags_partial.
(** The state after a history that succeeds. *)
Definition after (windows : bool) (ext : nat -> nat) (nv nf : nat) (os : list op) : world :=
  match run windows os (initial ext nv nf) with Ok w => w | _ => initial ext nv nf end.
Definition succeeds {A} (x : outcome A) : bool := match x with Ok _ => true | _ => false end.
Lemma after_ok windows ext nv nf os : succeeds (run windows os (initial ext nv nf)) = true -> run windows os (initial ext nv nf) = Ok (after windows ext nv nf os).
Proof. unfold after. destruct (run windows os (initial ext nv nf)); cbn; intros H; congruence. Qed.
Lemma after_more windows ext nv nf os more : succeeds (run windows (os ++ more) (initial ext nv nf)) = true ->
  run windows more (after windows ext nv nf os) = Ok (after windows ext nv nf (os ++ more)).
Proof.
  intros H. pose proof (after_ok _ _ _ _ _ H) as E. rewrite run_app in E. unfold after at 1. destruct (run windows os (initial ext nv nf)); cbn [bind] in E; [exact E|discriminate E..].
Qed.
Definition nobody (l : nat) : nat := 0.
Theorem C95_default_flags_windows_refuted : exists w w',
  reached true nobody 1 1 [Load 0 0 true default_flags; Func 0 0 true] w /\ callable w 0 0 /\ run true [Reset 0] w = Ok w' /\ ~ callable w' 0 0.
Proof.
  exists (after true nobody 1 1 [Load 0 0 true default_flags; Func 0 0 true]), (after true nobody 1 1 ([Load 0 0 true default_flags; Func 0 0 true] ++ [Reset 0])).
  split; [split; [repeat constructor|apply after_ok; vm_compute; reflexivity]|]. split; [split; vm_compute; reflexivity|]. split; [apply after_more; vm_compute; reflexivity|].
  intros [A B]. vm_compute in B. discriminate B.
Qed.
Print Assumptions C95_default_flags_windows_refuted.

(** ** Non-vacuity: two handles of one library from two loads, a copy, functions. *)
Definition no_nodelete : flags := Flags true false false true.
Example C95_example :
  let os := [Load 0 7 true no_nodelete; Func 0 0 true; Copy 1 0; Load 2 7 true no_nodelete; Load 3 8 false default_flags; Reset 0; Reset 2] in
  exists w w', reached false nobody 4 2 os w /\ callable w 0 7 /\ (exists x, holder w x 7) /\ refs (ld w) 7 = 1 /\
    reached false nobody 4 2 (os ++ [Reset 1]) w' /\ mapped (ld w') 7 = false /\ ~ callable w' 0 7.
Proof.
  intros os. exists (after false nobody 4 2 os), (after false nobody 4 2 (os ++ [Reset 1])).
  split; [split; [repeat constructor; cbn; lia|apply after_ok; vm_compute; reflexivity]|]. split; [split; vm_compute; reflexivity|]. split; [exists 1, 0, 1; split; vm_compute; reflexivity|].
  split; [vm_compute; reflexivity|]. split; [split; [repeat constructor; cbn; lia|apply after_ok; vm_compute; reflexivity]|]. split; [vm_compute; reflexivity|]. intros [A B]. vm_compute in B. discriminate B.
Qed.
