(** C54: exactly when the loops that advance shared pointers are right. *)
From Verif Require Import Base Batch_Model Batch_Spec Batch_Proofs.
Local Open Scope Z_scope.
Local Arguments Nat.eqb : simpl never.
Local Arguments Nat.sub : simpl never.
Local Arguments Nat.mul : simpl never.

(** ** Every schedule can be completed *)
Definition valid (len : nat) (x : nat * nat) : Prop :=
  match fst x with O => snd x = 0%nat | S _ => (snd x <= len)%nat end.
Definition left_to_do (len : nat) (x : nat * nat) : nat := fst x * S len - snd x.

Lemma step_valid strides m t : (0 < length strides)%nat ->
  (forall u x, nth_error (threads m) u = Some x -> valid (length strides) x) ->
  forall u x, nth_error (threads (step strides t m)) u = Some x -> valid (length strides) x.
Proof.
  intros P H u x. unfold step. destruct (nth_error (threads m) t) as [[[|n] [|j]]|] eqn:E; try apply H.
  - cbn [threads]. rewrite nth_error_upd. destruct (Nat.eqb_spec t u) as [->|]; [|apply H].
    destruct (Nat.ltb u (length (threads m))); [|discriminate]. intros K. injection K as <-. unfold valid; cbn [fst snd]. lia.
  - cbn [threads]. rewrite nth_error_upd. destruct (Nat.eqb_spec t u) as [->|]; [|apply H].
    destruct (Nat.ltb u (length (threads m))); [|discriminate]. intros K. injection K as <-.
    specialize (H u _ E). unfold valid in H; cbn [fst snd] in H.
    destruct (Nat.eqb_spec (S j) (length strides)); unfold valid; cbn [fst snd]; [|lia].
    destruct n; lia.
Qed.

Lemma step_progress strides m t n j : (0 < length strides)%nat ->
  nth_error (threads m) t = Some (S n, j) -> (j <= length strides)%nat ->
  (sumf (left_to_do (length strides)) (threads (step strides t m)) < sumf (left_to_do (length strides)) (threads m))%nat.
Proof.
  intros P E Hj. unfold step. rewrite E. destruct j as [|j]; cbn [threads].
  - pose proof (sumf_upd (left_to_do (length strides)) (threads m) t _ (S n, 1%nat) E) as K.
    unfold left_to_do at 2 4 in K; cbn [fst snd] in K. cbn [Nat.mul] in K. lia.
  - pose proof (sumf_upd (left_to_do (length strides)) (threads m) t _ (if Nat.eqb (S j) (length strides) then (n, 0%nat) else (S n, S (S j))) E) as K.
    destruct (Nat.eqb_spec (S j) (length strides)); unfold left_to_do at 2 4 in K; cbn [fst snd] in K; cbn [Nat.mul] in K; lia.
Qed.

Lemma can_finish strides : (0 < length strides)%nat -> forall k m, (sumf (left_to_do (length strides)) (threads m) <= k)%nat ->
  (forall u x, nth_error (threads m) u = Some x -> valid (length strides) x) ->
  exists schedule, finished (run strides schedule m).
Proof.
  intros P. induction k as [|k IH]; intros m K V.
  - exists []. intros t [[|n] j] H; cbn [run fold_left] in H.
    + specialize (V t _ H). unfold valid in V; cbn [fst snd] in V. now subst j.
    + specialize (V t _ H). unfold valid in V; cbn [fst snd] in V.
      pose proof (sumf_ge (left_to_do (length strides)) _ _ _ H) as G. unfold left_to_do at 1 in G; cbn [fst snd] in G. cbn [Nat.mul] in G. lia.
  - destruct (Nat.eq_dec (sumf (left_to_do (length strides)) (threads m)) 0) as [Z0|Z0]; [apply IH; [lia|exact V]|].
    destruct (sumf_pos (left_to_do (length strides)) (threads m) ltac:(lia)) as (t & [[|n] j] & H & Hx).
    { unfold left_to_do in Hx; cbn [fst snd] in Hx. cbn [Nat.mul] in Hx. lia. }
    pose proof (V t _ H) as Vt. unfold valid in Vt; cbn [fst snd] in Vt.
    destruct (IH (step strides t m)) as [sch F].
    + pose proof (step_progress strides m t n j P H Vt). lia.
    + now apply step_valid.
    + exists (t :: sch). exact F.
Qed.

Lemma run_valid strides schedule : (0 < length strides)%nat -> forall m,
  (forall u x, nth_error (threads m) u = Some x -> valid (length strides) x) ->
  forall u x, nth_error (threads (run strides schedule m)) u = Some x -> valid (length strides) x.
Proof.
  intros P. induction schedule as [|t sch IH]; intros m V; [exact V|]. rewrite run_cons. apply IH. now apply step_valid.
Qed.

Lemma start_valid len base shares : forall u x, nth_error (threads (start base shares)) u = Some x -> valid len x.
Proof.
  intros u x H. unfold start in H; cbn [threads] in H. rewrite nth_error_map in H.
  destruct (nth_error shares u) as [n|]; [|discriminate H]. cbn [option_map] in H. injection H as <-.
  unfold valid; cbn [fst snd]. destruct n; lia.
Qed.

(** Whatever has happened, the threads can go on to the end of the loop. *)
Theorem C54_terminates :
  forall strides base shares schedule, (0 < length strides)%nat ->
  exists rest, finished (run strides (schedule ++ rest) (start base shares)).
Proof.
  intros strides base shares schedule P.
  destruct (can_finish strides P _ (run strides schedule (start base shares)) (le_n _)) as [rest F].
  - apply run_valid; [exact P|]. apply start_valid.
  - exists rest. now rewrite run_app.
Qed.
Print Assumptions C54_terminates.

(** ** Calls are never taken back *)
Lemma step_calls strides t m : exists more, calls (step strides t m) = calls m ++ more.
Proof.
  unfold step. destruct (nth_error (threads m) t) as [[[|n] [|j]]|]; cbn [calls]; eauto using app_nil_r.
  all: exists []; now rewrite app_nil_r.
Qed.
Lemma run_calls strides schedule : forall m, exists more, calls (run strides schedule m) = calls m ++ more.
Proof.
  induction schedule as [|t sch IH]; intros m; [exists []; now rewrite app_nil_r|]. rewrite run_cons.
  destruct (IH (step strides t m)) as [a A]. destruct (step_calls strides t m) as [b B].
  exists (b ++ a). now rewrite A, B, app_assoc.
Qed.

Lemma advance_inj strides base s : In s strides -> s <> 0 -> forall i k, advance base strides i = advance base strides k -> i = k.
Proof.
  intros Hs N i k E. apply In_nth with (d := 0) in Hs. destruct Hs as (j & Hj & Es).
  apply (f_equal (fun l => nth j l 0)) in E. rewrite !nth_advance, Es in E by exact Hj.
  assert (E2 : Z.of_nat i * s = Z.of_nat k * s) by lia. apply Z.mul_reg_r in E2; lia.
Qed.

(** ** One thread with work: the state is that of the sequential loop *)
Definition between (base strides : list Z) (i j : nat) : list Z :=
  map (fun k => nth k base 0 + (Z.of_nat i + if Nat.ltb k j then 1 else 0) * nth k strides 0) (seq 0 (length strides)).

Lemma between_0 base strides i : between base strides i 0 = advance base strides i.
Proof. unfold between, advance. apply map_ext_in. intros k Hk. destruct (Nat.ltb_spec k 0); lia. Qed.
Lemma between_all base strides i : between base strides i (length strides) = advance base strides (S i).
Proof. unfold between, advance. apply map_ext_in. intros k Hk. apply in_seq in Hk. destruct (Nat.ltb_spec k (length strides)); lia. Qed.
Lemma between_length base strides i j : length (between base strides i j) = length strides.
Proof. unfold between. now rewrite map_length, seq_length. Qed.
Lemma nth_between base strides i j k : (k < length strides)%nat ->
  nth k (between base strides i j) 0 = nth k base 0 + (Z.of_nat i + if Nat.ltb k j then 1 else 0) * nth k strides 0.
Proof. intros H. unfold between. now rewrite nth_map_seq. Qed.

Lemma between_step base strides i j : (j < length strides)%nat ->
  upd (between base strides i j) j (nth j (between base strides i j) 0 + nth j strides 0) = between base strides i (S j).
Proof.
  intros H. apply nth_ext with (d := 0) (d' := 0); [now rewrite upd_length, !between_length|].
  intros k Hk. rewrite upd_length, between_length in Hk. rewrite (nth_between _ _ _ (S j)) by exact Hk.
  destruct (Nat.eq_dec j k) as [<-|N].
  - erewrite nth_error_nth; [|apply upd_same; now rewrite between_length].
    rewrite nth_between by exact H. destruct (Nat.ltb_spec j j), (Nat.ltb_spec j (S j)); lia.
  - assert (E : nth_error (upd (between base strides i j) j (nth j (between base strides i j) 0 + nth j strides 0)) k
                = Some (nth k (between base strides i j) 0)).
    { rewrite upd_other by exact N. apply nth_error_nth'. now rewrite between_length. }
    rewrite (nth_error_nth _ _ 0 E). rewrite nth_between by exact Hk.
    destruct (Nat.ltb_spec k j), (Nat.ltb_spec k (S j)); lia.
Qed.

Definition alone (base strides : list Z) (t N : nat) (m : mach) : Prop :=
  (forall u x, u <> t -> nth_error (threads m) u = Some x -> x = (0, 0)%nat) /\
  exists i j, (i <= N)%nat /\ nth_error (threads m) t = Some ((N - i)%nat, j) /\ valid (length strides) ((N - i)%nat, j) /\
    ptrs m = between base strides i (j - 1) /\
    calls m = map (advance base strides) (seq 0 (i + match j with O => 0 | S _ => 1 end)).

Lemma alone_step base strides t N u m : (0 < length strides)%nat -> alone base strides t N m -> alone base strides t N (step strides u m).
Proof.
  intros P [O (i & j & Hi & E & V & Ep & Ec)]. unfold step.
  destruct (Nat.eq_dec u t) as [->|Nu].
  2:{ destruct (nth_error (threads m) u) as [x|] eqn:Eu; [|split; [exact O|exists i, j; auto 6]].
      rewrite (O u x Nu Eu). split; [exact O|exists i, j; auto 6]. }
  rewrite E. destruct (N - i)%nat as [|n] eqn:En; [split; [exact O|exists i, j; rewrite En; auto 6]|].
  unfold valid in V; cbn [fst snd] in V.
  destruct j as [|j].
  - split.
    + intros w x Nw. cbn [threads]. rewrite upd_other by congruence. now apply O.
    + exists i, 1%nat. split; [exact Hi|]. cbn [threads ptrs calls]. rewrite En.
      split; [apply upd_same; apply nth_error_Some; congruence|]. split; [unfold valid; cbn [fst snd]; lia|].
      split; [exact Ep|]. rewrite Nat.add_0_r in Ec. rewrite Ec, Ep.
      change (0 - 1)%nat with 0%nat. rewrite between_0. now rewrite Nat.add_1_r, seq_S, map_app.
  - replace (S j - 1)%nat with j in Ep by lia. rewrite Ep, between_step by lia.
    destruct (Nat.eqb_spec (S j) (length strides)) as [Ej|Nj].
    + rewrite Ej, between_all. split.
      * intros w x Nw. cbn [threads]. rewrite upd_other by congruence. now apply O.
      * exists (S i), 0%nat. split; [lia|]. cbn [threads ptrs calls]. replace (N - S i)%nat with n by lia.
        split; [apply upd_same; apply nth_error_Some; congruence|]. split; [unfold valid; cbn [fst snd]; destruct n; lia|].
        split; [now rewrite between_0|]. rewrite Ec. now rewrite Nat.add_0_r, Nat.add_1_r.
    + split.
      * intros w x Nw. cbn [threads]. rewrite upd_other by congruence. now apply O.
      * exists i, (S (S j)). split; [exact Hi|]. cbn [threads ptrs calls]. rewrite En.
        split; [apply upd_same; apply nth_error_Some; congruence|]. split; [unfold valid; cbn [fst snd]; lia|].
        split; [|exact Ec]. now replace (S (S j) - 1)%nat with (S j) by lia.
Qed.

Lemma alone_run base strides t N schedule : (0 < length strides)%nat -> forall m,
  alone base strides t N m -> alone base strides t N (run strides schedule m).
Proof.
  intros P. induction schedule as [|u sch IH]; intros m A; [exact A|]. rewrite run_cons. apply IH. now apply alone_step.
Qed.

Lemma base_advance strides base : length base = length strides -> base = advance base strides 0.
Proof.
  intros L. apply nth_ext with (d := 0) (d' := 0); [now rewrite advance_length|]. rewrite L. intros j Hj. rewrite nth_advance by exact Hj. lia.
Qed.

Lemma sum_single : forall shares t, (forall u, u <> t -> nth u shares 0%nat = 0%nat) -> list_sum shares = nth t shares 0%nat.
Proof.
  induction shares as [|n shares IH]; intros t H; [now destruct t|]. cbn [list_sum fold_right].
  change (fold_right Nat.add 0%nat shares) with (list_sum shares). destruct t as [|t].
  - rewrite (IH (length shares)).
    + rewrite nth_overflow by lia. cbn [nth]. lia.
    + intros u _. exact (H (S u) ltac:(lia)).
  - pose proof (H 0%nat ltac:(lia)) as H0. cbn [nth] in H0. subst n. cbn [nth Nat.add]. apply IH.
    intros u Hu. exact (H (S u) ltac:(lia)).
Qed.

Lemma no_work strides schedule : forall m, (forall t x, nth_error (threads m) t = Some x -> x = (0, 0)%nat) -> run strides schedule m = m.
Proof.
  induction schedule as [|t sch IH]; intros m H; [reflexivity|]. rewrite run_cons.
  replace (step strides t m) with m; [now apply IH|]. unfold step.
  destruct (nth_error (threads m) t) as [x|] eqn:E; [|reflexivity]. now rewrite (H t x E).
Qed.

Lemma two_calls strides base shares t u n k : t <> u ->
  nth_error shares t = Some (S n) -> nth_error shares u = Some (S k) ->
  calls (run strides [t; u] (start base shares)) = [base; base].
Proof.
  intros N Et Eu. cbn [run fold_left].
  assert (T1 : nth_error (threads (start base shares)) t = Some (S n, 0%nat)) by (unfold start; cbn [threads]; now rewrite nth_error_map, Et).
  assert (U1 : nth_error (threads (start base shares)) u = Some (S k, 0%nat)) by (unfold start; cbn [threads]; now rewrite nth_error_map, Eu).
  unfold step at 2. rewrite T1. unfold step. cbn [threads]. rewrite upd_other by exact N. rewrite U1. reflexivity.
Qed.

(** C54. The batch is processed correctly in every schedule exactly when at most
    one thread of the team has iterations to run. ([shares] are the numbers of
    iterations of the threads; any strides that are not all zero.) *)
Theorem C54_exact :
  forall strides base shares,
  length base = length strides -> (exists s, In s strides /\ s <> 0) ->
  ((forall schedule, let m := run strides schedule (start base shares) in
      finished m ->
      Permutation (calls m)
        (map (fun i => map (fun j => nth j base 0 + Z.of_nat i * nth j strides 0) (seq 0 (length strides)))
             (seq 0 (list_sum shares)))) <->
   (forall t u, t <> u -> nth t shares 0%nat = 0%nat \/ nth u shares 0%nat = 0%nat)).
Proof.
  intros strides base shares L (s & Hs & Ns).
  assert (P : (0 < length strides)%nat) by (destruct strides; [destruct Hs|cbn; lia]).
  change (fun i => map (fun j => nth j base 0 + Z.of_nat i * nth j strides 0) (seq 0 (length strides))) with (advance base strides).
  split.
  - intros H t u N.
    destruct (nth t shares 0%nat) as [|n] eqn:Et; [now left|]. destruct (nth u shares 0%nat) as [|k] eqn:Eu; [now right|]. exfalso.
    assert (Nt : nth_error shares t = Some (S n)).
    { rewrite <- Et. apply nth_error_nth'. destruct (le_lt_dec (length shares) t) as [G|]; [|assumption]. rewrite nth_overflow in Et by exact G. discriminate Et. }
    assert (Nu : nth_error shares u = Some (S k)).
    { rewrite <- Eu. apply nth_error_nth'. destruct (le_lt_dec (length shares) u) as [G|]; [|assumption]. rewrite nth_overflow in Eu by exact G. discriminate Eu. }
    destruct (C54_terminates strides base shares [t; u] P) as [rest F].
    specialize (H _ F). cbv zeta in H. rewrite run_app in H.
    destruct (run_calls strides rest (run strides [t; u] (start base shares))) as [more M].
    rewrite M, (two_calls strides base shares t u n k N Nt Nu) in H. apply Permutation_sym in H.
    apply Permutation_NoDup in H.
    + cbn [app] in H. inversion_clear H as [|? ? K _]. apply K. now left.
    + apply FinFun.Injective_map_NoDup; [|apply seq_NoDup]. intros a b. now apply (advance_inj strides base s).
  - intros H schedule m F. subst m.
    destruct (Exists_dec (fun n => n <> 0)%nat shares (fun n => match Nat.eq_dec n 0 with left e => right (fun f => f e) | right f => left f end)) as [Ex|Nx].
    + apply Exists_exists in Ex. destruct Ex as (n & In_n & Nn). apply In_nth with (d := 0%nat) in In_n. destruct In_n as (t & Ht & Et).
      assert (Others : forall u, u <> t -> nth u shares 0%nat = 0%nat).
      { intros u Hu. destruct (H u t Hu) as [|G]; [assumption|]. congruence. }
      rewrite (sum_single shares t Others), Et.
      assert (A : alone base strides t n (run strides schedule (start base shares))).
      { apply alone_run; [exact P|]. split.
        - intros u x Hu E. unfold start in E; cbn [threads] in E. rewrite nth_error_map in E.
          destruct (nth_error shares u) as [k|] eqn:Ek; [|discriminate E]. cbn [option_map] in E. injection E as <-.
          apply nth_error_nth with (d := 0%nat) in Ek. rewrite Others in Ek by exact Hu. now subst k.
        - exists 0%nat, 0%nat. split; [lia|]. unfold start; cbn [threads ptrs calls]. rewrite Nat.sub_0_r, nth_error_map.
          rewrite (nth_error_nth' shares 0%nat Ht), Et. split; [reflexivity|]. split; [unfold valid; cbn [fst snd]; destruct n; lia|].
          split; [|reflexivity]. change (0 - 1)%nat with 0%nat. rewrite between_0. now apply base_advance. }
      destruct A as [_ (i & j & Hi & E & _ & _ & Ec)]. specialize (F t _ E). injection F as Fi Fj. subst j.
      replace (i + 0)%nat with n in Ec by lia. rewrite Ec. reflexivity.
    + assert (Z0 : forall n, In n shares -> n = 0%nat).
      { intros n Hn. destruct (Nat.eq_dec n 0); [assumption|]. exfalso. apply Nx. apply Exists_exists. eauto. }
      rewrite no_work.
      * unfold start; cbn [calls]. replace (list_sum shares) with 0%nat; [reflexivity|].
        clear - Z0. induction shares as [|n l IH]; [reflexivity|]. cbn [list_sum fold_right].
        change (fold_right Nat.add 0%nat l) with (list_sum l). rewrite <- IH by (intros; apply Z0; now right). rewrite (Z0 n) by now left. reflexivity.
      * intros t x E. unfold start in E; cbn [threads] in E. rewrite nth_error_map in E.
        destruct (nth_error shares t) as [k|] eqn:Ek; [|discriminate E]. cbn [option_map] in E. injection E as <-.
        apply nth_error_In in Ek. now rewrite (Z0 k Ek).
Qed.
Print Assumptions C54_exact.

(** Both sides of the equivalence occur. *)
Example C54_exact_nonvacuous :
  (forall t u, t <> u -> nth t [0; 5; 0]%nat 0%nat = 0%nat \/ nth u [0; 5; 0]%nat 0%nat = 0%nat) /\
  ~ (forall t u, t <> u -> nth t [3; 2]%nat 0%nat = 0%nat \/ nth u [3; 2]%nat 0%nat = 0%nat) /\
  finished (run [7; 8] (repeat 1%nat 15) (start [0; 0] [0; 5; 0]%nat)).
Proof.
  split; [|split].
  - intros [|[|[|[|t]]]] [|[|[|[|u]]]] H; cbn [nth]; auto; contradiction.
  - intros H. destruct (H 0%nat 1%nat ltac:(discriminate)) as [K|K]; discriminate K.
  - assert (E : threads (run [7; 8] (repeat 1%nat 15) (start [0; 0] [0; 5; 0]%nat)) = [(0, 0); (0, 0); (0, 0)]%nat) by reflexivity.
    intros t x. rewrite E. intros H. apply nth_error_In in H. cbn [In] in H. intuition congruence.
Qed.
