(** The entries of the log against the history of the program. *)
From Verif Require Import Base Trace_Model Trace_Spec Trace_History_Spec Trace_Proofs.

Lemma readings_snoc as_ : forall n a i,
  readings n (as_ ++ [a]) i = readings n as_ i ++ readings (n + length (filter is_trace as_)) [a] i.
Proof.
  induction as_ as [|b as_ IH]; intros n a i; [cbn [app filter length readings]; now rewrite Nat.add_0_r|].
  destruct b as [nm ins fl th|j now|]; cbn [app readings filter is_trace length].
  - rewrite IH. replace (n + S (length (filter is_trace as_))) with (S n + length (filter is_trace as_)) by lia. reflexivity.
  - rewrite IH. now destruct (Nat.eqb j i && Nat.ltb i n).
  - apply IH.
Qed.
(** What is known about a call, by the point it has reached. *)
Definition tells (cap : nat) (as_ : list action) (i : nat) (c : call) : Prop :=
  (exists name inst fl th, nth_trace as_ i = Some (Trace name inst fl th) /\
     args c FName = name /\ args c FInstance = inst /\ args c FFlops = fl /\ args c FThread = th) /\
  let rs := readings 0 as_ i in
  match at_ c with
  | Begin => rs = []
  | Fetched => length rs = 1
  | Write k => length rs = 2 + k /\ k < length write_order /\ nth_error rs 1 = Some (args c FStart) /\ index c < cap
  | Open => length rs = 7 /\ nth_error rs 1 = Some (args c FStart) /\ index c < cap
  | OpenNull => length rs = 2 /\ cap <= index c
  | Closed => cap <= index c \/ exists e, nth_error rs 1 = Some (args c FStart) /\ nth_error rs 7 = Some e /\ args c FDuration = (e - args c FStart)%Z
  end.
Lemma nth_error_keep {A} (l l' : list A) k x : nth_error l k = Some x -> nth_error (l ++ l') k = Some x.
Proof. intros H. rewrite nth_error_app1; auto. apply nth_error_Some. congruence. Qed.
Lemma trace_keep as_ a i t : nth_trace as_ i = Some t -> nth_trace (as_ ++ [a]) i = Some t.
Proof. unfold nth_trace. rewrite filter_app. apply nth_error_keep. Qed.
Lemma tells_stay cap as_ a i c : tells cap as_ i c -> readings (length (filter is_trace as_)) [a] i = [] -> tells cap (as_ ++ [a]) i c.
Proof.
  intros [(nm & ins & fl & th & T & A) B] R. split; [exists nm, ins, fl, th; split; [now apply trace_keep|exact A]|].
  rewrite readings_snoc. cbn [Nat.add]. rewrite R, app_nil_r. exact B.
Qed.
Lemma step_reading as_ i now : i < length (filter is_trace as_) -> readings 0 (as_ ++ [Step i now]) i = readings 0 as_ i ++ [now].
Proof. intros H. rewrite readings_snoc. cbn [readings Nat.add]. rewrite Nat.eqb_refl, (proj2 (Nat.ltb_lt _ _) H). reflexivity. Qed.
Lemma history M cap as_ : let s := run M as_ (start cap) in
  length (calls s) = length (filter is_trace as_) /\ length (logs s) = cap /\ forall i c, nth_error (calls s) i = Some c -> tells cap as_ i c.
Proof.
  induction as_ as [|a as_ (L & G & IH)] using rev_ind; cbv zeta in *.
  - cbn. split; [reflexivity|]. split; [apply repeat_length|]. intros [|i] c H; discriminate.
  - unfold run in *. rewrite fold_left_app. cbn [fold_left]. set (s := fold_left (fun s a => act M a s) as_ (start cap)) in *.
    rewrite filter_app, app_length. destruct a as [nm ins fl th|i now|]; cbn [act filter is_trace length].
    + cbn [calls logs]. rewrite app_length. cbn [length]. split; [lia|]. split; [exact G|]. intros i c H.
      destruct (Nat.lt_ge_cases i (length (calls s))) as [I|I].
      * rewrite nth_error_app1 in H by exact I. apply tells_stay; auto.
      * rewrite nth_error_app2 in H by exact I. destruct (i - length (calls s)) as [|k] eqn:Ei; [|destruct k; discriminate H]. injection H as <-.
        assert (i = length (filter is_trace as_)) by lia. subst i. split.
        -- exists nm, ins, fl, th. split; [|auto]. unfold nth_trace. rewrite filter_app. rewrite nth_error_app2 by lia. now rewrite Nat.sub_diag.
        -- cbn [at_]. rewrite readings_snoc. cbn [readings]. rewrite app_nil_r.
           assert (Z0 : forall bs n j, n + length (filter is_trace bs) <= j -> readings n bs j = []).
           { clear. induction bs as [|b bs IHb]; intros n j Hj; [reflexivity|]. destruct b as [? ? ? ?|k now|]; cbn [readings filter is_trace length] in *.
             - apply IHb. lia.
             - destruct (Nat.eqb_spec k j) as [->|]; cbn [andb]; [|apply IHb; lia]. destruct (Nat.ltb_spec j n); [lia|apply IHb; lia].
             - apply IHb. lia. }
           apply Z0. lia.
    + rewrite Nat.add_0_r. destruct (nth_error (calls s) i) as [c|] eqn:Ec.
      2: { split; [exact L|]. split; [exact G|]. intros j d Hj. apply tells_stay; auto. cbn [readings].
           destruct (Nat.eqb_spec i j) as [->|]; [congruence|reflexivity]. }
      assert (I : i < length (calls s)) by (apply nth_error_Some; congruence). assert (I2 : i < length (filter is_trace as_)) by lia.
      assert (Key : forall c' ls cn rs, length ls = cap -> tells cap (as_ ++ [Step i now]) i c' ->
        length (calls (State ls cn (upd (calls s) i c') rs)) = length (filter is_trace as_) /\ length (logs (State ls cn (upd (calls s) i c') rs)) = cap /\
        forall j d, nth_error (calls (State ls cn (upd (calls s) i c') rs)) j = Some d -> tells cap (as_ ++ [Step i now]) j d).
      { intros c' ls cn rs Hl Ht. cbn [calls logs]. rewrite upd_length. split; [exact L|]. split; [exact Hl|]. intros j d Hj. destruct (Nat.eq_dec i j) as [<-|N].
        - rewrite upd_same in Hj by exact I. injection Hj as <-. exact Ht.
        - rewrite upd_other in Hj by auto. apply tells_stay; auto. cbn [readings]. now rewrite (proj2 (Nat.eqb_neq i j) N). }
      pose proof (IH i c Ec) as [(nm & ins & fl & th & T & A1 & A2 & A3 & A4) B]. cbv zeta in B.
      pose proof (trace_keep as_ (Step i now) i _ T) as T'. pose proof (step_reading as_ i now I2) as R.
      destruct c as [arg p ix er]. cbn [at_ args index era] in *. destruct p as [| |k| | |].
      * apply Key; [exact G|]. split; [now exists nm, ins, fl, th|]. cbn [at_]. rewrite R, B. reflexivity.
      * destruct (Nat.leb_spec (length (logs s)) ix) as [Lx|Lx].
        -- apply Key; [exact G|]. split; [now exists nm, ins, fl, th|]. cbn [at_ with_pc index args era]. rewrite R, app_length, B. cbn. lia.
        -- apply Key; [exact G|]. split; [now exists nm, ins, fl, th|]. cbn [at_ with_pc index args era]. rewrite R, app_length, B. cbn [length write_order]. split; [reflexivity|]. split; [lia|].
           rewrite nth_error_app2 by lia. rewrite B. split; [reflexivity|lia].
      * destruct B as (B1 & B2 & B3 & B4). destruct (nth_error write_order k) as [f|] eqn:Ef; [|apply nth_error_None in Ef; lia].
        destruct (nth_error (logs s) ix) as [l|] eqn:El; [|apply nth_error_None in El; lia].
        apply Key; [now rewrite upd_length|]. split; [now exists nm, ins, fl, th|]. cbn [with_pc at_ index args era]. rewrite R.
        destruct (Nat.eqb_spec (S k) (length write_order)) as [E|E]; cbn [at_].
        -- cbn [write_order length] in *. split; [rewrite app_length; cbn [length]; lia|]. split; [now apply nth_error_keep|exact B4].
        -- split; [rewrite app_length; cbn [length]; lia|]. split; [cbn [write_order length] in *; lia|]. split; [now apply nth_error_keep|exact B4].
      * destruct B as (B1 & B2 & B3). destruct (nth_error (logs s) ix) as [l|] eqn:El; [|apply nth_error_None in El; lia].
        apply Key; [now rewrite upd_length|]. split; [now exists nm, ins, fl, th|]. cbn [at_ index args era]. rewrite R. right. exists now.
        split; [now apply nth_error_keep|]. split; [|reflexivity]. rewrite nth_error_app2 by lia. now rewrite B1.
      * apply Key; [exact G|]. split; [now exists nm, ins, fl, th|]. cbn [at_ with_pc index args era]. left. apply B.
      * split; [exact L|]. split; [exact G|]. intros j d Hj. destruct (Nat.eq_dec i j) as [<-|N].
        -- rewrite Ec in Hj. injection Hj as <-. split; [now exists nm, ins, fl, th|]. cbn [at_ index args era]. rewrite R.
           destruct B as [B|(e & B1 & B2 & B3)]; [now left|right]. exists e. split; [now apply nth_error_keep|]. split; [now apply nth_error_keep|exact B3].
        -- apply tells_stay; auto. cbn [readings]. now rewrite (proj2 (Nat.eqb_neq i j) N).
    + cbn [calls logs]. rewrite Nat.add_0_r. split; [exact L|]. split; [exact G|]. intros j d Hj. apply tells_stay; auto.
Qed.
