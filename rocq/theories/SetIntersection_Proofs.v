From Verif Require Import Base SetIntersection_Spec SetIntersection_Model.

Section Proofs.
Context {A B K : Type} (comp : K -> K -> bool) (proj1 : A -> K) (proj2 : B -> K).
Hypothesis Hswo : strict_weak_order comp.
Variables (l1 : list A) (l2 : list B).
Hypothesis Hs1 : sorted_by comp proj1 l1.
Hypothesis Hs2 : sorted_by comp proj2 l2.

Notation equiv := (equiv comp).
Notation occ1 := (occurrences comp proj1 l1).
Notation occ2 := (occurrences comp proj2 l2).
Notation partners := (partners comp proj1 proj2 l1 l2).
Notation advance := (advance comp proj1 proj2 l1 l2).
Notation loop := (loop comp proj1 proj2 l1 l2).

Lemma equiv_spec a b : equiv a b = true <-> comp a b = false /\ comp b a = false.
Proof. unfold SetIntersection_Spec.equiv. rewrite andb_true_iff, !negb_true_iff. tauto. Qed.
Lemma equiv_sym a b : equiv a b = equiv b a.
Proof. unfold SetIntersection_Spec.equiv. apply andb_comm. Qed.
Lemma equiv_trans a b c : equiv a b = true -> equiv b c = true -> equiv a c = true.
Proof. rewrite !equiv_spec. intros [H1 H2] [H3 H4].
  split; eapply (swo_weak _ Hswo); eauto. Qed.
Lemma equiv_refl a : equiv a a = true.
Proof. apply equiv_spec. split; apply (swo_irrefl _ Hswo). Qed.
Lemma equiv_cong a b c : equiv a b = true -> equiv a c = equiv b c.
Proof.
  intros H. destruct (equiv b c) eqn:E; [eapply equiv_trans; eauto|].
  destruct (equiv a c) eqn:E2; [|reflexivity].
  rewrite <- E. symmetry. eapply equiv_trans; [|exact E2]. now rewrite equiv_sym.
Qed.

Lemma occ_S {X} (p : X -> K) l n k x : nth_error l n = Some x ->
  occurrences comp p l (S n) k = occurrences comp p l n k + (if equiv k (p x) then 1 else 0).
Proof.
  intros Hx. unfold occurrences.
  assert (E : firstn (S n) l = firstn n l ++ [x]).
  { revert n Hx. induction l as [|y l IH]; intros [|n] Hx; simpl in *; try discriminate.
    - now injection Hx as ->.
    - f_equal. now apply IH. }
  rewrite E, filter_app, app_length. simpl. now destruct (equiv k (p x)).
Qed.

Lemma occ_mono {X} (p : X -> K) l k n m : n <= m ->
  occurrences comp p l n k <= occurrences comp p l m k.
Proof.
  intros H. induction H as [|m H IH]; [lia|].
  destruct (nth_error l m) as [x|] eqn:E.
  - rewrite (occ_S _ _ _ _ _ E). lia.
  - unfold occurrences in *. apply nth_error_None in E.
    rewrite (firstn_all2 l (n := S m)) by lia. rewrite (firstn_all2 l (n := m)) in IH by lia. exact IH.
Qed.

Lemma occ_cong {X} (p : X -> K) l n k k' : equiv k k' = true ->
  occurrences comp p l n k = occurrences comp p l n k'.
Proof.
  intros H. unfold occurrences. f_equal. apply filter_ext. intros x. now apply equiv_cong.
Qed.

(** State invariant: past positions are settled. *)
Definition inv (i j : nat) : Prop :=
  i <= length l1 /\ j <= length l2 /\
  (forall i' j', partners i' j' -> (i' < i /\ j' < j) \/ (i <= i' /\ j <= j')) /\
  (forall i' j' a b, i <= i' -> j <= j' -> nth_error l1 i' = Some a -> nth_error l2 j' = Some b ->
     equiv (proj1 a) (proj2 b) = true -> occ1 i (proj1 a) = occ2 j (proj2 b)).

Lemma inv_0 : inv 0 0.
Proof. split; [lia|]. split; [lia|]. split; [intros i' j' _; right; lia|]. intros; reflexivity. Qed.

Lemma sorted1 i i' a a' : i <= i' -> nth_error l1 i = Some a -> nth_error l1 i' = Some a' ->
  comp (proj1 a') (proj1 a) = false.
Proof.
  intros H Ha Ha'. destruct (Nat.eq_dec i i') as [->|N].
  - assert (a = a') by congruence. subst. apply (swo_irrefl _ Hswo).
  - eapply (Hs1 i i'); eauto; lia.
Qed.
Lemma sorted2 i i' a a' : i <= i' -> nth_error l2 i = Some a -> nth_error l2 i' = Some a' ->
  comp (proj2 a') (proj2 a) = false.
Proof.
  intros H Ha Ha'. destruct (Nat.eq_dec i i') as [->|N].
  - assert (a = a') by congruence. subst. apply (swo_irrefl _ Hswo).
  - eapply (Hs2 i i'); eauto; lia.
Qed.

Lemma lt_le_trans a b c : comp a b = true -> comp c b = false -> comp a c = true.
Proof. intros H1 H2. destruct (comp a c) eqn:E; [reflexivity|].
  rewrite <- H1. symmetry. eapply (swo_weak _ Hswo); eauto. Qed.

Lemma inv_step1 i j a b : inv i j -> nth_error l1 i = Some a -> nth_error l2 j = Some b ->
  comp (proj1 a) (proj2 b) = true -> inv (S i) j.
Proof.
  intros (Hi & Hj & Hp & Hc) Ha Hb Hlt.
  assert (Hno : forall j' b', j <= j' -> nth_error l2 j' = Some b' -> comp (proj1 a) (proj2 b') = true).
  { intros j' b' Hj' Hb'. eapply lt_le_trans; [exact Hlt|]. eapply sorted2; eauto. }
  split; [|split; [|split]]; auto.
  - apply nth_error_Some. congruence.
  - intros i' j' HP. destruct (Hp _ _ HP) as [H|[H1 H2]]; [left; lia|].
    destruct (Nat.eq_dec i i') as [->|N]; [|right; lia]. exfalso.
    destruct HP as (a' & b' & Ha' & Hb' & He & _). assert (a' = a) by congruence; subst a'.
    apply equiv_spec in He as [He _]. rewrite (Hno _ _ H2 Hb') in He. discriminate.
  - intros i' j' a' b' Hi' Hj' Ha' Hb' He.
    rewrite (occ_S _ _ _ _ _ Ha). rewrite (Hc i' j' a' b') by (auto; lia).
    destruct (equiv (proj1 a') (proj1 a)) eqn:E; [|lia]. exfalso.
    rewrite equiv_sym in E. pose proof (equiv_trans _ _ _ E He) as H.
    apply equiv_spec in H as [H _]. rewrite (Hno _ _ Hj' Hb') in H. discriminate.
Qed.

Lemma inv_step2 i j a b : inv i j -> nth_error l1 i = Some a -> nth_error l2 j = Some b ->
  comp (proj2 b) (proj1 a) = true -> inv i (S j).
Proof.
  intros (Hi & Hj & Hp & Hc) Ha Hb Hlt.
  assert (Hno : forall i' a', i <= i' -> nth_error l1 i' = Some a' -> comp (proj2 b) (proj1 a') = true).
  { intros i' a' Hi' Ha'. eapply lt_le_trans; [exact Hlt|]. eapply sorted1; eauto. }
  split; [|split; [|split]]; auto.
  - apply nth_error_Some. congruence.
  - intros i' j' HP. destruct (Hp _ _ HP) as [H|[H1 H2]]; [left; lia|].
    destruct (Nat.eq_dec j j') as [->|N]; [|right; lia]. exfalso.
    destruct HP as (a' & b' & Ha' & Hb' & He & _). assert (b' = b) by congruence; subst b'.
    apply equiv_spec in He as [_ He]. rewrite (Hno _ _ H1 Ha') in He. discriminate.
  - intros i' j' a' b' Hi' Hj' Ha' Hb' He.
    rewrite (occ_S _ _ _ _ _ Hb). rewrite (Hc i' j' a' b') by (auto; lia).
    destruct (equiv (proj2 b') (proj2 b)) eqn:E; [|lia]. exfalso.
    rewrite equiv_sym in E, He. pose proof (equiv_trans _ _ _ E He) as H.
    apply equiv_spec in H as [H _]. rewrite (Hno _ _ Hi' Ha') in H. discriminate.
Qed.

Lemma inv_partner i j a b : inv i j -> nth_error l1 i = Some a -> nth_error l2 j = Some b ->
  comp (proj1 a) (proj2 b) = false -> comp (proj2 b) (proj1 a) = false -> partners i j.
Proof.
  intros (Hi & Hj & Hp & Hc) Ha Hb H1 H2. exists a, b. repeat split; auto.
  - now apply equiv_spec.
  - apply (Hc i j); auto. now apply equiv_spec.
Qed.

Lemma inv_both i j : inv i j -> partners i j -> inv (S i) (S j).
Proof.
  intros (Hi & Hj & Hp & Hc) (a & b & Ha & Hb & He & Ho).
  split; [|split; [|split]].
  - apply nth_error_Some. congruence.
  - apply nth_error_Some. congruence.
  - intros i' j' HP. destruct (Hp _ _ HP) as [H|[H1 H2]]; [left; lia|].
    destruct HP as (a' & b' & Ha' & Hb' & He' & Ho').
    destruct (Nat.eq_dec i i') as [->|N1]; destruct (Nat.eq_dec j j') as [->|N2];
      try (left; lia); try (right; lia); exfalso.
    + assert (a' = a) by congruence; subst a'.
      assert (Hbb : equiv (proj2 b') (proj2 b) = true).
      { rewrite equiv_sym. rewrite equiv_sym in He. eapply equiv_trans; eauto. }
      pose proof (occ_mono proj2 l2 (proj2 b') (S j) j' ltac:(lia)) as Hm.
      rewrite (occ_S _ _ _ _ _ Hb), Hbb in Hm.
      rewrite (occ_cong _ _ j _ _ Hbb) in Hm. lia.
    + assert (b' = b) by congruence; subst b'.
      assert (Haa : equiv (proj1 a') (proj1 a) = true).
      { rewrite equiv_sym in He. eapply equiv_trans; eauto. }
      pose proof (occ_mono proj1 l1 (proj1 a') (S i) i' ltac:(lia)) as Hm.
      rewrite (occ_S _ _ _ _ _ Ha), Haa in Hm.
      rewrite (occ_cong _ _ i _ _ Haa) in Hm. lia.
  - intros i' j' a' b' Hi' Hj' Ha' Hb' He'.
    rewrite (occ_S _ _ _ _ _ Ha), (occ_S _ _ _ _ _ Hb).
    rewrite (Hc i' j' a' b') by (auto; lia). f_equal.
    rewrite (equiv_cong (proj1 a') (proj2 b')) by assumption.
    rewrite (equiv_sym (proj2 b') (proj1 a)), (equiv_sym (proj2 b') (proj2 b)).
    now rewrite (equiv_cong (proj1 a) (proj2 b)) by assumption.
Qed.

Definition at_end (i j : nat) : Prop := i = length l1 \/ j = length l2.

Lemma not_end_spec i j : i <= length l1 -> j <= length l2 ->
  if not_end l1 l2 (i, j) then i < length l1 /\ j < length l2 else at_end i j.
Proof.
  intros Hi Hj. unfold not_end, at_end; simpl.
  destruct (Nat.eqb_spec i (length l1)); destruct (Nat.eqb_spec j (length l2)); simpl; lia.
Qed.

Lemma advance_ok fuel : forall i j, inv i j -> (length l1 - i) + (length l2 - j) <= fuel ->
  exists i' j', advance fuel (i, j) = Ok (Some (i', j')) /\ i <= i' /\ j <= j' /\ inv i' j' /\
    (at_end i' j' \/ (i' < length l1 /\ j' < length l2 /\ partners i' j')) /\
    (forall p q, partners p q -> i <= p -> j <= q -> i' <= p /\ j' <= q).
Proof.
  induction fuel as [|fuel IH]; intros i j Hinv Hf; pose proof Hinv as (Hi & Hj & _);
    pose proof (not_end_spec i j Hi Hj) as Hne;
    cbn [SetIntersection_Model.advance]; destruct (not_end l1 l2 (i, j)).
  - lia.
  - exists i, j. split; [reflexivity|]. auto 10.
  - destruct Hne as [H1 H2]. unfold deref1, deref2; cbn [fst snd].
    destruct (nth_error l1 i) as [a|] eqn:Ha; [|apply nth_error_None in Ha; lia].
    destruct (nth_error l2 j) as [b|] eqn:Hb; [|apply nth_error_None in Hb; lia].
    cbn [bind]. destruct (comp (proj1 a) (proj2 b)) eqn:E1.
    + pose proof (inv_step1 _ _ _ _ Hinv Ha Hb E1) as Hinv1.
      destruct (IH (S i) j Hinv1) as (i' & j' & H & ? & ? & ? & ? & Hskip); [lia|].
      exists i', j'. split; [exact H|]. split; [lia|]. split; [lia|]. split; [auto|]. split; [auto|].
      intros p q HP Hpi Hqj. apply Hskip; auto. destruct Hinv1 as (_ & _ & Hp1 & _).
      destruct (Hp1 _ _ HP); lia.
    + destruct (comp (proj2 b) (proj1 a)) eqn:E2.
      * pose proof (inv_step2 _ _ _ _ Hinv Ha Hb E2) as Hinv1.
        destruct (IH i (S j) Hinv1) as (i' & j' & H & ? & ? & ? & ? & Hskip); [lia|].
        exists i', j'. split; [exact H|]. split; [lia|]. split; [lia|]. split; [auto|]. split; [auto|].
        intros p q HP Hpi Hqj. apply Hskip; auto. destruct Hinv1 as (_ & _ & Hp1 & _).
        destruct (Hp1 _ _ HP); lia.
      * exists i, j. split; [reflexivity|]. split; [lia|]. split; [lia|]. split; [auto|].
        split; [|auto].
        right. split; [lia|]. split; [lia|]. eapply inv_partner; eauto.
  - exists i, j. split; [reflexivity|]. auto 10.
Qed.

Definition below (p q : nat * nat) : Prop := fst p < fst q /\ snd p < snd q.

Lemma loop_ok fuel : forall i j, inv i j ->
  at_end i j \/ (i < length l1 /\ j < length l2 /\ partners i j) ->
  (length l1 - i) + (length l2 - j) < fuel ->
  exists out, loop fuel (i, j) = Ok (Some out) /\
    (forall i' j', In (i', j') (map fst out) <-> (i <= i' /\ partners i' j')) /\
    StronglySorted below (map fst out) /\
    Forall (fun p => i <= fst p /\ j <= snd p) (map fst out) /\
    (forall i' j' x, In (i', j', x) out ->
       nth_error l1 i' = Some (fst x) /\ nth_error l2 j' = Some (snd x)).
Proof.
  induction fuel as [|fuel IH]; intros i j Hinv Hat Hf; [lia|].
  pose proof Hinv as (Hi & Hj & Hp & _). pose proof (not_end_spec i j Hi Hj) as Hne.
  cbn [SetIntersection_Model.loop]. destruct (not_end l1 l2 (i, j)).
  - destruct Hne as [H1 H2]. destruct Hat as [[E|E]|(_ & _ & HP)]; [lia|lia|].
    unfold deref, deref1, deref2; cbn [fst snd].
    destruct (nth_error l1 i) as [a|] eqn:Ha; [|apply nth_error_None in Ha; lia].
    destruct (nth_error l2 j) as [b|] eqn:Hb; [|apply nth_error_None in Hb; lia].
    cbn [bind]. unfold incr; cbn [fst snd].
    pose proof (inv_both _ _ Hinv HP) as Hinv'.
    destruct (advance_ok (S fuel) (S i) (S j) Hinv' ltac:(lia)) as (i2 & j2 & Hadv & Hi2 & Hj2 & Hinv2 & Hat2 & Hskip).
    rewrite Hadv. cbn [bind].
    destruct (IH i2 j2 Hinv2 Hat2 ltac:(lia)) as (out & Hout & Hiff & Hsort & Hall & Hval).
    rewrite Hout. cbn [bind option_map].
    exists ((i, j, (a, b)) :: out). split; [reflexivity|]. cbn [map fst].
    split; [|split; [|split]].
    + intros i' j'. split.
      * intros [[= <- <-]|Hin]; [auto|]. apply Hiff in Hin as [Hle HP']. split; [lia|auto].
      * intros [Hle HP']. destruct Hinv2 as (_ & _ & Hp2 & _).
        destruct (Hp2 _ _ HP') as [[Hl1 Hl2]|[Hge _]]; [|right; apply Hiff; auto].
        left. (* i <= i' < i2 : only (i,j) *)
        destruct Hinv' as (_ & _ & Hp1 & _).
        destruct (Hp1 _ _ HP') as [[Hl1' Hl2']|[Hge1 Hge2]].
        -- destruct (Hp _ _ HP') as [[? ?]|[? ?]]; [lia|]. f_equal; lia.
        -- destruct (Hskip _ _ HP' Hge1 Hge2). lia.
    + constructor; [exact Hsort|]. eapply Forall_impl; [|exact Hall].
      intros p [? ?]. unfold below; simpl; lia.
    + constructor; [simpl; lia|]. eapply Forall_impl; [|exact Hall]. simpl. intros p [? ?]. lia.
    + intros i' j' x [[= <- <- <-]|Hin]; auto.
  - exists []. split; [reflexivity|]. split; [|split; [constructor|split; [constructor|intros ? ? ? []]]].
    intros i' j'. split; [intros []|]. intros [Hle HP']. destruct Hne as [E|E].
    + destruct HP' as (a & b & Ha & _). assert (nth_error l1 i' <> None) by congruence.
      apply nth_error_Some in H. lia.
    + destruct (Hp _ _ HP') as [[? ?]|[? ?]]; [lia|].
      destruct HP' as (a & b & _ & Hb & _). assert (nth_error l2 j' <> None) by congruence.
      apply nth_error_Some in H1. lia.
Qed.

Lemma for_each_ok fuel : length l1 + length l2 < fuel ->
  exists out, for_each comp proj1 proj2 l1 l2 fuel = Ok (Some out) /\
    (forall i j, In (i, j) (map fst out) <-> partners i j) /\
    StronglySorted below (map fst out) /\
    (forall i j a b, In (i, j, (a, b)) out -> nth_error l1 i = Some a /\ nth_error l2 j = Some b).
Proof.
  intros Hf. unfold for_each, begin.
  destruct (advance_ok fuel 0 0 inv_0 ltac:(lia)) as (i & j & Hadv & _ & _ & Hinv & Hat & Hskip).
  rewrite Hadv. cbn [bind].
  destruct (loop_ok fuel i j Hinv Hat ltac:(lia)) as (out & Hout & Hiff & Hsort & _ & Hval).
  exists out. split; [exact Hout|]. split; [|split; [exact Hsort|]].
  - intros i' j'. rewrite Hiff. split; [tauto|]. intros HP. split; [|assumption].
    destruct (Hskip _ _ HP); lia.
  - intros i' j' a b Hin. apply (Hval i' j' (a, b) Hin).
Qed.
End Proofs.
