(** Proofs of C67. *)
From Verif Require Import Base ConverterCopy_Spec ConverterCopy_Model.
Local Arguments Nat.eqb : simpl never.

Lemma set_same {A} (m : nat -> A) i x : set m i x i = x. Proof. unfold set. now rewrite Nat.eqb_refl. Qed.
Lemma set_other {A} (m : nat -> A) i j x : j <> i -> set m i x j = m j.
Proof. intros H. unfold set. now rewrite (proj2 (Nat.eqb_neq _ _)). Qed.

Lemma alloc_spec bufs : forall h n h' n' ids, alloc h n bufs = (h', n', ids) ->
  n' = n + length bufs /\ ids = seq n (length bufs) /\ (forall b, b < n -> h' b = h b) /\
  forall k b, nth_error bufs k = Some b -> h' (n + k) = Some b.
Proof.
  induction bufs as [|b bs IH]; intros h n h' n' ids E; cbn in E.
  - injection E as <- <- <-. cbn. repeat split; auto. intros [|k] ? ?; discriminate.
  - destruct (alloc (set h n (Some b)) (S n) bs) as [[h1 n1] ids1] eqn:E1. injection E as <- <- <-.
    destruct (IH _ _ _ _ _ E1) as (-> & -> & H1 & H2). cbn. repeat split; [lia| |].
    + intros c Hc. rewrite H1 by lia. apply set_other. lia.
    + intros [|k] c Hk; cbn in Hk.
      * injection Hk as ->. rewrite Nat.add_0_r, H1 by lia. apply set_same.
      * replace (n + S k) with (S n + k) by lia. auto.
Qed.
Lemma release_other ids : forall h b, ~ In b ids -> release h ids b = h b.
Proof.
  induction ids as [|i is IH]; intros h b Hb; cbn; auto. rewrite IH by (intros H; apply Hb; now right).
  apply set_other. intros ->. apply Hb. now left.
Qed.
Lemma deref_all_ext ext h h' ps : (forall b, In (Own b) ps -> h' b = h b) -> deref_all ext h' ps = deref_all ext h ps.
Proof.
  induction ps as [|p ps IH]; intros H; auto. cbn. rewrite IH by (intros; apply H; now right).
  assert (E : deref ext h' p = deref ext h p) by (destruct p as [b|n]; cbn; auto; rewrite H by (now left); auto). now rewrite E.
Qed.
Lemma deref_all_app ext h ps qs vs us : deref_all ext h ps = Ok vs -> deref_all ext h qs = Ok us -> deref_all ext h (ps ++ qs) = Ok (vs ++ us).
Proof.
  revert vs. induction ps as [|p ps IH]; intros vs Hp Hq; cbn in *.
  - injection Hp as <-. exact Hq.
  - destruct (deref ext h p); try discriminate. destruct (deref_all ext h ps); try discriminate. injection Hp as <-. now rewrite (IH _ eq_refl Hq).
Qed.
Lemma deref_exts ext h e : deref_all ext h (map Ext e) = Ok (map ext e).
Proof. induction e as [|n e IH]; cbn; auto. now rewrite IH. Qed.
Lemma deref_fresh ext h n bufs : (forall k b, nth_error bufs k = Some b -> h (n + k) = Some b) ->
  deref_all ext h (map Own (seq n (length bufs))) = Ok bufs.
Proof.
  revert n. induction bufs as [|b bs IH]; intros n H; cbn; auto.
  rewrite <- (Nat.add_0_r n) at 1. rewrite (H 0 b eq_refl), IH; auto. intros k c Hk. replace (S n + k) with (n + S k) by lia. apply (H (S k)). exact Hk.
Qed.
Lemma deref_live ext h ps vs b : deref_all ext h ps = Ok vs -> In (Own b) ps -> h b <> None.
Proof.
  revert vs. induction ps as [|p ps IH]; intros vs H []; cbn in H.
  - subst p. cbn in H. destruct (h b); congruence.
  - destruct (deref ext h p); try discriminate. destruct (deref_all ext h ps); try discriminate. eauto.
Qed.

(** Variable states agree. *)
Definition agrees (w : world) (m : nat -> var) (ext : nat -> list Z) (i : nat) : Prop :=
  match m i with
  | Free => vars w i = None
  | MovedFrom => exists s, vars w i = Some s /\ dead w i = true /\ vecs s = []
  | Value v => exists s, vars w i = Some s /\ dead w i = false /\ deref_all ext (heap w) (spans s) = Ok v
  end.
Definition bounded (w : world) : Prop :=
  forall i s, vars w i = Some s -> (forall b, In b (vecs s) -> b < next w) /\ (dead w i = false -> forall b, In (Own b) (spans s) -> b < next w).
(** Converters only point into their own vectors, and share none. *)
Definition separate (w : world) : Prop :=
  (forall i s b, vars w i = Some s -> dead w i = false -> In (Own b) (spans s) -> In b (vecs s)) /\
  (forall i j s t b, vars w i = Some s -> vars w j = Some t -> In b (vecs s) -> In b (vecs t) -> i = j).

Definition keeps (o : op) : Prop := match o with Destroy _ | MoveAssign _ _ => False | _ => True end.
Definition no_copy (o : op) : Prop := match o with CopyTo _ _ => False | _ => True end.

Ltac cases := repeat match goal with
  | |- context [Nat.eqb ?a ?b] => destruct (Nat.eqb_spec a b); subst
  | H : context [Nat.eqb ?a ?b] |- _ => destruct (Nat.eqb_spec a b); subst
  end.

Section Main.
Context (ext : nat -> list Z).
Definition inv (w : world) (m : nat -> var) : Prop := (forall i, agrees w m ext i) /\ bounded w.

(** A fresh object in variable i; the others are untouched. *)
Lemma put_fresh w m i own sp v : inv w m -> m i = Free ->
  let '(h, n, ids) := alloc (heap w) (next w) own in
  (forall b, In (Own b) sp -> b < n) -> deref_all ext h sp = Ok v ->
  inv (World h n (set (vars w) i (Some (Obj ids sp))) (set (dead w) i false)) (set m i (Value v)).
Proof.
  intros [Ha Hb] Hi. destruct (alloc (heap w) (next w) own) as [[h n] ids] eqn:E.
  destruct (alloc_spec _ _ _ _ _ _ E) as (-> & -> & H1 & H2). intros Hsp Hd.
  assert (Hne : forall k s, vars w k = Some s -> k <> i).
  { intros k s Hk ->. specialize (Ha i). unfold agrees in Ha. rewrite Hi in Ha. congruence. }
  split.
  - intros k. unfold agrees. destruct (Nat.eq_dec k i) as [->|N]; cbn [vars dead heap].
    + rewrite !set_same. exists (Obj (seq (next w) (length own)) sp). auto.
    + rewrite !set_other by auto. specialize (Ha k). unfold agrees in Ha. destruct (m k) as [| |v']; auto.
      destruct Ha as (s & Hk & Hdk & Hv). exists s. split; auto. split; auto. rewrite <- Hv. apply deref_all_ext.
      intros b Hbs. apply H1. destruct (Hb k s Hk) as [_ B]. now apply B.
  - intros k s Hk. cbn [vars dead heap next] in *. destruct (Nat.eq_dec k i) as [->|N].
    + rewrite set_same in Hk. injection Hk as <-. cbn. split; [intros b Hin; apply in_seq in Hin; lia|auto].
    + rewrite set_other in Hk by auto. rewrite set_other by auto. destruct (Hb k s Hk) as [B1 B2]. split; [intros b Hin; specialize (B1 b Hin); lia|].
      intros Hdk b Hin. specialize (B2 Hdk b Hin). lia.
Qed.
Lemma fresh_separate w i own sp : bounded w -> separate w ->
  let '(h, n, ids) := alloc (heap w) (next w) own in
  (forall b, In (Own b) sp -> In b ids) -> separate (World h n (set (vars w) i (Some (Obj ids sp))) (set (dead w) i false)).
Proof.
  intros Hb [S1 S2]. destruct (alloc (heap w) (next w) own) as [[h n] ids] eqn:E.
  destruct (alloc_spec _ _ _ _ _ _ E) as (-> & -> & _ & _). intros Hsp. split; cbn [vars dead].
  - intros k s b Hk Hd Hin. destruct (Nat.eq_dec k i) as [->|N].
    + rewrite set_same in Hk. injection Hk as <-. cbn in *. auto.
    + rewrite set_other in Hk by auto. rewrite set_other in Hd by auto. eauto.
  - intros k l s t b Hk Hl H1 H2. destruct (Nat.eq_dec k i) as [->|N], (Nat.eq_dec l i) as [->|N']; auto;
      repeat first [rewrite set_same in Hk|rewrite set_other in Hk by auto|rewrite set_same in Hl|rewrite set_other in Hl by auto].
    + injection Hk as <-. cbn in H1. apply in_seq in H1. destruct (Hb l t Hl) as [B _]. specialize (B b H2). lia.
    + injection Hl as <-. cbn in H2. apply in_seq in H2. destruct (Hb k s Hk) as [B _]. specialize (B b H1). lia.
    + eauto.
Qed.
(** Variable i takes over the object of j. *)
Lemma move_inv w m i j s v h : inv w m -> i <> j -> m j = Value v -> vars w j = Some s ->
  (forall k t b, k <> i -> vars w k = Some t -> dead w k = false -> In (Own b) (spans t) -> h b = heap w b) ->
  inv (World h (next w) (set (set (vars w) i (Some s)) j (Some (Obj [] (spans s)))) (set (set (dead w) i false) j true)) (set (set m i (Value v)) j MovedFrom).
Proof.
  intros [Ha Hb] Hij Hmj Hj Hh.
  assert (Hs : dead w j = false /\ deref_all ext (heap w) (spans s) = Ok v).
  { specialize (Ha j). unfold agrees in Ha. rewrite Hmj in Ha. destruct Ha as (s' & E & D & R). rewrite Hj in E. injection E as <-. auto. }
  destruct Hs as [Dj Rj]. split.
  - intros k. unfold agrees. cbn [vars dead heap]. destruct (Nat.eq_dec k j) as [->|N]; [rewrite !set_same; eexists; split; [reflexivity|split; reflexivity]|].
    rewrite !(set_other _ j) by auto. destruct (Nat.eq_dec k i) as [->|N'].
    + rewrite !set_same. exists s. split; auto. split; auto. rewrite <- Rj. apply deref_all_ext. intros b Hin. now apply (Hh j s b); auto.
    + rewrite !set_other by auto. specialize (Ha k). unfold agrees in Ha. destruct (m k) as [| |v']; auto. destruct Ha as (t & E & D & R).
      exists t. split; auto. split; auto. rewrite <- R. apply deref_all_ext. intros b Hin. now apply (Hh k t b).
  - intros k t Hk. cbn [vars dead next] in *. destruct (Nat.eq_dec k j) as [->|N].
    + rewrite set_same in Hk. injection Hk as <-. rewrite set_same. split; [intros b []|discriminate].
    + rewrite (set_other _ j) in Hk by auto. rewrite (set_other _ j) by auto. destruct (Nat.eq_dec k i) as [->|N'].
      * rewrite set_same in Hk. injection Hk as <-. rewrite set_same. destruct (Hb j s Hj) as [B1 B2]. auto.
      * rewrite set_other in Hk by auto. rewrite set_other by auto. exact (Hb k t Hk).
Qed.
Lemma move_separate w i j s h : separate w -> i <> j -> vars w j = Some s -> dead w j = false ->
  separate (World h (next w) (set (set (vars w) i (Some s)) j (Some (Obj [] (spans s)))) (set (set (dead w) i false) j true)).
Proof.
  intros [S1 S2] Hij Hj Hd. split; cbn [vars dead].
  - intros k t b Hk Hdk Hin. destruct (Nat.eq_dec k j) as [->|N]; [rewrite set_same in Hdk; discriminate|].
    rewrite (set_other _ j) in Hk by auto. rewrite (set_other _ j) in Hdk by auto. destruct (Nat.eq_dec k i) as [->|N'].
    + rewrite set_same in Hk. injection Hk as <-. eauto.
    + rewrite set_other in Hk by auto. rewrite set_other in Hdk by auto. eauto.
  - intros k l t u b Hk Hl H1 H2.
    destruct (Nat.eq_dec k j) as [->|Nk]; [rewrite set_same in Hk; injection Hk as <-; destruct H1|].
    destruct (Nat.eq_dec l j) as [->|Nl]; [rewrite set_same in Hl; injection Hl as <-; destruct H2|].
    rewrite (set_other _ j) in Hk by auto. rewrite (set_other _ j) in Hl by auto.
    destruct (Nat.eq_dec k i) as [->|Mk], (Nat.eq_dec l i) as [->|Ml]; auto;
      repeat first [rewrite set_same in Hk|rewrite set_other in Hk by auto|rewrite set_same in Hl|rewrite set_other in Hl by auto].
    + injection Hk as <-. destruct Nl. eapply S2; eauto.
    + injection Hl as <-. destruct Nk. eapply S2; eauto.
    + eauto.
Qed.

Lemma step_ok o w m : inv w m -> (keeps o \/ (no_copy o /\ separate w)) ->
  snd (step ext w o) = option_map Ok (snd (spec_step ext m o)) /\ inv (fst (step ext w o)) (fst (spec_step ext m o)) /\
  (no_copy o -> separate w -> separate (fst (step ext w o))).
Proof.
  intros Hi Hc. pose proof Hi as [Ha Hb]. destruct o as [i own e|i j|i j|i j|i|i]; cbn [step spec_step].
  - pose proof (Ha i) as Hai. unfold agrees in Hai. destruct (m i) eqn:Em.
    + rewrite Hai. pose proof (put_fresh w m i own) as P. pose proof (fresh_separate w i own) as Q.
      destruct (alloc (heap w) (next w) own) as [[h n] ids] eqn:E. destruct (alloc_spec _ _ _ _ _ _ E) as (-> & -> & H1 & H2).
      cbn [fst snd option_map]. split; [reflexivity|]. split.
      * apply P; auto.
        { intros b Hin. apply in_app_or in Hin. destruct Hin as [Hin|Hin]; apply in_map_iff in Hin; destruct Hin as (x & Ex & Hin); [|discriminate]. injection Ex as ->. apply in_seq in Hin. lia. }
        { apply deref_all_app; [now apply deref_fresh|apply deref_exts]. }
      * intros _ Hsep. apply Q; auto. intros b Hin. apply in_app_or in Hin. destruct Hin as [Hin|Hin]; apply in_map_iff in Hin; destruct Hin as (x & Ex & Hin); [congruence|discriminate].
    + destruct Hai as (s & -> & _). cbn. auto.
    + destruct Hai as (s & -> & _). cbn. auto.
  - pose proof (Ha i) as Hai. unfold agrees in Hai. pose proof (Ha j) as Haj. unfold agrees in Haj. destruct (m i) eqn:Em.
    2,3: destruct Hai as (s & -> & _); cbn; auto.
    rewrite Hai. destruct (m j) as [| |v] eqn:Ej.
    + rewrite Haj. cbn. auto.
    + destruct Haj as (s & -> & -> & _). cbn. auto.
    + destruct Haj as (s & Hj & Hd & Hv). rewrite Hj, Hd.
      pose proof (put_fresh w m i (map (contents (heap w)) (vecs s)) (spans s) v Hi Em) as P.
      destruct (alloc (heap w) (next w) _) as [[h n] ids] eqn:E. destruct (alloc_spec _ _ _ _ _ _ E) as (Hn & _ & H1 & H2).
      cbn [fst snd option_map]. split; [reflexivity|]. split; [|intros []]. destruct (Hb j s Hj) as [_ B].
      apply P; [intros b Hin; specialize (B Hd b Hin); lia|]. rewrite <- Hv. apply deref_all_ext. intros b Hin. apply H1. auto.
  - pose proof (Ha i) as Hai. unfold agrees in Hai. pose proof (Ha j) as Haj. unfold agrees in Haj. destruct (m i) eqn:Em.
    2,3: destruct Hai as (s & -> & _); cbn; auto.
    rewrite Hai. destruct (m j) as [| |v] eqn:Ej.
    + rewrite Haj. cbn. auto.
    + destruct Haj as (s & -> & -> & _). cbn. auto.
    + destruct Haj as (s & Hj & Hd & Hv). rewrite Hj, Hd. cbn [fst snd option_map]. assert (i <> j) by congruence.
      split; [reflexivity|]. split; [now apply move_inv|intros _ Hsep; now apply move_separate].
  - pose proof (Ha i) as Hai. unfold agrees in Hai. pose proof (Ha j) as Haj. unfold agrees in Haj.
    destruct Hc as [[]|[_ Hsep]].
    assert (Hcase : (m i = Free /\ vars w i = None) \/ (m i <> Free /\ exists t, vars w i = Some t)).
    { destruct (m i); [left; auto|right; split; [discriminate|]..]; destruct Hai as (t & -> & _); eauto. }
    destruct Hcase as [[-> ->]|[Hnf (t & Ht)]]; [cbn; auto|]. rewrite Ht.
    assert (Hm : forall A (x y : A), match m i with Free => x | _ => y end = y) by (intros; destruct (m i); congruence).
    destruct (m j) as [| |v] eqn:Ej.
    + rewrite Haj. destruct (m i); cbn; auto.
    + destruct Haj as (s & -> & -> & _). destruct (m i); cbn; auto.
    + destruct Haj as (s & Hj & Hd & Hv). rewrite Hj, Hd.
      destruct (Nat.eqb_spec i j) as [->|Hij]; [destruct (m j); cbn; auto|].
      rewrite Hm. cbn [fst snd option_map]. split; [reflexivity|]. split; [|intros _ _; now apply move_separate].
      apply move_inv; auto. intros k u b Hk Hu Hdu Hin. apply release_other. intros Hbt. destruct Hsep as [S1 S2].
      apply Hk. eapply S2; [exact Hu|exact Ht| |exact Hbt]. eapply S1; eauto.
  - pose proof (Ha i) as Hai. unfold agrees in Hai. destruct Hc as [[]|[_ [S1 S2]]].
    assert (Hcase : (m i = Free /\ vars w i = None) \/ (m i <> Free /\ exists t, vars w i = Some t)).
    { destruct (m i); [left; auto|right; split; [discriminate|]..]; destruct Hai as (t & -> & _); eauto. }
    destruct Hcase as [[-> ->]|[Hnf (t & Ht)]]; [cbn; auto|]. rewrite Ht.
    assert (Hm : forall A (x y : A), match m i with Free => x | _ => y end = y) by (intros; destruct (m i); congruence).
    rewrite Hm. cbn [fst snd option_map]. split; [reflexivity|]. split; [split|intros _ _; split]; cbn [vars dead heap next].
    + intros k. unfold agrees. cbn [vars dead heap]. destruct (Nat.eq_dec k i) as [->|N]; [now rewrite !set_same|]. rewrite !set_other by auto.
      specialize (Ha k). unfold agrees in Ha. destruct (m k); auto. destruct Ha as (u & E & D & R). exists u. split; auto. split; auto.
      rewrite <- R. apply deref_all_ext. intros b Hin. apply release_other. intros Hbt. apply N. eapply S2; eauto.
    + intros k u Hk. cbn [vars dead next] in *. destruct (Nat.eq_dec k i) as [->|N]; [rewrite set_same in Hk; discriminate|].
      rewrite set_other in Hk by auto. rewrite set_other by auto. exact (Hb k u Hk).
    + intros k u b Hk Hd Hin. destruct (Nat.eq_dec k i) as [->|N]; [rewrite set_same in Hk; discriminate|]. rewrite set_other in Hk by auto. rewrite set_other in Hd by auto. eauto.
    + intros k l u x b Hk Hl H1 H2. destruct (Nat.eq_dec k i) as [->|N]; [rewrite set_same in Hk; discriminate|].
      destruct (Nat.eq_dec l i) as [->|N']; [rewrite set_same in Hl; discriminate|]. rewrite set_other in Hk by auto. rewrite set_other in Hl by auto. eauto.
  - pose proof (Ha i) as Hai. unfold agrees in Hai. destruct (m i) as [| |v].
    + rewrite Hai. cbn. auto.
    + destruct Hai as (s & -> & -> & _). cbn. auto.
    + destruct Hai as (s & -> & -> & ->). cbn. auto.
Qed.
Lemma run_ok ops : forall w m, inv w m -> (Forall keeps ops \/ (Forall no_copy ops /\ separate w)) ->
  run ext w ops = map (option_map Ok) (spec_run ext m ops).
Proof.
  induction ops as [|o ops IH]; intros w m Hi H; [reflexivity|]. cbn [run spec_run].
  destruct (step_ok o w m Hi) as (E & Hi' & Hsep).
  { destruct H as [H|[H Hs]]; inversion H; auto. }
  destruct (step ext w o) as [w' r], (spec_step ext m o) as [m' r']. cbn [fst snd] in *. subst r. cbn [map]. f_equal. apply IH; auto.
  destruct H as [H|[H Hs]]; inversion H; auto.
Qed.
Lemma start_inv : inv start (fun _ => Free).
Proof. split; [intros i; reflexivity|intros i s Hs; discriminate]. Qed.
Lemma start_separate : separate start.
Proof. split; intros; discriminate. Qed.
End Main.

