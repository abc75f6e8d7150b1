(** TraceLogger with resets at any moment: the invariant for one slot [k] that no trace holds across a reset. *)
From Verif Require Import Base Trace_Model Trace_Spec Trace_Proofs.
Local Arguments Nat.eqb : simpl never.
Local Arguments Nat.ltb : simpl never.
Local Arguments Nat.leb : simpl never.
Local Arguments Nat.modulo : simpl never.

(** Nothing but begun or ended traces has slot [k]. *)
Definition clear (k : nat) (s : state) : Prop :=
  forall i c, nth_error (calls s) i = Some c -> index c = k -> match at_ c with Begin | Closed => True | _ => False end.
(** ... at every reset. *)
Definition clear_resets (M cap k : nat) (as_ : list action) : Prop :=
  forall pre post, as_ = pre ++ Reset :: post -> clear k (run M pre (start cap)).

Record sinv (K : nat -> Prop) (M : nat) (cap n : nat) (s : state) : Prop := {
  i_len : length (logs s) = cap;
  i_nodup : NoDup (tickets s);
  i_lt : forall t, In t (tickets s) -> t < count s;
  i_cnt : length (tickets s) = count s;
  i_n : count s <= n;
  i_old : forall i c, nth_error (calls s) i = Some c -> K (index c) -> at_ c <> Begin -> era c <> resets s -> at_ c = Closed;
  i_era : forall i c, nth_error (calls s) i = Some c -> at_ c <> Begin -> era c <= resets s;
  i_write : forall i c k, nth_error (calls s) i = Some c -> at_ c = Write k -> k < 5 /\ index c < cap;
  i_open : forall i c, nth_error (calls s) i = Some c -> at_ c = Open -> index c < cap;
  i_null : forall i c, nth_error (calls s) i = Some c -> at_ c = OpenNull -> cap <= index c;
  i_prog : forall i c l, nth_error (calls s) i = Some c -> K (index c) -> ticketed s c = true -> nth_error (logs s) (index c) = Some l -> progress l c;
}.

(** The general step of a call that already has a ticket. *)
Lemma advance K M cap n s i c c' ls :
  sinv K M cap n s -> nth_error (calls s) i = Some c -> at_ c <> Begin -> at_ c' <> Begin -> at_ c <> Closed ->
  index c' = index c -> era c' = era c -> length ls = cap ->
  (forall k, at_ c' = Write k -> k < 5 /\ index c < cap) -> (at_ c' = Open -> index c < cap) -> (at_ c' = OpenNull -> cap <= index c) ->
  (forall j l, j <> index c -> nth_error ls j = Some l -> nth_error (logs s) j = Some l) ->
  (K (index c) -> ticketed s c = true -> forall l, nth_error ls (index c) = Some l -> progress l c') ->
  sinv K M cap n (State ls (count s) (upd (calls s) i c') (resets s)).
Proof.
  intros I Hi Nb Nb' Nc Ei Ee L Hw Ho Hn Hl Hp.
  assert (Li : i < length (calls s)) by (apply nth_error_Some; congruence).
  assert (Er : K (index c) -> era c = resets s).
  { intros Hk. destruct (Nat.eq_dec (era c) (resets s)) as [|N]; [assumption|]. exfalso. apply Nc. eapply i_old; eauto. }
  assert (Tk : ticketed s c' = ticketed s c) by (apply ticketed_upd; auto).
  assert (TE : tickets (State ls (count s) (upd (calls s) i c') (resets s)) = tickets s).
  { unfold tickets; cbn [calls]. change (ticketed (State ls (count s) (upd (calls s) i c') (resets s))) with (ticketed s).
    destruct (ticketed s c) eqn:E; [eapply filter_upd_ticket|eapply filter_upd_none]; eauto. }
  assert (Cases : forall j d, nth_error (upd (calls s) i c') j = Some d -> (j = i /\ d = c') \/ (j <> i /\ nth_error (calls s) j = Some d)).
  { intros j d. rewrite nth_error_upd. destruct (Nat.eqb_spec i j) as [<-|N].
    - destruct (Nat.ltb i (length (calls s))); [|discriminate]. intros [= <-]. auto.
    - intros H. right. auto. }
  split; cbn [logs count calls resets].
  - exact L.
  - rewrite TE. apply I.
  - rewrite TE. apply I.
  - rewrite TE. apply I.
  - apply I.
  - intros j d Hd. apply Cases in Hd as [[-> ->]|[_ Hd]]; [rewrite Ei, Ee; intros Hk _ N; now elim N; apply Er|]. eapply i_old; eauto.
  - intros j d Hd. apply Cases in Hd as [[-> ->]|[_ Hd]]; [intros _; rewrite Ee; eapply i_era; eauto|]. eapply i_era; eauto.
  - intros j d k Hd. apply Cases in Hd as [[-> ->]|[_ Hd]]; [rewrite Ei; apply Hw|]. eapply i_write; eauto.
  - intros j d Hd. apply Cases in Hd as [[-> ->]|[_ Hd]]; [rewrite Ei; apply Ho|]. eapply i_open; eauto.
  - intros j d Hd. apply Cases in Hd as [[-> ->]|[_ Hd]]; [rewrite Ei; apply Hn|]. eapply i_null; eauto.
  - intros j d l Hd Kd Td Hl'. change (ticketed (State ls (count s) (upd (calls s) i c') (resets s)) d) with (ticketed s d) in Td.
    apply Cases in Hd as [[-> ->]|[Nj Hd]].
    + rewrite Ei in Kd, Hl'. apply Hp; auto. congruence.
    + eapply i_prog; eauto. apply Hl; [|exact Hl'].
      intros E. apply Nj. rewrite E in Kd. eapply tickets_inj; eauto; [apply I|].
      unfold ticketed. rewrite (Er Kd), Nat.eqb_refl. destruct (at_ c); congruence.
Qed.

Lemma act_inv K M cap n s a : sinv K M cap n s -> S n < M -> (a = Reset -> forall k, K k -> clear k s) -> sinv K M cap (S n) (act M a s).
Proof.
  intros I LM Q.
  assert (Mono : forall s', sinv K M cap n s' -> sinv K M cap (S n) s').
  { intros s' [*]. split; auto. }
  destruct a as [nm inst fl th|i now|]; cbn [act].
  - apply Mono. match goal with |- sinv _ _ _ _ (State _ _ (calls s ++ [?c]) _) => set (c0 := c) end.
    assert (TE : tickets (State (logs s) (count s) (calls s ++ [c0]) (resets s)) = tickets s).
    { unfold tickets; cbn [calls]. rewrite filter_app, map_app. cbn [filter]. 
      change (ticketed (State (logs s) (count s) (calls s ++ [c0]) (resets s)) c0) with false. cbn. now rewrite app_nil_r. }
    assert (Cases : forall j d, nth_error (calls s ++ [c0]) j = Some d -> d = c0 \/ nth_error (calls s) j = Some d).
    { intros j d. rewrite nth_error_snoc. destruct (Nat.ltb j (length (calls s))); [auto|].
      destruct (Nat.eqb j (length (calls s))); [|discriminate]. intros [= <-]. auto. }
    split; cbn [logs count calls resets]; rewrite ?TE; try apply I.
    + intros j d Hd. apply Cases in Hd as [->|Hd]; [cbn; congruence|]. eapply i_old; eauto.
    + intros j d Hd. apply Cases in Hd as [->|Hd]; [cbn; congruence|]. eapply i_era; eauto.
    + intros j d k Hd. apply Cases in Hd as [->|Hd]; [cbn; congruence|]. eapply i_write; eauto.
    + intros j d Hd. apply Cases in Hd as [->|Hd]; [cbn; congruence|]. eapply i_open; eauto.
    + intros j d Hd. apply Cases in Hd as [->|Hd]; [cbn; congruence|]. eapply i_null; eauto.
    + intros j d l Hd. apply Cases in Hd as [->|Hd]; [cbn; congruence|]. intros Kd Td. eapply i_prog; eauto.
  - destruct (nth_error (calls s) i) as [c|] eqn:Hi; [|now apply Mono].
    assert (Li : i < length (calls s)) by (apply nth_error_Some; congruence).
    destruct (at_ c) as [| |k| | |] eqn:Ea.
    + (* Begin *)
      set (c' := Call (args c) Fetched (count s) (resets s)).
      assert (Mod : Nat.modulo (S (count s)) M = S (count s)).
      { apply Nat.mod_small. pose proof (i_n _ _ _ _ _ I). lia. }
      rewrite Mod.
      set (s' := State (logs s) (S (count s)) (upd (calls s) i c') (resets s)).
      assert (TP : Permutation (tickets s') (count s :: tickets s)).
      { unfold tickets; subst s'; cbn [calls]. 
        change (ticketed (State (logs s) (S (count s)) (upd (calls s) i c') (resets s))) with (ticketed s).
        change (count s) with (index c'). eapply filter_upd_new; eauto.
        - unfold ticketed. now rewrite Ea.
        - unfold ticketed; cbn. apply Nat.eqb_refl. }
      assert (Cases : forall j d, nth_error (upd (calls s) i c') j = Some d -> (j = i /\ d = c') \/ (j <> i /\ nth_error (calls s) j = Some d)).
      { intros j d. rewrite nth_error_upd. destruct (Nat.eqb_spec i j) as [<-|N].
        - destruct (Nat.ltb i (length (calls s))); [|discriminate]. intros [= <-]. auto.
        - intros H. right. auto. }
      split; cbn [logs count calls resets s'].
      * apply I.
      * apply (Permutation_NoDup (Permutation_sym TP)). constructor; [|apply I].
        intros H. apply (i_lt _ _ _ _ _ I) in H. lia.
      * intros t Ht. apply (Permutation_in _ TP) in Ht. destruct Ht as [<-|Ht]; [lia|]. apply (i_lt _ _ _ _ _ I) in Ht. lia.
      * rewrite (Permutation_length TP). cbn. now rewrite (i_cnt _ _ _ _ _ I).
      * pose proof (i_n _ _ _ _ _ I). lia.
      * intros j d Hd. apply Cases in Hd as [[-> ->]|[_ Hd]]; [cbn; congruence|]. eapply i_old; eauto.
      * intros j d Hd. apply Cases in Hd as [[-> ->]|[_ Hd]]; [cbn; lia|]. eapply i_era; eauto.
      * intros j d k Hd. apply Cases in Hd as [[-> ->]|[_ Hd]]; [cbn; congruence|]. eapply i_write; eauto.
      * intros j d Hd. apply Cases in Hd as [[-> ->]|[_ Hd]]; [cbn; congruence|]. eapply i_open; eauto.
      * intros j d Hd. apply Cases in Hd as [[-> ->]|[_ Hd]]; [cbn; congruence|]. eapply i_null; eauto.
      * intros j d l Hd Kd Td. apply Cases in Hd as [[-> ->]|[_ Hd]]; [intros _; exact Logic.I|].
        change (ticketed s d = true) in Td. eapply i_prog; eauto.
    + (* Fetched *)
      apply Mono. rewrite (i_len _ _ _ _ _ I). destruct (Nat.leb_spec cap (index c)) as [L|L].
      * apply advance with (c := c); auto; try (cbn; congruence); try (rewrite Ea; discriminate); try apply I; try (intros; exact Logic.I).
      * apply advance with (c := c); auto; try (cbn; congruence); try (rewrite Ea; discriminate); try apply I.
        -- cbn. intros k [= <-]. lia.
        -- intros _ _ l _ j f Hj. cbn in Hj. lia.
    + (* Write *)
      destruct (i_write _ _ _ _ _ I i c k Hi Ea) as [Lk Lc].
      destruct (nth_error write_order k) as [f|] eqn:Ef; [|apply nth_error_None in Ef; cbn in Ef; lia].
      destruct (nth_error (logs s) (index c)) as [l|] eqn:El; [|apply nth_error_None in El; rewrite (i_len _ _ _ _ _ I) in El; lia].
      apply Mono. apply advance with (c := c); auto; try (rewrite Ea; discriminate).
      * cbn. destruct (Nat.eqb (S k) 5); discriminate.
      * rewrite upd_length. apply I.
      * cbn. intros k'. destruct (Nat.eqb_spec (S k) 5); [discriminate|]. intros [= <-]. lia.
      * cbn. destruct (Nat.eqb (S k) 5); discriminate.
      * intros j l' Nj. rewrite upd_other; auto.
      * intros Kc Tk l'. rewrite upd_same by (rewrite (i_len _ _ _ _ _ I); exact Lc). intros [= <-].
        pose proof (i_prog _ _ _ _ _ I i c l Hi Kc Tk El) as P. unfold progress in P. rewrite Ea in P.
        assert (P' : forall j g, j < S k -> nth_error write_order j = Some g -> set_field f (args c f) l g = args c g).
        { intros j g Hj Hg. destruct (field_eqb f g) eqn:Efg.
          - apply field_eqb_eq in Efg; subst g. apply set_same.
          - rewrite set_other; [|intros ->; rewrite (proj2 (field_eqb_eq g g) eq_refl) in Efg; discriminate].
            apply (P j); auto. destruct (Nat.eq_dec j k) as [->|]; [|lia]. exfalso.
            rewrite Ef in Hg. injection Hg as ->. rewrite (proj2 (field_eqb_eq g g) eq_refl) in Efg. discriminate. }
        unfold progress; cbn [at_ with_pc args]. change (length write_order) with 5.
        destruct (Nat.eqb_spec (S k) 5) as [E5|N5]; [|exact P'].
        intros g Ng. destruct g; try congruence.
        -- apply (P' 0); [lia|reflexivity].
        -- apply (P' 1); [lia|reflexivity].
        -- apply (P' 3); [lia|reflexivity].
        -- apply (P' 4); [lia|reflexivity].
        -- apply (P' 2); [lia|reflexivity].
    + (* Open *)
      pose proof (i_open _ _ _ _ _ I i c Hi Ea) as Lc.
      destruct (nth_error (logs s) (index c)) as [l|] eqn:El; [|apply nth_error_None in El; rewrite (i_len _ _ _ _ _ I) in El; lia].
      apply Mono. apply advance with (c := c); auto; try (rewrite Ea; discriminate); try discriminate.
      * rewrite upd_length. apply I.
      * intros j l' Nj. rewrite upd_other; auto.
      * intros Kc Tk l'. rewrite upd_same by (rewrite (i_len _ _ _ _ _ I); exact Lc). intros [= <-].
        pose proof (i_prog _ _ _ _ _ I i c l Hi Kc Tk El) as P. unfold progress in P. rewrite Ea in P.
        unfold progress; cbn [at_ args]. intros f. destruct (field_eqb FDuration f) eqn:Ef.
        -- apply field_eqb_eq in Ef; subst f. now rewrite !set_same.
        -- assert (f <> FDuration) by (intros ->; discriminate). rewrite !set_other by congruence. now apply P.
    + (* OpenNull *)
      apply Mono. apply advance with (c := c); auto; try (rewrite Ea; discriminate); try discriminate; try apply I.
      intros _ _ l Hl. exfalso. pose proof (i_null _ _ _ _ _ I i c Hi Ea).
      assert (index c < length (logs s)) by (apply nth_error_Some; congruence). rewrite (i_len _ _ _ _ _ I) in *. lia.
    + now apply Mono.
  - (* Reset *)
    specialize (Q eq_refl).
    assert (TE : tickets (State (logs s) 0 (calls s) (S (resets s))) = []).
    { unfold tickets; cbn [calls]. enough (filter (ticketed (State (logs s) 0 (calls s) (S (resets s)))) (calls s) = []) as -> by reflexivity.
      assert (E : forall c, In c (calls s) -> ticketed (State (logs s) 0 (calls s) (S (resets s))) c = false).
      { intros c Hc. apply In_nth_error in Hc as [i Hi]. unfold ticketed; cbn [resets].
        destruct (at_ c) eqn:Ea; [reflexivity|..];
        (assert (Hx : at_ c <> Begin) by (rewrite Ea; discriminate); pose proof (i_era _ _ _ _ _ I i c Hi Hx);
        destruct (Nat.eqb_spec (era c) (S (resets s))); [lia|reflexivity]). }
      revert E. generalize (State (logs s) 0 (calls s) (S (resets s))) as s0. intros s0. 
      induction (calls s) as [|c l IH]; [reflexivity|]. intros E. cbn [filter]. rewrite (E c) by now left. apply IH. intros; apply E; now right. }
    split; cbn [logs count calls resets]; rewrite ?TE.
    + apply I.
    + constructor.
    + contradiction.
    + reflexivity.
    + lia.
    + intros i c Hi Kc Nb _. specialize (Q _ Kc i c Hi eq_refl). destruct (at_ c); try contradiction; congruence.
    + intros i c Hi Nb. pose proof (i_era _ _ _ _ _ I i c Hi Nb). lia.
    + apply I.
    + apply I.
    + apply I.
    + intros i c l Hi _ Tk. exfalso. unfold ticketed in Tk; cbn [resets] in Tk.
      assert (Nb : at_ c <> Begin) by (intros E; rewrite E in Tk; discriminate).
      pose proof (i_era _ _ _ _ _ I i c Hi Nb). destruct (at_ c); try discriminate;
      apply Nat.eqb_eq in Tk; lia.
Qed.

Lemma start_inv K M cap : sinv K M cap 0 (start cap).
Proof.
  split; cbn; try (intros [|?]; discriminate); auto; try lia.
  - apply repeat_length.
  - constructor.
Qed.

Lemma run_inv (K : nat -> Prop) M cap as_ : no_wrap M as_ -> (forall k, K k -> clear_resets M cap k as_) -> sinv K M cap (length as_) (run M as_ (start cap)).
Proof.
  unfold no_wrap. induction as_ as [|a as_ IH] using rev_ind; intros NW QR; [apply start_inv|].
  rewrite app_length, Nat.add_1_r in *. unfold run in *. rewrite fold_left_app. cbn [fold_left].
  apply act_inv.
  - apply IH; [cbn in NW; lia|]. intros k Hk pre post E. apply (QR k Hk pre (post ++ [a])). now rewrite E, <- app_assoc.
  - cbn in NW. lia.
  - intros -> k Hk. apply (QR k Hk as_ []). reflexivity.
Qed.

