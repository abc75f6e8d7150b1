From Verif Require Import Base Trace_Model Trace_Spec.
Local Arguments Nat.eqb : simpl never.
Local Arguments Nat.ltb : simpl never.
Local Arguments Nat.leb : simpl never.
Local Arguments Nat.modulo : simpl never.

Lemma field_eqb_eq f g : field_eqb f g = true <-> f = g.
Proof. destruct f, g; cbn; split; congruence. Qed.
Lemma set_same f v l : set_field f v l f = v.
Proof. unfold set_field. now rewrite (proj2 (field_eqb_eq f f) eq_refl). Qed.
Lemma set_other f g v l : f <> g -> set_field f v l g = l g.
Proof. unfold set_field. intros N. destruct (field_eqb f g) eqn:E; [|reflexivity]. apply field_eqb_eq in E. contradiction. Qed.

(** Tickets handed out since the last reset. *)
Definition tickets (s : state) : list nat := map index (filter (ticketed s) (calls s)).

(** How much of its entry call [c] has written. *)
Definition progress (l : log) (c : call) : Prop :=
  match at_ c with
  | Write k => forall j f, j < k -> nth_error write_order j = Some f -> l f = args c f
  | Open => forall f, f <> FDuration -> l f = args c f
  | Closed => forall f, l f = args c f
  | _ => True
  end.

Record inv (M : nat) (cap n : nat) (s : state) : Prop := {
  i_len : length (logs s) = cap;
  i_nodup : NoDup (tickets s);
  i_lt : forall t, In t (tickets s) -> t < count s;
  i_cnt : length (tickets s) = count s;
  i_n : count s <= n;
  i_old : forall i c, nth_error (calls s) i = Some c -> at_ c <> Begin -> era c <> resets s -> at_ c = Closed;
  i_era : forall i c, nth_error (calls s) i = Some c -> at_ c <> Begin -> era c <= resets s;
  i_write : forall i c k, nth_error (calls s) i = Some c -> at_ c = Write k -> k < 5 /\ index c < cap;
  i_open : forall i c, nth_error (calls s) i = Some c -> at_ c = Open -> index c < cap;
  i_null : forall i c, nth_error (calls s) i = Some c -> at_ c = OpenNull -> cap <= index c;
  i_prog : forall i c l, nth_error (calls s) i = Some c -> ticketed s c = true -> nth_error (logs s) (index c) = Some l -> progress l c;
}.

(** Two ticketed calls with the same ticket are one call. *)
Lemma tickets_inj s i j c d : NoDup (tickets s) ->
  nth_error (calls s) i = Some c -> nth_error (calls s) j = Some d ->
  ticketed s c = true -> ticketed s d = true -> index c = index d -> i = j.
Proof.
  unfold tickets. generalize (calls s) as l. intros l. revert i j. induction l as [|x l IH]; intros [|i] [|j]; cbn; try discriminate; auto.
  - intros ND [= ->] Hj Tc Td E. rewrite Tc in ND. cbn in ND. inversion ND as [|? ? Nin]; subst. exfalso. apply Nin.
    rewrite E. apply in_map. apply filter_In. split; [eapply nth_error_In; eauto|exact Td].
  - intros ND Hi [= ->] Tc Td E. rewrite Td in ND. cbn in ND. inversion ND as [|? ? Nin]; subst. exfalso. apply Nin.
    rewrite <- E. apply in_map. apply filter_In. split; [eapply nth_error_In; eauto|exact Tc].
  - intros ND Hi Hj Tc Td E. f_equal. eapply IH; eauto. destruct (ticketed s x); [|exact ND]. now inversion ND.
Qed.

(** Updating one call. *)
Lemma filter_upd_ticket (P : call -> bool) l i c c' :
  nth_error l i = Some c -> P c = true -> P c' = true -> index c' = index c ->
  map index (filter P (upd l i c')) = map index (filter P l).
Proof.
  revert i; induction l as [|x l IH]; intros [|i]; cbn; try discriminate.
  - intros [= ->] Pc Pc' E. rewrite Pc, Pc'. cbn. now rewrite E.
  - intros Hi Pc Pc' E. destruct (P x); cbn; now rewrite (IH i Hi Pc Pc' E).
Qed.
Lemma filter_upd_none (P : call -> bool) l i c c' :
  nth_error l i = Some c -> P c = false -> P c' = false ->
  map index (filter P (upd l i c')) = map index (filter P l).
Proof.
  revert i; induction l as [|x l IH]; intros [|i]; cbn; try discriminate.
  - intros [= ->] Pc Pc'. now rewrite Pc, Pc'.
  - intros Hi Pc Pc'. destruct (P x); cbn; now rewrite (IH i Hi Pc Pc').
Qed.
Lemma filter_upd_new (P : call -> bool) l i c c' :
  nth_error l i = Some c -> P c = false -> P c' = true ->
  Permutation (map index (filter P (upd l i c'))) (index c' :: map index (filter P l)).
Proof.
  revert i; induction l as [|x l IH]; intros [|i]; cbn; try discriminate.
  - intros [= ->] Pc Pc'. rewrite Pc, Pc'. reflexivity.
  - intros Hi Pc Pc'. destruct (P x); cbn; [|now apply IH].
    rewrite (IH i Hi Pc Pc'). apply perm_swap.
Qed.

Lemma ticketed_upd s c c' : at_ c <> Begin -> at_ c' <> Begin -> era c' = era c -> ticketed s c' = ticketed s c.
Proof. unfold ticketed. intros N N' ->. destruct (at_ c), (at_ c'); congruence. Qed.

(** The general step of a call that already has a ticket. *)
Lemma advance M cap n s i c c' ls :
  inv M cap n s -> nth_error (calls s) i = Some c -> at_ c <> Begin -> at_ c' <> Begin -> at_ c <> Closed ->
  index c' = index c -> era c' = era c -> length ls = cap ->
  (forall k, at_ c' = Write k -> k < 5 /\ index c < cap) -> (at_ c' = Open -> index c < cap) -> (at_ c' = OpenNull -> cap <= index c) ->
  (forall j l, j <> index c -> nth_error ls j = Some l -> nth_error (logs s) j = Some l) ->
  (forall l, nth_error ls (index c) = Some l -> progress l c') ->
  inv M cap n (State ls (count s) (upd (calls s) i c') (resets s)).
Proof.
  intros I Hi Nb Nb' Nc Ei Ee L Hw Ho Hn Hl Hp.
  assert (Li : i < length (calls s)) by (apply nth_error_Some; congruence).
  assert (Er : era c = resets s).
  { destruct (Nat.eq_dec (era c) (resets s)) as [|N]; [assumption|]. exfalso. apply Nc. eapply i_old; eauto. }
  assert (Tk : ticketed s c = true).
  { unfold ticketed. rewrite Er, Nat.eqb_refl. destruct (at_ c); congruence. }
  assert (TE : tickets (State ls (count s) (upd (calls s) i c') (resets s)) = tickets s).
  { unfold tickets; cbn [calls]. change (ticketed (State ls (count s) (upd (calls s) i c') (resets s))) with (ticketed s).
    eapply filter_upd_ticket; eauto. rewrite (ticketed_upd s c c'); auto. }
  assert (Cases : forall j d, nth_error (upd (calls s) i c') j = Some d -> (j = i /\ d = c') \/ (j <> i /\ nth_error (calls s) j = Some d)).
  { intros j d. rewrite nth_error_upd. destruct (Nat.eqb_spec i j) as [<-|N].
    - destruct (Nat.ltb i (length (calls s))); [|discriminate]. intros [= <-]. auto.
    - intros H. right. auto. }
  split; cbn [logs count calls resets].
  - exact L.
  - rewrite TE. apply I.
  - rewrite TE. apply I.
  - rewrite TE. apply I.
  - apply I.
  - intros j d Hd. apply Cases in Hd as [[-> ->]|[_ Hd]]; [congruence|]. eapply i_old; eauto.
  - intros j d Hd. apply Cases in Hd as [[-> ->]|[_ Hd]]; [intros _; lia|]. eapply i_era; eauto.
  - intros j d k Hd. apply Cases in Hd as [[-> ->]|[_ Hd]]; [rewrite Ei; apply Hw|]. eapply i_write; eauto.
  - intros j d Hd. apply Cases in Hd as [[-> ->]|[_ Hd]]; [rewrite Ei; apply Ho|]. eapply i_open; eauto.
  - intros j d Hd. apply Cases in Hd as [[-> ->]|[_ Hd]]; [rewrite Ei; apply Hn|]. eapply i_null; eauto.
  - intros j d l Hd Td Hl'. change (ticketed (State ls (count s) (upd (calls s) i c') (resets s)) d) with (ticketed s d) in Td.
    apply Cases in Hd as [[-> ->]|[Nj Hd]].
    + rewrite Ei in Hl'. now apply Hp.
    + eapply i_prog; eauto. apply Hl; [|exact Hl'].
      intros E. apply Nj. eapply tickets_inj; eauto. apply I.
Qed.

Lemma act_inv M cap n s a : inv M cap n s -> S n < M -> (a = Reset -> quiet s) -> inv M cap (S n) (act M a s).
Proof.
  intros I LM Q.
  assert (Mono : forall s', inv M cap n s' -> inv M cap (S n) s').
  { intros s' [*]. split; auto. }
  destruct a as [nm inst fl th|i now|]; cbn [act].
  - apply Mono. match goal with |- inv _ _ _ (State _ _ (calls s ++ [?c]) _) => set (c0 := c) end.
    assert (TE : tickets (State (logs s) (count s) (calls s ++ [c0]) (resets s)) = tickets s).
    { unfold tickets; cbn [calls]. rewrite filter_app, map_app. cbn [filter]. 
      change (ticketed (State (logs s) (count s) (calls s ++ [c0]) (resets s)) c0) with false. cbn. now rewrite app_nil_r. }
    assert (Cases : forall j d, nth_error (calls s ++ [c0]) j = Some d -> d = c0 \/ nth_error (calls s) j = Some d).
    { intros j d. rewrite nth_error_snoc. destruct (Nat.ltb j (length (calls s))); [auto|].
      destruct (Nat.eqb j (length (calls s))); [|discriminate]. intros [= <-]. auto. }
    split; cbn [logs count calls resets]; rewrite ?TE; try apply I.
    + intros j d Hd. apply Cases in Hd as [->|Hd]; [cbn; congruence|]. eapply i_old; eauto.
    + intros j d Hd. apply Cases in Hd as [->|Hd]; [cbn; congruence|]. eapply i_era; eauto.
    + intros j d k Hd. apply Cases in Hd as [->|Hd]; [cbn; congruence|]. eapply i_write; eauto.
    + intros j d Hd. apply Cases in Hd as [->|Hd]; [cbn; congruence|]. eapply i_open; eauto.
    + intros j d Hd. apply Cases in Hd as [->|Hd]; [cbn; congruence|]. eapply i_null; eauto.
    + intros j d l Hd. apply Cases in Hd as [->|Hd]; [cbn; congruence|]. intros Td. eapply i_prog; eauto.
  - destruct (nth_error (calls s) i) as [c|] eqn:Hi; [|now apply Mono].
    assert (Li : i < length (calls s)) by (apply nth_error_Some; congruence).
    destruct (at_ c) as [| |k| | |] eqn:Ea.
    + (* Begin *)
      set (c' := Call (args c) Fetched (count s) (resets s)).
      assert (Mod : Nat.modulo (S (count s)) M = S (count s)).
      { apply Nat.mod_small. pose proof (i_n _ _ _ _ I). lia. }
      rewrite Mod.
      set (s' := State (logs s) (S (count s)) (upd (calls s) i c') (resets s)).
      assert (TP : Permutation (tickets s') (count s :: tickets s)).
      { unfold tickets; subst s'; cbn [calls]. 
        change (ticketed (State (logs s) (S (count s)) (upd (calls s) i c') (resets s))) with (ticketed s).
        change (count s) with (index c'). eapply filter_upd_new; eauto.
        - unfold ticketed. now rewrite Ea.
        - unfold ticketed; cbn. apply Nat.eqb_refl. }
      assert (Cases : forall j d, nth_error (upd (calls s) i c') j = Some d -> (j = i /\ d = c') \/ (j <> i /\ nth_error (calls s) j = Some d)).
      { intros j d. rewrite nth_error_upd. destruct (Nat.eqb_spec i j) as [<-|N].
        - destruct (Nat.ltb i (length (calls s))); [|discriminate]. intros [= <-]. auto.
        - intros H. right. auto. }
      split; cbn [logs count calls resets s'].
      * apply I.
      * apply (Permutation_NoDup (Permutation_sym TP)). constructor; [|apply I].
        intros H. apply (i_lt _ _ _ _ I) in H. lia.
      * intros t Ht. apply (Permutation_in _ TP) in Ht. destruct Ht as [<-|Ht]; [lia|]. apply (i_lt _ _ _ _ I) in Ht. lia.
      * rewrite (Permutation_length TP). cbn. now rewrite (i_cnt _ _ _ _ I).
      * pose proof (i_n _ _ _ _ I). lia.
      * intros j d Hd. apply Cases in Hd as [[-> ->]|[_ Hd]]; [cbn; congruence|]. eapply i_old; eauto.
      * intros j d Hd. apply Cases in Hd as [[-> ->]|[_ Hd]]; [cbn; lia|]. eapply i_era; eauto.
      * intros j d k Hd. apply Cases in Hd as [[-> ->]|[_ Hd]]; [cbn; congruence|]. eapply i_write; eauto.
      * intros j d Hd. apply Cases in Hd as [[-> ->]|[_ Hd]]; [cbn; congruence|]. eapply i_open; eauto.
      * intros j d Hd. apply Cases in Hd as [[-> ->]|[_ Hd]]; [cbn; congruence|]. eapply i_null; eauto.
      * intros j d l Hd Td. apply Cases in Hd as [[-> ->]|[_ Hd]]; [intros _; exact Logic.I|].
        change (ticketed s d = true) in Td. eapply i_prog; eauto.
    + (* Fetched *)
      apply Mono. rewrite (i_len _ _ _ _ I). destruct (Nat.leb_spec cap (index c)) as [L|L].
      * apply advance with (c := c); auto; try (cbn; congruence); try (rewrite Ea; discriminate); try apply I; try (intros; exact Logic.I).
      * apply advance with (c := c); auto; try (cbn; congruence); try (rewrite Ea; discriminate); try apply I.
        -- cbn. intros k [= <-]. lia.
        -- intros l _ j f Hj. cbn in Hj. lia.
    + (* Write *)
      destruct (i_write _ _ _ _ I i c k Hi Ea) as [Lk Lc].
      destruct (nth_error write_order k) as [f|] eqn:Ef; [|apply nth_error_None in Ef; cbn in Ef; lia].
      destruct (nth_error (logs s) (index c)) as [l|] eqn:El; [|apply nth_error_None in El; rewrite (i_len _ _ _ _ I) in El; lia].
      apply Mono. apply advance with (c := c); auto; try (rewrite Ea; discriminate).
      * cbn. destruct (Nat.eqb (S k) 5); discriminate.
      * rewrite upd_length. apply I.
      * cbn. intros k'. destruct (Nat.eqb_spec (S k) 5); [discriminate|]. intros [= <-]. lia.
      * cbn. destruct (Nat.eqb (S k) 5); discriminate.
      * intros j l' Nj. rewrite upd_other; auto.
      * intros l'. rewrite upd_same by (rewrite (i_len _ _ _ _ I); exact Lc). intros [= <-].
        assert (Tk : ticketed s c = true).
        { unfold ticketed. rewrite Ea. apply Nat.eqb_eq. destruct (Nat.eq_dec (era c) (resets s)); [assumption|].
          pose proof (i_old _ _ _ _ I i c Hi) as Ho. rewrite Ea in Ho. discriminate Ho; auto; discriminate. }
        pose proof (i_prog _ _ _ _ I i c l Hi Tk El) as P. unfold progress in P. rewrite Ea in P.
        assert (P' : forall j g, j < S k -> nth_error write_order j = Some g -> set_field f (args c f) l g = args c g).
        { intros j g Hj Hg. destruct (field_eqb f g) eqn:Efg.
          - apply field_eqb_eq in Efg; subst g. apply set_same.
          - rewrite set_other; [|intros ->; rewrite (proj2 (field_eqb_eq g g) eq_refl) in Efg; discriminate].
            apply (P j); auto. destruct (Nat.eq_dec j k) as [->|]; [|lia]. exfalso.
            rewrite Ef in Hg. injection Hg as ->. rewrite (proj2 (field_eqb_eq g g) eq_refl) in Efg. discriminate. }
        unfold progress; cbn [at_ with_pc args]. change (length write_order) with 5.
        destruct (Nat.eqb_spec (S k) 5) as [E5|N5]; [|exact P'].
        intros g Ng. destruct g; try congruence.
        -- apply (P' 0); [lia|reflexivity].
        -- apply (P' 1); [lia|reflexivity].
        -- apply (P' 3); [lia|reflexivity].
        -- apply (P' 4); [lia|reflexivity].
        -- apply (P' 2); [lia|reflexivity].
    + (* Open *)
      pose proof (i_open _ _ _ _ I i c Hi Ea) as Lc.
      destruct (nth_error (logs s) (index c)) as [l|] eqn:El; [|apply nth_error_None in El; rewrite (i_len _ _ _ _ I) in El; lia].
      apply Mono. apply advance with (c := c); auto; try (rewrite Ea; discriminate); try discriminate.
      * rewrite upd_length. apply I.
      * intros j l' Nj. rewrite upd_other; auto.
      * intros l'. rewrite upd_same by (rewrite (i_len _ _ _ _ I); exact Lc). intros [= <-].
        assert (Tk : ticketed s c = true).
        { unfold ticketed. rewrite Ea. apply Nat.eqb_eq. destruct (Nat.eq_dec (era c) (resets s)); [assumption|].
          pose proof (i_old _ _ _ _ I i c Hi) as Ho. rewrite Ea in Ho. discriminate Ho; auto; discriminate. }
        pose proof (i_prog _ _ _ _ I i c l Hi Tk El) as P. unfold progress in P. rewrite Ea in P.
        unfold progress; cbn [at_ args]. intros f. destruct (field_eqb FDuration f) eqn:Ef.
        -- apply field_eqb_eq in Ef; subst f. now rewrite !set_same.
        -- assert (f <> FDuration) by (intros ->; discriminate). rewrite !set_other by congruence. now apply P.
    + (* OpenNull *)
      apply Mono. apply advance with (c := c); auto; try (rewrite Ea; discriminate); try discriminate; try apply I.
      intros l Hl. exfalso. pose proof (i_null _ _ _ _ I i c Hi Ea).
      assert (index c < length (logs s)) by (apply nth_error_Some; congruence). rewrite (i_len _ _ _ _ I) in *. lia.
    + now apply Mono.
  - (* Reset *)
    specialize (Q eq_refl).
    assert (TE : tickets (State (logs s) 0 (calls s) (S (resets s))) = []).
    { unfold tickets; cbn [calls]. enough (filter (ticketed (State (logs s) 0 (calls s) (S (resets s)))) (calls s) = []) as -> by reflexivity.
      assert (E : forall c, In c (calls s) -> ticketed (State (logs s) 0 (calls s) (S (resets s))) c = false).
      { intros c Hc. apply In_nth_error in Hc as [i Hi]. unfold ticketed; cbn [resets].
        destruct (at_ c) eqn:Ea; [reflexivity|..];
        (assert (Hx : at_ c <> Begin) by (rewrite Ea; discriminate); pose proof (i_era _ _ _ _ I i c Hi Hx);
        destruct (Nat.eqb_spec (era c) (S (resets s))); [lia|reflexivity]). }
      revert E. generalize (State (logs s) 0 (calls s) (S (resets s))) as s0. intros s0. 
      induction (calls s) as [|c l IH]; [reflexivity|]. intros E. cbn [filter]. rewrite (E c) by now left. apply IH. intros; apply E; now right. }
    split; cbn [logs count calls resets]; rewrite ?TE.
    + apply I.
    + constructor.
    + contradiction.
    + reflexivity.
    + lia.
    + intros i c Hi Nb _. specialize (Q i c Hi). destruct (at_ c); try contradiction; congruence.
    + intros i c Hi Nb. pose proof (i_era _ _ _ _ I i c Hi Nb). lia.
    + intros i c k Hi Ea. specialize (Q i c Hi). rewrite Ea in Q. contradiction.
    + intros i c Hi Ea. specialize (Q i c Hi). rewrite Ea in Q. contradiction.
    + intros i c Hi Ea. specialize (Q i c Hi). rewrite Ea in Q. contradiction.
    + intros i c l Hi Tk. exfalso. unfold ticketed in Tk; cbn [resets] in Tk.
      assert (Nb : at_ c <> Begin) by (intros E; rewrite E in Tk; discriminate).
      pose proof (i_era _ _ _ _ I i c Hi Nb). destruct (at_ c); try discriminate;
      apply Nat.eqb_eq in Tk; lia.
Qed.

Lemma start_inv M cap : inv M cap 0 (start cap).
Proof.
  split; cbn; try (intros [|?]; discriminate); auto; try lia.
  - apply repeat_length.
  - constructor.
Qed.

Lemma run_inv M cap as_ : no_wrap M as_ -> quiet_resets M cap as_ -> inv M cap (length as_) (run M as_ (start cap)).
Proof.
  unfold no_wrap. induction as_ as [|a as_ IH] using rev_ind; intros NW QR; [apply start_inv|].
  rewrite app_length, Nat.add_1_r in *. unfold run in *. rewrite fold_left_app. cbn [fold_left].
  apply act_inv.
  - apply IH; [cbn in NW; lia|]. intros pre post E. apply (QR pre (post ++ [a])). now rewrite E, <- app_assoc.
  - cbn in NW. lia.
  - intros ->. apply (QR as_ []). reflexivity.
Qed.

(** ** Consequences *)
Lemma slots_distinct M cap as_ i j c d :
  no_wrap M as_ -> quiet_resets M cap as_ -> let s := run M as_ (start cap) in
  nth_error (calls s) i = Some c -> nth_error (calls s) j = Some d -> i <> j ->
  has_slot s c = true -> has_slot s d = true -> index c <> index d.
Proof.
  intros NW QR s Hi Hj N Sc Sd E. pose proof (run_inv M cap as_ NW QR) as I. fold s in I.
  apply andb_true_iff in Sc as [Sc _]. apply andb_true_iff in Sd as [Sd _].
  apply N. eapply tickets_inj; eauto. apply I.
Qed.

Lemma tickets_perm M cap n s : inv M cap n s -> Permutation (tickets s) (seq 0 (count s)).
Proof.
  intros I. apply NoDup_Permutation_bis.
  - apply I.
  - rewrite seq_length, (i_cnt _ _ _ _ I). lia.
  - intros t Ht. apply in_seq. apply (i_lt _ _ _ _ I) in Ht. lia.
Qed.

Lemma filter_map_index (P : nat -> bool) (Q : call -> bool) l :
  filter P (map index (filter Q l)) = map index (filter (fun c => Q c && P (index c)) l).
Proof.
  induction l as [|x l IH]; cbn; [reflexivity|]. destruct (Q x); cbn; [|exact IH].
  destruct (P (index x)); cbn; now rewrite IH.
Qed.

Lemma filter_lt_seq cap n : length (filter (fun t => Nat.ltb t cap) (seq 0 n)) = Nat.min cap n.
Proof.
  induction n as [|n IH]; [now rewrite Nat.min_0_r|].
  rewrite seq_S, filter_app, app_length, IH. cbn [filter]. destruct (Nat.ltb_spec (0 + n) cap); cbn [length]; lia.
Qed.

Lemma Permutation_filter_length {A} (P : A -> bool) l l' : Permutation l l' -> length (filter P l) = length (filter P l').
Proof.
  induction 1; cbn; auto.
  - destruct (P x); cbn; lia.
  - destruct (P x), (P y); cbn; lia.
  - lia.
Qed.

Lemma slots_used M cap as_ : no_wrap M as_ -> quiet_resets M cap as_ -> let s := run M as_ (start cap) in
  length (filter (has_slot s) (calls s)) = Nat.min cap (length (filter (ticketed s) (calls s))).
Proof.
  intros NW QR s. pose proof (run_inv M cap as_ NW QR) as I. fold s in I.
  unfold has_slot. rewrite (i_len _ _ _ _ I).
  rewrite <- (map_length index (filter (fun c => ticketed s c && Nat.ltb (index c) cap) (calls s))).
  rewrite <- (filter_map_index (fun t => Nat.ltb t cap)). fold (tickets s).
  rewrite (Permutation_filter_length _ _ _ (tickets_perm _ _ _ _ I)), filter_lt_seq.
  f_equal. rewrite <- (i_cnt _ _ _ _ I). unfold tickets. now rewrite map_length.
Qed.

Lemma entries_intact M cap as_ i c : no_wrap M as_ -> quiet_resets M cap as_ -> let s := run M as_ (start cap) in
  nth_error (calls s) i = Some c -> has_slot s c = true -> returned c ->
  exists l, nth_error (logs s) (index c) = Some l /\ describes l c.
Proof.
  intros NW QR s Hi Hs Hr. pose proof (run_inv M cap as_ NW QR) as I. fold s in I.
  unfold has_slot in Hs. apply andb_true_iff in Hs as [Tk Hs]. apply Nat.ltb_lt in Hs.
  destruct (nth_error (logs s) (index c)) as [l|] eqn:El; [|apply nth_error_None in El; lia].
  exists l. split; [reflexivity|]. pose proof (i_prog _ _ _ _ I i c l Hi Tk El) as P.
  unfold progress in P. unfold returned in Hr. unfold describes. destruct (at_ c) eqn:Ea; try contradiction.
  - split; [exact P|discriminate].
  - exfalso. pose proof (i_null _ _ _ _ I i c Hi Ea). rewrite (i_len _ _ _ _ I) in Hs. lia.
  - split; [intros; apply P|intros _; apply P].
Qed.

(** Calls beyond the capacity never get past the bounds check. *)
Lemma no_write_outside M cap as_ i c : no_wrap M as_ -> quiet_resets M cap as_ -> let s := run M as_ (start cap) in
  nth_error (calls s) i = Some c ->
  match at_ c with Write _ | Open => index c < length (logs s) | _ => True end.
Proof.
  intros NW QR s Hi. pose proof (run_inv M cap as_ NW QR) as I. fold s in I. rewrite (i_len _ _ _ _ I).
  destruct (at_ c) eqn:Ea; auto.
  - eapply i_write; eauto.
  - eapply i_open; eauto.
Qed.

Lemma get_logs_quiescent M cap as_ : no_wrap M as_ -> quiet_resets M cap as_ -> let s := run M as_ (start cap) in
  (forall i c, nth_error (calls s) i = Some c -> ~ in_progress c) ->
  forall k l, nth_error (get_logs s) k = Some l ->
  exists i c, nth_error (calls s) i = Some c /\ has_slot s c = true /\ index c = k /\ returned c /\ describes l c.
Proof.
  intros NW QR s Hq k l Hk. pose proof (run_inv M cap as_ NW QR) as I. fold s in I.
  unfold get_logs in Hk.
  assert (Lk : k < Nat.min (length (logs s)) (count s)).
  { assert (k < length (firstn (Nat.min (length (logs s)) (count s)) (logs s))) by (apply nth_error_Some; congruence).
    rewrite firstn_length in *. lia. }
  rewrite <- (firstn_skipn (Nat.min (length (logs s)) (count s)) (logs s)) in *.
  assert (Hl : nth_error (logs s) k = Some l).
  { rewrite <- (firstn_skipn (Nat.min (length (logs s)) (count s)) (logs s)).
    rewrite firstn_skipn in Hk. rewrite firstn_skipn in Lk.
    rewrite nth_error_app1; [exact Hk|]. apply nth_error_Some. congruence. }
  rewrite firstn_skipn in *.
  assert (Ht : In k (tickets s)).
  { apply (Permutation_in _ (Permutation_sym (tickets_perm _ _ _ _ I))). apply in_seq. lia. }
  unfold tickets in Ht. apply in_map_iff in Ht as (c & Ec & Hc). apply filter_In in Hc as [Hc Tk].
  apply In_nth_error in Hc as [i Hi]. exists i, c.
  assert (Hs : has_slot s c = true).
  { unfold has_slot. rewrite Tk, Ec. cbn. apply Nat.ltb_lt. lia. }
  assert (Hr : returned c).
  { specialize (Hq i c Hi). unfold in_progress in Hq. unfold returned. unfold ticketed in Tk. destruct (at_ c); try discriminate; tauto. }
  split; [exact Hi|]. split; [exact Hs|]. split; [exact Ec|]. split; [exact Hr|].
  destruct (entries_intact M cap as_ i c NW QR Hi Hs Hr) as (l' & Hl' & D). fold s in Hl'.
  rewrite Ec in Hl'. assert (l' = l) by congruence. now subst.
Qed.
