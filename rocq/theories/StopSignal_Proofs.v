From Verif Require Import Base StopSignal_Model StopSignal_Spec.
Local Arguments Nat.eqb : simpl never.
Local Arguments Nat.ltb : simpl never.
Local Arguments Nat.leb : simpl never.

(** Modification orders are [false; true; true; ...]. *)
Definition wf_flag (f : list bool) : Prop := exists n, f = false :: repeat true n.

Definition inv (es : list event) (m : machine) : Prop :=
  (forall o f, nth_error (flags m) o = Some f -> wf_flag f /\ (length f > 1 -> stop_called es o)) /\
  (forall t o, knows es t o -> 1 <= view m t o).

Lemma knows_snoc es e t o : knows (es ++ [e]) t o ->
  (exists ob, e = (Stop t o, ob)) \/ (exists k, e = (Query t o k, Some true)) \/
  (exists t' ob, e = (Sync t' t, ob) /\ knows es t' o) \/ knows es t o.
Proof.
  intros H. inversion H as [es' t' o' ob E|es' t' o' k E|es' u u' o' ob K E|es' e' t' o' K E]; subst;
    apply app_inj_tail in E as [-> <-]; eauto 10.
Qed.
Lemma knows_nil t o : ~ knows [] t o.
Proof. intros H. inversion H as [es ? ? ? E|es ? ? ? E|es ? ? ? ? ? E|es ? ? ? ? E]; destruct es; discriminate. Qed.

Lemma inv_init : inv [] init.
Proof. split; [intros [|o]; discriminate|]. intros t o K. now apply knows_nil in K. Qed.

Lemma wf_snoc f : wf_flag f -> wf_flag (f ++ [true]).
Proof.
  intros [n ->]. exists (S n). cbn. f_equal. induction n; cbn; [reflexivity|]. now rewrite IHn.
Qed.
Lemma wf_true f k b : wf_flag f -> nth_error f k = Some b -> (b = true <-> 1 <= k).
Proof.
  intros [n ->] H. destruct k as [|k]; cbn in H.
  - injection H as <-. split; [discriminate|lia].
  - split; [lia|intros _]. apply nth_error_In, repeat_spec in H. exact H.
Qed.
Lemma stop_called_snoc es e o : stop_called es o -> stop_called (es ++ [e]) o.
Proof. intros (t & ob & H). exists t, ob. apply in_or_app. now left. Qed.

Lemma set_view_ge v t o n t' o' : 1 <= n -> 1 <= v t' o' -> 1 <= set_view v t o n t' o'.
Proof. unfold set_view. destruct (Nat.eqb t' t && Nat.eqb o' o); auto. Qed.
Lemma set_view_same v t o n : set_view v t o n t o = n.
Proof. unfold set_view. now rewrite !Nat.eqb_refl. Qed.

Lemma step_inv es m p m' ob : inv es m -> step p m = Some (m', ob) -> inv (es ++ [(p, ob)]) m'.
Proof.
  intros [F V] S.
  assert (Push : inv (es ++ [(p, ob)]) (Machine (flags m ++ [fresh_flag]) (view m)) \/
                 (exists t o, p = Stop t o) \/ (exists t o k, p = Query t o k) \/ (exists t t', p = Sync t t') \/ (exists o o', p = MoveAssign o o')).
  { destruct p; try (right; eauto 10; fail); left; split; cbn [flags view];
      try (intros o' f; rewrite nth_error_snoc; destruct (Nat.ltb o' (length (flags m)));
           [intros Hf; destruct (F _ _ Hf) as [A B]; split; [exact A|]; intros L; apply stop_called_snoc; auto
           |destruct (Nat.eqb o' (length (flags m))); [|discriminate]; intros [= <-]; split; [now exists 0|cbn; lia]]);
      intros t' o' K; apply knows_snoc in K as [[? [=]]|[[? [=]]|[(? & ? & [=] & _)|K]]]; auto. }
  destruct p as [|o|o|o o'|t o|t o k|t t']; cbn [step] in S.
  - injection S as <- <-. destruct Push as [P|[(?&?&[=])|[(?&?&?&[=])|[(?&?&[=])|(?&?&[=])]]]]. exact P.
  - destruct (Nat.ltb o (length (flags m))); [|discriminate]. injection S as <- <-.
    destruct Push as [P|[(?&?&[=])|[(?&?&?&[=])|[(?&?&[=])|(?&?&[=])]]]]. exact P.
  - destruct (Nat.ltb o (length (flags m))); [|discriminate]. injection S as <- <-.
    destruct Push as [P|[(?&?&[=])|[(?&?&?&[=])|[(?&?&[=])|(?&?&[=])]]]]. exact P.
  - destruct (_ && _); [|discriminate]. injection S as <- <-. split.
    + intros x f Hf. destruct (F _ _ Hf) as [A B]. split; [exact A|]. intros L; apply stop_called_snoc; auto.
    + intros t' x K; apply knows_snoc in K as [[? [=]]|[[? [=]]|[(? & ? & [=] & _)|K]]]; auto.
  - destruct (nth_error (flags m) o) as [f|] eqn:E; [|discriminate]. injection S as <- <-.
    destruct (F _ _ E) as [Wf _]. split; cbn [flags view].
    + intros x g. rewrite nth_error_upd. destruct (Nat.eqb_spec o x) as [<-|N].
      * destruct (Nat.ltb o (length (flags m))); [|discriminate]. intros [= <-]. split; [now apply wf_snoc|].
        intros _. exists t, None. apply in_or_app; right; now left.
      * intros Hg. destruct (F _ _ Hg) as [A B]. split; [exact A|]. intros L; apply stop_called_snoc; auto.
    + assert (1 <= length f) by (destruct Wf as [n ->]; cbn; lia).
      intros t' x K; apply knows_snoc in K as [[? [= <- <-]]|[[? [=]]|[(? & ? & [=] & _)|K]]].
      * now rewrite set_view_same.
      * apply set_view_ge; auto.
  - destruct (nth_error (flags m) o) as [f|] eqn:E; [|discriminate].
    destruct (Nat.leb_spec (view m t o) k) as [L|L]; [|discriminate].
    destruct (nth_error f k) as [b|] eqn:Eb; [|discriminate]. injection S as <- <-.
    destruct (F _ _ E) as [Wf _]. pose proof (wf_true f k b Wf Eb) as Hb. split; cbn [flags view].
    + intros x g Hg. destruct (F _ _ Hg) as [A B]. split; [exact A|]. intros L'; apply stop_called_snoc; auto.
    + intros t' x K; apply knows_snoc in K as [[? [=]]|[[? [= <- <- _ ->]]|[(? & ? & [=] & _)|K]]].
      * rewrite set_view_same. now apply Hb.
      * unfold set_view. destruct (Nat.eqb_spec t' t) as [->|]; cbn; [|now apply V].
        destruct (Nat.eqb_spec x o) as [->|]; [|now apply V]. apply V in K. lia.
  - injection S as <- <-. split; cbn [flags view].
    + intros x g Hg. destruct (F _ _ Hg) as [A B]. split; [exact A|]. intros L'; apply stop_called_snoc; auto.
    + intros u x K; apply knows_snoc in K as [[? [=]]|[[? [=]]|[(u' & ? & [= <- <- _] & K)|K]]].
      * rewrite Nat.eqb_refl. apply V in K. lia.
      * apply V in K. destruct (Nat.eqb_spec u t') as [->|]; lia.
Qed.

Lemma runs_inv es m : runs init es m -> inv es m.
Proof.
  remember init as i eqn:Ei. intros R. induction R as [m|m es m' p m'' ob R IH S]; subst.
  - apply inv_init.
  - eapply step_inv; eauto.
Qed.

Lemma stop_not_lost es m t o k b m' :
  runs init es m -> step (Query t o k) m = Some (m', Some b) ->
  (knows es t o -> b = true) /\ (b = true -> stop_called es o).
Proof.
  intros R S. destruct (runs_inv es m R) as [F V]. cbn in S.
  destruct (nth_error (flags m) o) as [f|] eqn:E; [|discriminate].
  destruct (Nat.leb_spec (view m t o) k) as [L|L]; [|discriminate].
  destruct (nth_error f k) as [b'|] eqn:Eb; [|discriminate]. injection S as <- <-.
  destruct (F _ _ E) as [Wf Sc]. pose proof (wf_true f k b' Wf Eb) as Hb. split.
  - intros K. apply Hb. apply V in K. lia.
  - intros ->. apply Sc. assert (1 <= k) by now apply Hb.
    assert (k < length f) by (apply nth_error_Some; congruence). lia.
Qed.

(** A stop request does reach every thread that loads the newest value, and
    the load can always be performed. *)
Lemma query_possible es m t o : runs init es m -> o < length (flags m) ->
  exists k b m', step (Query t o k) m = Some (m', Some b).
Proof.
  intros R L. 
  assert (B : forall u x f, nth_error (flags m) x = Some f -> view m u x < length f).
  { assert (G : (forall u x f, nth_error (flags m) x = Some f -> view m u x < length f) /\
                (forall u x, length (flags m) <= x -> view m u x = 0)).
    { clear L. remember init as i eqn:Ei. induction R as [m|m es m' p m'' ob R IH S]; subst.
      - split; [intros u [|x] f; discriminate|reflexivity].
      - destruct (IH eq_refl) as [A Z]. destruct (runs_inv _ _ R) as [F _].
        destruct p as [|o1|o1|o1 o2|t1 o1|t1 o1 k|t1 t2]; cbn [step] in S.
        all: try (destruct (Nat.ltb o1 (length (flags m'))); [|discriminate]).
        all: try (destruct (Nat.ltb o2 (length (flags m'))); [|discriminate]).
        all: try (injection S as <- <-; cbn [flags view]; split;
          [intros u x f; rewrite nth_error_snoc; destruct (Nat.ltb x (length (flags m')));
             [apply A|destruct (Nat.eqb_spec x (length (flags m'))) as [->|]; [|discriminate]; intros [= <-]; rewrite Z by lia; cbn; lia]
          |intros u x; rewrite app_length; cbn; intros; apply Z; lia]).
        + cbn in S. injection S as <- <-. auto.
        + destruct (nth_error (flags m') o1) as [f|] eqn:E; [|discriminate]. injection S as <- <-. cbn [flags view]. split.
          * intros u x g. rewrite nth_error_upd. unfold set_view. rewrite (Nat.eqb_sym x o1).
            destruct (Nat.eqb_spec o1 x) as [<-|N].
            -- destruct (Nat.ltb o1 (length (flags m'))); [|discriminate]. intros [= <-]. rewrite app_length; cbn.
               destruct (Nat.eqb u t1); cbn; [lia|]. pose proof (A u o1 f E). lia.
            -- rewrite andb_false_r. apply A.
          * intros u x. rewrite upd_length. intros Hx. unfold set_view.
            destruct (Nat.eqb_spec x o1) as [->|]; [|rewrite andb_false_r; auto].
            assert (o1 < length (flags m')) by (apply nth_error_Some; congruence). lia.
        + destruct (nth_error (flags m') o1) as [f|] eqn:E; [|discriminate].
          destruct (Nat.leb (view m' t1 o1) k); [|discriminate].
          destruct (nth_error f k) as [b|] eqn:Eb; [|discriminate]. injection S as <- <-. cbn [flags view].
          assert (k < length f) by (apply nth_error_Some; congruence). split.
          * intros u x g Hg. unfold set_view. destruct (Nat.eqb u t1); cbn; [|now apply A].
            destruct (Nat.eqb_spec x o1) as [->|]; [|now apply A]. congruence.
          * intros u x Hx. unfold set_view. destruct (Nat.eqb_spec x o1) as [->|]; [|rewrite andb_false_r; auto].
            assert (o1 < length (flags m')) by (apply nth_error_Some; congruence). lia.
        + injection S as <- <-. cbn [flags view]. split.
          * intros u x f Hf. pose proof (A u x f Hf). pose proof (A t1 x f Hf). pose proof (A t2 x f Hf).
            destruct (Nat.eqb u t2); lia.
          * intros u x Hx. rewrite !Z by lia. now destruct (Nat.eqb u t2). }
    apply G. }
  apply nth_error_Some in L. destruct (nth_error (flags m) o) as [f|] eqn:E; [|congruence].
  specialize (B t o f E). assert (Hn : nth_error f (view m t o) <> None) by (now apply nth_error_Some).
  destruct (nth_error f (view m t o)) as [b|] eqn:Eb; [|congruence].
  exists (view m t o), b. cbn. rewrite E. destruct (Nat.leb_spec (view m t o) (view m t o)); [|lia]. rewrite Eb. eauto.
Qed.
