(** From the invariant to the observable statements. *)
From Verif Require Import Base TypeErased_Spec TypeErased_Model TypeErased_Trace TypeErased_Inv TypeErased_Proofs
  TypeErased_Main TypeErased_Obs.
Local Arguments Nat.eqb : simpl never.
Local Arguments Nat.leb : simpl never.
Local Arguments Nat.ltb : simpl never.

(** ** Traces *)
Section Tr.
Context (sizeof : nat -> nat) (sbs : nat).
Lemma nth_in {A} (l : list A) p x : nth_error l p = Some x -> In x l.
Proof. apply nth_error_In. Qed.
Lemma wf_dtor_once h : wf_trace sizeof sbs h -> forall p q o,
  nth_error h p = Some (EDtor o) -> nth_error h q = Some (EDtor o) -> p = q.
Proof.
  induction 1 as [|h e Hw IH Ho]; intros p q o Hp Hq.
  - destruct p; discriminate.
  - rewrite nth_snoc in Hp, Hq.
    destruct (Nat.ltb_spec p (length h)), (Nat.ltb_spec q (length h)).
    + eauto.
    + destruct (Nat.eqb_spec q (length h)); [|discriminate]. injection Hq as ->. cbn in Ho.
      destruct Ho as (l & t & _ & N). destruct N. eauto using nth_in.
    + destruct (Nat.eqb_spec p (length h)); [|discriminate]. injection Hp as ->. cbn in Ho.
      destruct Ho as (l & t & _ & N). destruct N. eauto using nth_in.
    + destruct (Nat.eqb_spec p (length h)); [|discriminate]. destruct (Nat.eqb_spec q (length h)); [|discriminate]. lia.
Qed.
Lemma wf_free_once h : wf_trace sizeof sbs h -> forall p q b n a n' a',
  nth_error h p = Some (EFree b n a) -> nth_error h q = Some (EFree b n' a') -> p = q.
Proof.
  induction 1 as [|h e Hw IH Ho]; intros p q b n a n' a' Hp Hq.
  - destruct p; discriminate.
  - rewrite nth_snoc in Hp, Hq.
    destruct (Nat.ltb_spec p (length h)), (Nat.ltb_spec q (length h)).
    + eauto.
    + destruct (Nat.eqb_spec q (length h)); [|discriminate]. injection Hq as ->. cbn in Ho.
      destruct Ho as ((_ & N) & _). destruct N. exists n, a. eauto using nth_in.
    + destruct (Nat.eqb_spec p (length h)); [|discriminate]. injection Hp as ->. cbn in Ho.
      destruct Ho as ((_ & N) & _). destruct N. exists n', a'. eauto using nth_in.
    + destruct (Nat.eqb_spec p (length h)); [|discriminate]. destruct (Nat.eqb_spec q (length h)); [|discriminate]. lia.
Qed.
(** The block freed was allocated with that size by that allocator. *)
Lemma wf_free_matches h : wf_trace sizeof sbs h -> forall b n a, In (EFree b n a) h -> In (EAlloc b n a) h.
Proof.
  induction 1 as [|h e Hw IH Ho]; intros b n a H; [destruct H|].
  rewrite in_snoc in *. destruct H as [H| ->]; [auto|]. cbn in Ho. left. apply Ho.
Qed.
End Tr.

Section F.
Context {V : Type} (P : @settings).
Hypothesis sizeof_pos : forall t, 0 < sizeof P t.
Notation world := (@world V).

Lemma reached_inv (ext : list (nat * V)) (os : list (op V)) rs (s : world) a : reached P ext os rs s a -> Good P (length ext) s a /\ TI P s.
Proof.
  intros (Hr & Hm & E). destruct (run_ok P (length ext) sizeof_pos os (init ext) _ rs a (Good_init P ext) Hr Hm) as (s' & E' & G).
  rewrite E in E'. injection E' as <-. split; [exact G|]. exact (TI_run P os _ _ _ (TI_init P ext) E).
Qed.

Lemma points_iff (s : world) i l : points_to s i l <-> exists w, nth_error (slots s) i = Some (Some w) /\ self w = Some l.
Proof.
  unfold points_to, get_const_pointer, getw, mbind, ret. destruct (nth_error (slots s) i) as [[w|]|]; split.
  - intros [= H]. eauto.
  - intros (w' & [= <-] & ->). reflexivity.
  - discriminate.
  - intros (w' & H & _). discriminate.
  - discriminate.
  - intros (w' & H & _). discriminate.
Qed.

Lemma shows_aview NE (s : world) i w : Inv P NE s -> nth_error (slots s) i = Some (Some w) -> shows s i (aview s w).
Proof.
  intros I Hi. pose proof (inv_slot _ _ _ I _ _ Hi) as Hok. unfold slot_ok in Hok. unfold aview.
  destruct (self w) as [[b|j|e]|] eqn:Es.
  - destruct Hok as (_ & o & Ho & Hz & _). rewrite Ho. cbn. exists (LHeap b). split; [|split; [|split]].
    + apply points_iff. eauto.
    + exists o. auto.
    + right. eauto.
    + unfold get_pointer, getw, mbind, ret. rewrite Hi, Hz, Es. reflexivity.
  - destruct Hok as (-> & o & Ho & Hz & _). rewrite Ho. cbn. exists (LSmall i). split; [|split; [|split]].
    + apply points_iff. eauto.
    + exists o. auto.
    + auto.
    + unfold get_pointer, getw, mbind, ret. rewrite Hi, Hz, Es. reflexivity.
  - destruct Hok as (_ & o & c & Ho & Hz & _). cbn. split.
    + apply points_iff. eauto.
    + unfold get_pointer, getw, mbind, ret. rewrite Hi, Hz, Es. destruct c; reflexivity.
  - cbn. unfold get_const_pointer, getw, mbind, ret. now rewrite Hi, Es.
Qed.

Lemma good_shows NE (s : world) a : Good P NE s a -> shows_all s a.
Proof.
  intros [I Rr]. split; [|split].
  - intros i x n H. destruct (R_get_inv _ _ _ _ Rr H) as (w & Hw & [= -> ->]). split.
    + now apply (shows_aview NE).
    + exists w. auto.
  - intros i H. unfold gone. destruct (nth_error (slots s) i) as [[w|]|] eqn:E; auto.
    rewrite (R_get _ _ _ _ Rr E) in H. discriminate.
  - intros e t v. destruct Rr as [_ R2]. rewrite <- R2. unfold object_at.
    destruct (objs s (LExt e)) as [o|]; cbn; split.
    + intros [= <- <-]. eauto.
    + intros (o' & [= <-] & <- & <-). reflexivity.
    + discriminate.
    + intros (o' & H & _). discriminate.
Qed.

Lemma good_accounted NE (s : world) a : Good P NE s a -> TI P s -> accounted s.
Proof.
  intros [I _] T. split.
  - intros b n al0 H. apply (ti_blk2 _ _ T) in H. destruct (inv_blk _ _ _ I _ _ _ H) as (i & w & Hi & Hs).
    exists i. apply points_iff. eauto.
  - intros o l t H. destruct (ti_obj2 _ _ T _ _ _ H) as [v Hv]. destruct l as [b|i|e]; [right|right|eauto].
    + destruct (inv_heap _ _ _ I _ _ Hv) as (m & al0 & Hb). destruct (inv_blk _ _ _ I _ _ _ Hb) as (i & w & Hi & Hs).
      exists i. apply points_iff. eauto.
    + destruct (inv_small _ _ _ I _ _ Hv) as (w & Hw). exists i. apply points_iff. exists w. split; auto.
      pose proof (inv_slot _ _ _ I _ _ Hw) as Hok. unfold slot_ok in Hok.
      destruct (self w) as [[b|j|e]|].
      * destruct Hok as [N _]. congruence.
      * destruct Hok as [-> _]. reflexivity.
      * destruct Hok as [N _]. congruence.
      * congruence.
Qed.
Lemma good_unshared NE (s : world) a : Good P NE s a -> unshared s.
Proof.
  intros [I _] i j l Hi Hj. apply points_iff in Hi, Hj. destruct Hi as (wi & Hi & Si). destruct Hj as (wj & Hj & Sj).
  destruct l as [b|k|e]; [left|left|eauto].
  - exact (inv_uniq _ _ _ I _ _ _ _ _ Hi Hj Si Sj).
  - pose proof (inv_slot _ _ _ I _ _ Hi) as Ki. pose proof (inv_slot _ _ _ I _ _ Hj) as Kj.
    unfold slot_ok in Ki, Kj. rewrite Si in Ki. rewrite Sj in Kj. destruct Ki as [-> _], Kj as [-> _]. reflexivity.
Qed.

(** ** Main statements *)
Theorem te_run_exists (ext : list (nat * V)) (os : list (op V)) rs a : a_run P (AState [] ext) os rs a -> Forall moves_get_memory os ->
  exists s, reached P ext os rs s a.
Proof.
  intros Hr Hm. destruct (run_ok P (length ext) sizeof_pos os (init ext) _ rs a (Good_init P ext) Hr Hm) as (s' & E' & G).
  exists s'. repeat split; auto.
Qed.
Theorem te_shows (ext : list (nat * V)) (os : list (op V)) rs (s : world) a : reached P ext os rs s a -> shows_all s a /\ unshared s.
Proof. intros H. destruct (reached_inv _ _ _ _ _ H) as [G _]. split; [eapply good_shows|eapply good_unshared]; eauto. Qed.
Theorem te_resources (ext : list (nat * V)) (os : list (op V)) rs (s : world) a : reached P ext os rs s a ->
  wf_trace (sizeof P) (sbs P) (trace s) /\ accounted s.
Proof. intros H. destruct (reached_inv _ _ _ _ _ H) as [G T]. split; [apply T|eapply good_accounted; eauto]. Qed.
Lemma no_wrappers (s : world) i l : gone s i -> ~ points_to s i l.
Proof. intros H K. apply points_iff in K. destruct K as (w & K & _). unfold gone in H. rewrite K in H. exact H. Qed.
Theorem te_no_leak (ext : list (nat * V)) (os : list (op V)) rs (s : world) a : reached P ext os rs s a -> (forall i, a_get a i = None) ->
  (forall b n al0, In (EAlloc b n al0) (trace s) -> exists p, nth_error (trace s) p = Some (EFree b n al0) /\
     forall q n' al', nth_error (trace s) q = Some (EFree b n' al') -> q = p) /\
  (forall o l t, In (ECtor o l t) (trace s) -> (forall e, l <> LExt e) -> exists p, nth_error (trace s) p = Some (EDtor o) /\
     forall q, nth_error (trace s) q = Some (EDtor o) -> q = p).
Proof.
  intros H Hn. destruct (reached_inv _ _ _ _ _ H) as [G T].
  destruct (te_shows _ _ _ _ _ H) as [(_ & Hg & _) _]. destruct (te_resources _ _ _ _ _ H) as (W & A1 & A2).
  split.
  - intros b n al0 Ha.
    assert (D : In (EFree b n al0) (trace s) \/ ~ exists n' a', In (EFree b n' a') (trace s)).
    { destruct (nth_error (blocks s) b) as [[m ma lv]|] eqn:E.
      2:{ apply nth_error_None in E. pose proof (ti_blk3 _ _ T _ _ _ Ha). lia. }
      destruct lv.
      - destruct (ti_blk1 _ _ T _ _ _ E) as [_ N]. right. exact N.
      - left. 
        assert (Hdec : (exists n' a', In (EFree b n' a') (trace s)) \/ ~ exists n' a', In (EFree b n' a') (trace s)).
        { clear. induction (trace s) as [|e h IH].
          - right. intros (n' & a' & []).
          - destruct IH as [(n' & a' & IH)|IH].
            + left. exists n', a'. now right.
            + destruct e; try (right; intros (n' & a' & [K|K]); [discriminate|eauto]; fail).
              destruct (Nat.eq_dec b0 b) as [->|].
              * left. exists n, a. now left.
              * right. intros (n' & a' & [K|K]); [congruence|eauto]. }
        destruct Hdec as [(n' & a' & K)|K].
        + pose proof (wf_free_matches _ _ _ W _ _ _ K) as K2.
          assert (n' = n /\ a' = al0) as [-> ->]; [|exact K].
          clear - W Ha K2. induction W as [|h e W IH Ho]; [destruct Ha|]. rewrite in_snoc in *.
          destruct Ha as [Ha| ->], K2 as [K2|K2]; auto.
          * subst e. cbn in Ho. destruct (Ho _ _ Ha).
          * cbn in Ho. destruct (Ho _ _ K2).
          * injection K2 as -> ->. auto.
        + assert (block_alive (trace s) b n al0) as B by (split; auto). apply (ti_blk2 _ _ T) in B. rewrite E in B. discriminate. }
    destruct D as [D|D].
    + apply In_nth_error in D. destruct D as [p D]. exists p. split; auto.
      intros q n' al' Hq. symmetry. eapply wf_free_once; eauto.
    + destruct (A1 b n al0) as [i Hi]; [split; auto|]. destruct (no_wrappers _ _ _ (Hg i (Hn i)) Hi).
  - intros o l t Hc Hl.
    assert (D : In (EDtor o) (trace s) \/ ~ In (EDtor o) (trace s)).
    { clear. induction (trace s) as [|e h IH]; [now right|]. destruct IH as [IH|IH]; [left; now right|].
      destruct e; try (right; intros [K|K]; [discriminate|auto]; fail).
      destruct (Nat.eq_dec o0 o) as [->|]; [left; now left|right; intros [K|K]; [congruence|auto]]. }
    destruct D as [D|D].
    + apply In_nth_error in D. destruct D as [p D]. exists p. split; auto.
      intros q Hq. symmetry. eapply wf_dtor_once; eauto.
    + destruct (A2 o l t) as [[e He]|[i Hi]]; [split; auto| |].
      * destruct (Hl _ He).
      * destruct (no_wrappers _ _ _ (Hg i (Hn i)) Hi).
Qed.
Theorem te_safe (ext : list (nat * V)) (os : list (op V)) rs (s : world) a o a' r : reached P ext os rs s a -> a_step P a o = Some (a', r) ->
  (exists s', perform P s o = Next s' r) \/ (perform P s o = Stuck_terminate /\ ~ moves_get_memory o).
Proof.
  intros H Hs. destruct (reached_inv _ _ _ _ _ H) as [G _].
  destruct (perform_ok P _ sizeof_pos s a o a' r G Hs) as [(s' & E & _)|K]; eauto.
Qed.
Lemma run_app os1 os2 : forall (s : world), run P s (os1 ++ os2) =
  match run P s os1 with
  | Some (s1, rs1) => match run P s1 os2 with Some (s2, rs2) => Some (s2, rs1 ++ rs2) | None => None end
  | None => None end.
Proof.
  induction os1 as [|o os1 IH]; intros s; cbn.
  - destruct (run P s os2) as [[s2 rs2]|]; reflexivity.
  - destruct (perform P s o); auto. rewrite IH. destruct (run P s0 os1) as [[s1 rs1]|]; auto.
    destruct (run P s1 os2) as [[s2 rs2]|]; auto.
Qed.
Lemma a_run_app os1 os2 : forall (a : astate V) rs1 a1 rs2 a2, a_run P a os1 rs1 a1 -> a_run P a1 os2 rs2 a2 ->
  a_run P a (os1 ++ os2) (rs1 ++ rs2) a2.
Proof.
  induction os1 as [|o os1 IH]; intros a rs1 a1 rs2 a2 H1 H2; inversion H1; subst; cbn; auto.
  econstructor; eauto.
Qed.
Theorem te_continue (ext : list (nat * V)) (os : list (op V)) rs (s : world) a o a' r : reached P ext os rs s a -> a_step P a o = Some (a', r) ->
  moves_get_memory o -> exists s', perform P s o = Next s' r /\ reached P ext (os ++ [o]) (rs ++ [r]) s' a'.
Proof.
  intros H Hs Hm. destruct (reached_inv _ _ _ _ _ H) as [G _]. destruct H as (H1 & H2 & H3).
  destruct (perform_ok P _ sizeof_pos s a o a' r G Hs) as [(s' & E & _)|[_ K]]; [|contradiction].
  exists s'. split; auto. split; [|split].
  - eapply a_run_app; eauto. econstructor; eauto. constructor.
  - apply Forall_app. auto.
  - rewrite run_app, H3. cbn. now rewrite E.
Qed.

Theorem te_no_touch (ext : list (nat * V)) (os : list (op V)) rs (s : world) a : reached P ext os rs s a -> forall e, e < length ext ->
  ~ In (ECopy e) (trace s) /\ ~ In (EMove e) (trace s) /\ ~ In (EDtor e) (trace s).
Proof.
  intros H e He. destruct (reached_inv _ _ _ _ _ H) as [[I _] _]. pose proof (inv_clean _ _ _ I) as C.
  rewrite Forall_forall in C. repeat split; intros K; apply C in K; cbn in K; lia.
Qed.

(** ** References *)
(** Abstract histories in which variable [e] is only wrapped through pointers to const. *)
Definition const_only (e : nat) (o : op V) : Prop :=
  match o with ORef _ e' c => e' = e -> c = true | _ => True end.
Definition no_mut (e : nat) (a : astate V) : Prop := forall i n, a_get a i <> Some (ARef e false, n).

Lemma a_get_put (a : astate V) i x j y z : a_get a i = Some z -> a_get (a_put a i x) j = Some y -> (j = i /\ x = Some y) \/ a_get a j = Some y.
Proof.
  unfold a_get, a_put. cbn. rewrite nth_error_upd. destruct (Nat.eqb_spec i j) as [<-|]; [|auto].
  intros Hz. destruct (Nat.ltb i (length (a_ws a))); [|discriminate]. destruct x; [|discriminate]. intros [= ->]. auto.
Qed.
Lemma a_get_push (a : astate V) x j y : a_get (a_push a x) j = Some y -> x = Some y \/ a_get a j = Some y.
Proof.
  unfold a_get, a_push. cbn. rewrite nth_snoc. destruct (Nat.ltb j (length (a_ws a))); [auto|].
  destruct (Nat.eqb j (length (a_ws a))); [|discriminate]. destruct x; [|discriminate]. auto.
Qed.
Lemma a_get_store (a : astate V) i x al0 v j y z : a_get a i = Some z -> a_get (a_store a i x al0 v) j = Some y ->
  (exists t v', y = (AOwned t v', al0)) \/ a_get a j = Some y.
Proof.
  intros Hz. destruct x as [|t v0|e c]; cbn.
  - auto.
  - intros H. destruct (a_get_put _ _ _ _ _ _ Hz H) as [[_ [= <-]]|K]; [|auto]. left. eauto.
  - destruct (nth_error (a_ext a) e) as [[t0 v0]|]; auto.
Qed.

Lemma no_mut_step e (a : astate V) o a' r : no_mut e a -> const_only e o -> a_step P a o = Some (a', r) ->
  no_mut e a' /\ nth_error (a_ext a') e = nth_error (a_ext a) e.
Proof.
  intros Hn Hc Hs.
  assert (Hg : forall i x n, a_get a i = Some (x, n) -> x <> ARef e false) by (intros i x n H ->; exact (Hn _ _ H)).
  assert (Hst : forall i x n v, a_get a i = Some (x, n) -> is_const_ref x = false ->
            no_mut e (a_store a i x n v) /\ nth_error (a_ext (a_store a i x n v)) e = nth_error (a_ext a) e).
  { intros i x n v Hx Hcr. split.
    - intros j n' K. destruct (a_get_store _ _ _ _ _ _ _ _ Hx K) as [(t & v' & [=])|K2]. exact (Hn _ _ K2).
    - destruct x as [|t v0|e' c]; cbn; auto. destruct (nth_error (a_ext a) e') as [[t0 v0]|]; cbn; auto.
      cbn in Hcr. subst c. apply upd_other. intros ->. exact (Hn _ _ Hx). }
  destruct o; cbn [a_step] in Hs.
  - injection Hs as <- <-. split; [|reflexivity]. intros i n H. destruct (a_get_push _ _ _ _ H) as [[=]|K]. exact (Hn _ _ K).
  - destruct (val_throws _ _ _ _); injection Hs as <- <-; (split; [|reflexivity]); intros i n H;
      (destruct (a_get_push _ _ _ _ H) as [[=]|K]; exact (Hn _ _ K)).
  - destruct (nth_error (a_ext a) e0); [|discriminate]. injection Hs as <- <-. split; [|reflexivity]. intros i n H.
    destruct (a_get_push _ _ _ _ H) as [[= -> -> _]|K]; [|exact (Hn _ _ K)]. cbn in Hc. specialize (Hc eq_refl). discriminate.
  - destruct (a_get a j) as [[x al0]|] eqn:E; [|discriminate].
    destruct (copy_throws _ _ _ _); injection Hs as <- <-; (split; [|reflexivity]); intros i n H;
      (destruct (a_get_push _ _ _ _ H) as [K|K]; [first [discriminate | injection K as -> _; exact (Hn _ _ E)]|exact (Hn _ _ K)]).
  - destruct (a_get a j) as [[x al0]|] eqn:E; [|discriminate]. injection Hs as <- <-. split; [|reflexivity]. intros i n H.
    destruct (a_get_push _ _ _ _ H) as [[=]|K].
    + subst. exact (Hn _ _ E).
    + destruct (a_get_put _ _ _ _ _ _ E K) as [[_ [=]]|K2]. exact (Hn _ _ K2).
  - destruct (a_get a i) as [[xi ai]|] eqn:Ei; [|discriminate]. destruct (a_get a j) as [[x aj]|] eqn:Ej; [|discriminate].
    destruct (Nat.eqb i j); [injection Hs as <- <-; auto|].
    destruct (copy_throws _ _ _ _); injection Hs as <- <-; (split; [|reflexivity]); intros k n H;
      (destruct (a_get_put _ _ _ _ _ _ Ei H) as [[_ K]|K]; [first [discriminate | injection K as -> _; exact (Hn _ _ Ej)]|exact (Hn _ _ K)]).
  - destruct (a_get a i) as [[xi ai]|] eqn:Ei; [|discriminate]. destruct (a_get a j) as [[x aj]|] eqn:Ej; [|discriminate].
    destruct (Nat.eqb_spec i j); [injection Hs as <- <-; auto|]. injection Hs as <- <-. split; [|reflexivity]. intros k n0 H.
    assert (Ei' : a_get (a_put a j (Some (AEmpty, aj))) i = Some (xi, ai)).
    { unfold a_get, a_put. cbn. rewrite upd_other by auto. exact Ei. }
    destruct (a_get_put _ _ _ _ _ _ Ei' H) as [[_ [=]]|K].
    + subst. exact (Hn _ _ Ej).
    + destruct (a_get_put _ _ _ _ _ _ Ej K) as [[_ [=]]|K2]. exact (Hn _ _ K2).
  - destruct (a_get a i) as [x|] eqn:Ei; [|discriminate]. injection Hs as <- <-. split; [|reflexivity]. intros k n H.
    destruct (a_get_put _ _ _ _ _ _ Ei H) as [[_ [=]]|K]. exact (Hn _ _ K).
  - destruct (a_get a i) as [[x n]|]; [|discriminate]. destruct (a_see a x) as [[t' v]|]; [|discriminate].
    injection Hs as <- <-. auto.
  - destruct (a_get a i) as [[x n]|] eqn:E; [|discriminate]. destruct (a_see a x) as [[t' v']|]; [|discriminate].
    destruct (negb _); [injection Hs as <- <-; auto|]. destruct (is_const_ref x) eqn:Ec; injection Hs as <- <-; auto.
  - destruct (a_get a i) as [[x n]|] eqn:E; [|discriminate]. destruct (a_see a x) as [[t' v']|]; [|discriminate].
    destruct (negb _); [injection Hs as <- <-; auto|]. destruct (is_const_ref x) eqn:Ec; injection Hs as <- <-; auto.
  - destruct (a_get a i) as [[x n]|]; [|discriminate]. destruct (a_see a x) as [[t' v]|]; [|discriminate].
    injection Hs as <- <-. auto.
  - destruct (a_get a i) as [[x n]|] eqn:E; [|discriminate]. destruct (a_see a x) as [[t' v']|]; [|discriminate].
    destruct (is_const_ref x) eqn:Ec; injection Hs as <- <-; auto.
Qed.
Lemma no_mut_run e os : forall (a : astate V) rs a', no_mut e a -> Forall (const_only e) os -> a_run P a os rs a' ->
  no_mut e a' /\ nth_error (a_ext a') e = nth_error (a_ext a) e.
Proof.
  induction os as [|o os IH]; intros a rs a' Hn Hc Hr; inversion Hr as [|? ? s1 r ? rs0 ? Hst Htl]; subst; [auto|].
  inversion Hc as [|? ? Hc1 Hc2]; subst. destruct (no_mut_step e a o s1 r Hn Hc1 Hst) as [N1 N2].
  destruct (IH s1 rs0 a' N1 Hc2 Htl) as [N3 N4]. split; [exact N3|congruence].
Qed.
Theorem te_const_history (ext : list (nat * V)) (os : list (op V)) rs (s : world) a e t v : reached P ext os rs s a ->
  Forall (const_only e) os -> nth_error ext e = Some (t, v) -> object_at s (LExt e) t v.
Proof.
  intros H Hc He. destruct (te_shows _ _ _ _ _ H) as [(_ & _ & Hx) _]. apply Hx.
  destruct H as (Hr & _ & _). assert (N : no_mut e (AState [] ext)) by (intros [|i] n; discriminate).
  destruct (no_mut_run e os _ rs a N Hc Hr) as [_ ->]. exact He.
Qed.

(** Variables keep their type. *)
Lemma types_step (a : astate V) o a' r : a_step P a o = Some (a', r) -> map fst (a_ext a') = map fst (a_ext a).
Proof.
  intros Hs.
  assert (St : forall i x n v, map fst (a_ext (a_store a i x n v)) = map fst (a_ext a)).
  { intros i x n v. destruct x as [|t v0|e c]; cbn; auto. destruct (nth_error (a_ext a) e) as [[t v0]|] eqn:E; auto. cbn.
    apply list_ext. intros j. rewrite !nth_error_map, nth_error_upd. destruct (Nat.eqb_spec e j) as [<-|]; auto.
    rewrite E. pose proof (nth_some_lt _ _ _ E) as Hl. apply Nat.ltb_lt in Hl. now rewrite Hl. }
  destruct o; cbn [a_step] in Hs;
    repeat match type of Hs with
    | match ?x with _ => _ end = _ => destruct x; try discriminate Hs
    | (if ?x then _ else _) = _ => destruct x; try discriminate Hs
    | (let _ := _ in _) = _ => cbv zeta in Hs
    end; injection Hs as <- <-; cbn; auto.
Qed.
Lemma types_run os : forall (a : astate V) rs a', a_run P a os rs a' -> map fst (a_ext a') = map fst (a_ext a).
Proof.
  induction os as [|o os IH]; intros a rs a' Hr; inversion Hr as [|? ? s1 r ? rs0 ? Hst Htl]; subst; auto.
  rewrite (IH _ _ _ Htl). eapply types_step; eauto.
Qed.
Theorem te_variables_stay (ext : list (nat * V)) (os : list (op V)) rs (s : world) a e t v : reached P ext os rs s a ->
  nth_error ext e = Some (t, v) -> exists v', object_at s (LExt e) t v'.
Proof.
  intros H He. destruct (te_shows _ _ _ _ _ H) as [(_ & _ & Hx) _]. destruct H as (Hr & _).
  apply types_run in Hr. cbn in Hr.
  assert (E : nth_error (map fst (a_ext a)) e = Some t) by (rewrite Hr, nth_error_map, He; reflexivity).
  rewrite nth_error_map in E. destruct (nth_error (a_ext a) e) as [[t' v']|] eqn:E2; [|discriminate].
  injection E as ->. exists v'. now apply Hx.
Qed.

(** Access through a wrapper in any reachable state. *)
Lemma good_as NE (s : world) i w t : Inv P NE s -> nth_error (slots s) i = Some (Some w) ->
  (forall l, self w = Some l -> exists t' v, object_at s l t' v /\
     as_const i t s = (if Nat.eqb t t' then ROk (Some l) s else RThrow bad_type_erased_type s) /\
     as_mut i t s = (if Nat.eqb t t' then if is_const (size w) then RThrow bad_type_erased_constness s else ROk (Some l) s
                     else RThrow bad_type_erased_type s)).
Proof.
  intros I Hi l Hl. pose proof (inv_slot _ _ _ I _ _ Hi) as Hok. unfold slot_ok in Hok. rewrite Hl in Hok.
  assert (K : exists o, objs s l = Some o /\ exists c, vt w = Some (o_ty o, c)).
  { destruct l as [b|j|e].
    - destruct Hok as (_ & o & Ho & _ & _ & Hv & _). eauto.
    - destruct Hok as (-> & o & Ho & _ & _ & Hv). eauto.
    - destruct Hok as (_ & o & c & Ho & _ & Hv). eauto. }
  destruct K as (o & Ho & c & Hv). exists (o_ty o), (o_val o). split; [exists o; auto|].
  unfold as_const, as_mut, getw, mbind, ret, throw. rewrite Hi. unfold type_is. rewrite Hv, Hl.
  destruct (Nat.eqb t (o_ty o)); cbn; auto. destruct (is_const (size w)); auto.
Qed.

Theorem te_as_nonempty (ext : list (nat * V)) (os : list (op V)) rs (s : world) a i x n t : reached P ext os rs s a -> a_get a i = Some (x, n) -> x <> AEmpty ->
  exists l t' v, points_to s i l /\ object_at s l t' v /\ a_see a x = Some (t', v) /\
    as_const i t s = (if Nat.eqb t t' then ROk (Some l) s else RThrow bad_type_erased_type s) /\
    as_mut i t s = (if Nat.eqb t t' then if is_const_ref x then RThrow bad_type_erased_constness s else ROk (Some l) s
                    else RThrow bad_type_erased_type s) /\
    as_rvalue i t s = as_mut i t s.
Proof.
  intros H Hx Hne. destruct (reached_inv _ _ _ _ _ H) as [[I Rr] _].
  destruct (R_get_inv _ _ _ _ Rr Hx) as (w & Hw & [= -> ->]).
  assert (exists l, self w = Some l) as [l Hl].
  { unfold aview in Hne. destruct (self w); [eauto|congruence]. }
  destruct (good_as _ _ _ _ t I Hw l Hl) as (t' & v & (o & Ho & <- & <-) & H1 & H2).
  exists l, (o_ty o), (o_val o). split; [apply points_iff; eauto|]. split; [exists o; auto|].
  split; [|split; [exact H1|split; [|reflexivity]]].
  - unfold aview. rewrite Hl. destruct l as [b|j|e]; try (rewrite Ho; reflexivity).
    cbn. destruct Rr as [_ R2]. rewrite <- R2, Ho. reflexivity.
  - rewrite H2. unfold aview. rewrite Hl. destruct l as [b|j|e]; try reflexivity;
      pose proof (inv_slot _ _ _ I _ _ Hw) as Hok; unfold slot_ok in Hok; rewrite Hl in Hok.
    + destruct Hok as (_ & o' & Ho' & Hz & _). rewrite Hz, Ho'. reflexivity.
    + destruct Hok as (-> & o' & Ho' & Hz & _). rewrite Hz, Ho'. reflexivity.
Qed.
(** as<T>() never gives a dangling or wrongly typed object. *)
Theorem te_as_sound (ext : list (nat * V)) (os : list (op V)) rs (s : world) a i t l : reached P ext os rs s a ->
  as_const i t s = ROk (Some l) s \/ as_mut i t s = ROk (Some l) s \/ as_rvalue i t s = ROk (Some l) s ->
  points_to s i l /\ exists v, object_at s l t v.
Proof.
  intros H K. destruct (reached_inv _ _ _ _ _ H) as [[I Rr] _].
  assert (exists w, nth_error (slots s) i = Some (Some w) /\ self w = Some l /\ type_is w t = true) as (w & Hw & Hl & Ht).
  { unfold as_const, as_mut, as_rvalue, getw, mbind, ret, throw in K.
    destruct (nth_error (slots s) i) as [[w|]|] eqn:E; [|intuition discriminate|intuition discriminate].
    exists w. split; [auto|]. destruct (type_is w t); cbn in K; [|intuition discriminate].
    split; auto. destruct K as [[= K]|[K|K]]; auto; destruct (is_const (size w)); congruence. }
  split; [apply points_iff; eauto|]. destruct (good_as _ _ _ _ t I Hw l Hl) as (t' & v & Ho & H1 & H2).
  destruct (Nat.eqb_spec t t') as [->|N]; [eauto|].
  exfalso. unfold as_const, getw, mbind, ret, throw in H1. rewrite Hw, Ht in H1. cbn in H1. congruence.
Qed.
Theorem te_as_default (ext : list (nat * V)) (os : list (op V)) rs (s : world) a n : reached P ext os rs s a ->
  exists s', perform P s (ONew n) = Next s' Done /\
   forall t, as_const (length (slots s)) t s' = RThrow bad_type_erased_type s' /\
     as_mut (length (slots s)) t s' = RThrow bad_type_erased_type s' /\
     as_rvalue (length (slots s)) t s' = RThrow bad_type_erased_type s'.
Proof.
  intros _. eexists. split; [reflexivity|]. intros t.
  unfold as_const, as_mut, as_rvalue, getw, mbind. cbn [slots]. rewrite nth_error_app2 by lia. rewrite Nat.sub_diag. repeat split; reflexivity.
Qed.
End F.
