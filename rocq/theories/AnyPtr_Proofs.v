From Verif Require Import Base AnyPtr_Model.
Local Open Scope outcome_scope.
Local Arguments Nat.eqb : simpl never.

Lemma any_cast_spec T U p :
  any_cast U (any_ptr_of T p) =
  match p with
  | None => Ok None
  | Some a => if (Nat.eqb (tid U) (tid T) && Bool.eqb (cst U) (cst T))%bool then Ok (Some a) else Throw bad_any_cast
  end.
Proof.
  unfold any_cast, any_ptr_of; cbn. destruct p; [|reflexivity].
  destruct (Nat.eqb (tid U) (tid T)); cbn; [|reflexivity].
  now destruct (Bool.eqb (cst U) (cst T)).
Qed.

Lemma same_type T U : (Nat.eqb (tid U) (tid T) && Bool.eqb (cst U) (cst T))%bool = true <-> U = T.
Proof.
  destruct T as [t c], U as [u d]; cbn. split.
  - intros H. apply andb_true_iff in H as [H1 H2]. apply Nat.eqb_eq in H1. apply eqb_prop in H2. now subst.
  - intros [= -> ->]. now rewrite Nat.eqb_refl, eqb_reflx.
Qed.

(** The invariant: use counts count variables. *)
Definition refers (b : nat) (v : option handle) : nat :=
  match v with
  | Some h => match ctrl (sp_of h) with Some b' => if Nat.eqb b' b then 1 else 0 | None => 0 end
  | None => 0
  end.
Definition wfp (bs : list cblock) (t : nat) (p : sptr) : Prop :=
  match ctrl p, get p with
  | None, None => True
  | Some b, Some a => a = b /\ exists k, nth_error bs b = Some k /\ oty k = t
  | _, _ => False
  end.
Definition wfh (bs : list cblock) (h : handle) : Prop :=
  match h with
  | HShared T p => wfp bs (tid T) p
  | HAny p ty _ => wfp bs ty p
  end.
Definition hty (h : handle) := match h with HShared T _ => tid T | HAny _ ty _ => ty end.
Lemma wfh_wfp bs h : wfh bs h <-> wfp bs (hty h) (sp_of h).
Proof. destruct h; reflexivity. Qed.

Record inv (w : world) : Prop := {
  inv_refs : forall b k, nth_error (blocks w) b = Some k -> refs k = sumf (refers b) (vars w);
  inv_drops : forall b k, nth_error (blocks w) b = Some k -> drops k = if Nat.eqb (refs k) 0 then 1 else 0;
  inv_wf : forall i h, nth_error (vars w) i = Some (Some h) -> wfh (blocks w) h;
}.

Lemma inv_empty : inv empty_world.
Proof. split; intros [|?] ?; discriminate. Qed.

(** Heaps that differ in counts only. *)
Definition same_objs (bs bs' : list cblock) : Prop :=
  length bs' = length bs /\
  forall b k, nth_error bs b = Some k -> exists k', nth_error bs' b = Some k' /\ oty k' = oty k.
Lemma same_objs_wfp bs bs' t p : same_objs bs bs' -> wfp bs t p -> wfp bs' t p.
Proof.
  intros [_ H]. unfold wfp. destruct (ctrl p), (get p); auto.
  intros (-> & k & Hk & <-). split; [reflexivity|]. apply H in Hk as (k' & Hk' & E). eauto.
Qed.
Lemma same_objs_wfh bs bs' h : same_objs bs bs' -> wfh bs h -> wfh bs' h.
Proof. rewrite !wfh_wfp. apply same_objs_wfp. Qed.
Lemma same_objs_refl bs : same_objs bs bs.
Proof. split; eauto. Qed.
Lemma same_objs_trans a b c : same_objs a b -> same_objs b c -> same_objs a c.
Proof.
  intros [L H] [L' H']. split; [congruence|]. intros i k Hk.
  apply H in Hk as (k' & Hk & E). apply H' in Hk as (k'' & Hk & E'). exists k''. split; [auto|congruence].
Qed.
Lemma same_objs_upd bs b k k' : nth_error bs b = Some k -> oty k' = oty k -> same_objs bs (upd bs b k').
Proof.
  intros Hb E. split; [apply upd_length|]. intros i x Hi. rewrite nth_error_upd.
  destruct (Nat.eqb_spec b i) as [->|N]; [|eauto].
  assert (x = k) by congruence; subst.
  assert (i < length bs) by (apply nth_error_Some; congruence).
  destruct (Nat.ltb_spec i (length bs)); [eauto|lia].
Qed.

(** Weight of one pointer on block [b]. *)
Definition wt (b : nat) (p : sptr) : nat := match ctrl p with Some b' => if Nat.eqb b' b then 1 else 0 | None => 0 end.

(** A heap whose counts are [n b]. *)
Definition counts (bs : list cblock) (n : nat -> nat) : Prop :=
  forall b k, nth_error bs b = Some k -> refs k = n b /\ drops k = if Nat.eqb (refs k) 0 then 1 else 0.

Lemma acquire_ok bs n p t :
  counts bs n -> wfp bs t p -> (forall b, wt b p <= n b) ->
  exists bs', acquire p bs = Ok bs' /\ same_objs bs bs' /\ counts bs' (fun b => n b + wt b p).
Proof.
  intros C W P. unfold acquire. unfold wfp in W.
  destruct (ctrl p) as [b|] eqn:Ec.
  - destruct (get p) as [a|] eqn:Eg; [|contradiction]. destruct W as (-> & k & Hk & Ht).
    pose proof (C b k Hk) as [Hr Hd]. specialize (P b) as Pb. unfold wt in Pb. rewrite Ec, Nat.eqb_refl in Pb.
    rewrite Hk. destruct k as [[|m] ty d]; cbn in *; [lia|].
    eexists; split; [reflexivity|]. split; [eapply same_objs_upd; eauto|].
    intros i x Hi. rewrite nth_error_upd in Hi. unfold wt; rewrite Ec.
    destruct (Nat.eqb_spec b i) as [->|N].
    + destruct (Nat.ltb i (length bs)); [|discriminate]. injection Hi as <-; cbn. split; [lia|].
      exact Hd.
    + destruct (C i x Hi) as [A B]. split; [lia|exact B].
  - eexists; split; [reflexivity|]. split; [apply same_objs_refl|].
    intros i x Hi. unfold wt; rewrite Ec. destruct (C i x Hi) as [A B]. split; [lia|exact B].
Qed.

Lemma release_ok bs n p t :
  counts bs n -> wfp bs t p -> (forall b, wt b p <= n b) ->
  exists bs', release p bs = Ok bs' /\ same_objs bs bs' /\ counts bs' (fun b => n b - wt b p).
Proof.
  intros C W P. unfold release. unfold wfp in W.
  destruct (ctrl p) as [b|] eqn:Ec.
  - destruct (get p) as [a|] eqn:Eg; [|contradiction]. destruct W as (-> & k & Hk & Ht).
    pose proof (C b k Hk) as [Hr Hd]. specialize (P b) as Pb. unfold wt in Pb. rewrite Ec, Nat.eqb_refl in Pb.
    rewrite Hk. destruct k as [[|[|m]] ty d]; cbn in Hr, Hd, Pb |- *; [lia| |].
    + change (Nat.eqb 1 0) with false in Hd; cbn in Hd. subst d.
      eexists; split; [reflexivity|]. split; [eapply same_objs_upd; eauto|].
      intros i x Hi. rewrite nth_error_upd in Hi. unfold wt; rewrite Ec.
      destruct (Nat.eqb_spec b i) as [->|N].
      * destruct (Nat.ltb i (length bs)); [|discriminate]. injection Hi as <-; cbn. split; [lia|reflexivity].
      * destruct (C i x Hi) as [A B]. split; [lia|exact B].
    + eexists; split; [reflexivity|]. split; [eapply same_objs_upd; eauto|].
      intros i x Hi. rewrite nth_error_upd in Hi. unfold wt; rewrite Ec.
      destruct (Nat.eqb_spec b i) as [->|N].
      * destruct (Nat.ltb i (length bs)); [|discriminate]. injection Hi as <-; cbn. split; [lia|exact Hd].
      * destruct (C i x Hi) as [A B]. split; [lia|exact B].
  - eexists; split; [reflexivity|]. split; [apply same_objs_refl|].
    intros i x Hi. unfold wt; rewrite Ec. destruct (C i x Hi) as [A B]. split; [lia|exact B].
Qed.

Lemma inv_intro bs vs n :
  counts bs n -> (forall b, n b = sumf (refers b) vs) ->
  (forall i h, nth_error vs i = Some (Some h) -> wfh bs h) -> inv (World bs vs).
Proof.
  intros C N W. split; cbn [blocks vars]; auto.
  - intros b k Hk. rewrite <- N. exact (proj1 (C b k Hk)).
  - intros b k Hk. exact (proj2 (C b k Hk)).
Qed.
Lemma inv_counts w : inv w -> counts (blocks w) (fun b => sumf (refers b) (vars w)).
Proof. intros [A B _] b k H. split; [exact (A b k H)|exact (B b k H)]. Qed.

Lemma refers_wt b h : refers b (Some h) = wt b (sp_of h).
Proof. reflexivity. Qed.
Lemma wt_null b : wt b sptr_null = 0. Proof. reflexivity. Qed.

Lemma live_wt w i h : nth_error (vars w) i = Some (Some h) -> forall b, wt b (sp_of h) <= sumf (refers b) (vars w).
Proof. intros H b. rewrite <- refers_wt. now apply (sumf_ge (refers b) _ i). Qed.

Lemma live_inv w i h : live w i = Some h -> nth_error (vars w) i = Some (Some h).
Proof. unfold live. destruct (nth_error (vars w) i) as [[?|]|]; congruence. Qed.

Lemma wfs_push bs bs' (vs : list (option handle)) h :
  (forall i h, nth_error vs i = Some (Some h) -> wfh bs h) -> same_objs bs bs' -> wfh bs' h ->
  forall i k, nth_error (vs ++ [Some h]) i = Some (Some k) -> wfh bs' k.
Proof.
  intros W S Wh i k. rewrite nth_error_snoc. destruct (Nat.ltb i (length vs)).
  - intros Hk. eapply same_objs_wfh; eauto.
  - destruct (Nat.eqb i (length vs)); [|discriminate]. now intros [= <-].
Qed.
Lemma wfs_upd bs bs' (vs : list (option handle)) j v :
  (forall i h, nth_error vs i = Some (Some h) -> wfh bs h) -> same_objs bs bs' ->
  (forall h, v = Some h -> wfh bs' h) ->
  forall i k, nth_error (upd vs j v) i = Some (Some k) -> wfh bs' k.
Proof.
  intros W S Wh i k. rewrite nth_error_upd. destruct (Nat.eqb j i).
  - destruct (Nat.ltb j (length vs)); [|discriminate]. intros [= H]. auto.
  - intros Hk. eapply same_objs_wfh; eauto.
Qed.

Lemma moved_wf bs h : wfh bs (moved_from h).
Proof. destruct h; exact I. Qed.
Lemma moved_wt b h : refers b (Some (moved_from h)) = 0.
Proof. destruct h; reflexivity. Qed.

Lemma step_inv o w : inv w -> exists w', step o w = Ok w' /\ inv w'.
Proof.
  intros I. pose proof (inv_counts w I) as C. pose proof (inv_wf w I) as W.
  assert (Wpush : forall bs' h n, counts bs' n -> same_objs (blocks w) bs' -> wfh bs' h ->
            (forall b, n b = sumf (refers b) (vars w) + wt b (sp_of h)) -> inv (push w bs' h)).
  { intros bs' h n C' S' W' N. eapply inv_intro; [exact C'| |].
    - intros b. rewrite sumf_app. cbn [sumf fold_right]. rewrite refers_wt, N. lia.
    - now apply (wfs_push (blocks w)). }
  destruct o as [T|T|i| |i|i|i|i|i j|i j|i]; cbn [step].
  - eexists; split; [reflexivity|]. eapply inv_intro with (n := fun b => sumf (refers b) (vars w) + if Nat.eqb (length (blocks w)) b then 1 else 0).
    + intros b k. rewrite nth_error_snoc. destruct (Nat.ltb_spec b (length (blocks w))).
      * intros Hk. destruct (C b k Hk) as [A B]. split; [|exact B]. destruct (Nat.eqb_spec (length (blocks w)) b); lia.
      * destruct (Nat.eqb_spec b (length (blocks w))) as [->|]; [|discriminate]. intros [= <-]; cbn.
        split; [|reflexivity]. rewrite Nat.eqb_refl.
        enough (sumf (refers (length (blocks w))) (vars w) = 0) by lia.
        destruct (sumf (refers (length (blocks w))) (vars w)) eqn:E; [reflexivity|].
        destruct (sumf_pos (refers (length (blocks w))) (vars w)) as (i & x & Hi & Hx); [lia|].
        destruct x as [h|]; [|cbn in Hx; lia]. apply W in Hi. apply wfh_wfp in Hi. cbn in Hx. unfold wfp in Hi.
        destruct (ctrl (sp_of h)) as [b'|]; [|lia]. destruct (Nat.eqb_spec b' (length (blocks w))) as [->|]; [|lia].
        destruct (get (sp_of h)); [|contradiction]. destruct Hi as (_ & k & Hk & _).
        exfalso. apply (Nat.lt_irrefl (length (blocks w))). apply nth_error_Some. congruence.
    + intros b. rewrite sumf_app. cbn. lia.
    + intros i k. rewrite nth_error_snoc. destruct (Nat.ltb i (length (vars w))).
      * intros Hk. apply W in Hk. apply wfh_wfp in Hk. apply wfh_wfp. unfold wfp in *.
        destruct (ctrl (sp_of k)), (get (sp_of k)); auto. destruct Hk as (-> & x & Hx & E).
        split; [reflexivity|]. exists x. split; [|exact E].
        rewrite nth_error_app1; [exact Hx|]. apply nth_error_Some. congruence.
      * destruct (Nat.eqb i (length (vars w))); [|discriminate]. intros [= <-]. cbn.
        split; [reflexivity|]. exists (CBlock 1 T 0). split; [|reflexivity].
        rewrite nth_error_app2, Nat.sub_diag by lia. reflexivity.
  - eexists; split; [reflexivity|]. eapply Wpush; [exact C|apply same_objs_refl|exact Logic.I|].
    intros b. cbn. lia.
  - destruct (live w i) as [[T p|]|] eqn:E; eauto. apply live_inv in E.
    pose proof (W _ _ E) as Wp. cbn in Wp.
    destruct (acquire_ok (blocks w) _ p (tid T) C Wp (live_wt w i _ E)) as (bs & -> & S & C'). cbn [bind].
    eexists; split; [reflexivity|]. eapply Wpush; [exact C'|exact S|cbn; eapply same_objs_wfp; eauto|reflexivity].
  - eexists; split; [reflexivity|]. eapply Wpush; [exact C|apply same_objs_refl|exact Logic.I|].
    intros b. cbn. lia.
  - destruct (live w i) as [[T p|]|] eqn:E; eauto. apply live_inv in E.
    pose proof (W _ _ E) as Wp. cbn in Wp.
    destruct (acquire_ok (blocks w) _ p (tid T) C Wp (live_wt w i _ E)) as (bs & -> & S & C'). cbn [bind].
    eexists; split; [reflexivity|]. unfold shared_any_of. destruct p as [c g].
    eapply Wpush; [exact C'|exact S|cbn; eapply same_objs_wfp; eauto|reflexivity].
  - destruct (live w i) as [[T p|]|] eqn:E; eauto. apply live_inv in E.
    pose proof (W _ _ E) as Wp. cbn in Wp.
    eexists; split; [reflexivity|]. eapply inv_intro; [exact C| |].
    + intros b. rewrite sumf_app. pose proof (sumf_upd (refers b) (vars w) i _ (Some (HShared T sptr_null)) E) as Hs.
      cbn [sumf fold_right]. rewrite !refers_wt in *. unfold shared_any_of. cbn [sp_of] in *. rewrite wt_null in Hs.
      unfold wt in *. cbn [ctrl]. lia.
    + apply (wfs_push (blocks w)); [|apply same_objs_refl|destruct p; exact Wp].
      apply (wfs_upd (blocks w)); [exact W|apply same_objs_refl|]. intros h [= <-]. exact Logic.I.
  - destruct (live w i) as [h|] eqn:E; eauto. apply live_inv in E.
    pose proof (W _ _ E) as Wp. apply wfh_wfp in Wp.
    destruct (acquire_ok (blocks w) _ _ _ C Wp (live_wt w i _ E)) as (bs & -> & S & C'). cbn [bind].
    eexists; split; [reflexivity|].
    eapply Wpush; [exact C'|exact S|eapply same_objs_wfh; eauto|reflexivity].
  - destruct (live w i) as [h|] eqn:E; eauto. apply live_inv in E.
    eexists; split; [reflexivity|]. eapply inv_intro; [exact C| |].
    + intros b. rewrite sumf_app. pose proof (sumf_upd (refers b) (vars w) i _ (Some (moved_from h)) E) as Hs.
      cbn [sumf fold_right]. rewrite moved_wt in Hs. lia.
    + apply (wfs_push (blocks w)); [|apply same_objs_refl|eauto].
      apply (wfs_upd (blocks w)); [exact W|apply same_objs_refl|]. intros k [= <-]. apply moved_wf.
  - destruct (live w i) as [h|] eqn:E; eauto. destruct (live w j) as [k|] eqn:F; eauto.
    apply live_inv in E. apply live_inv in F.
    destruct (same_kind h k); eauto.
    pose proof (W _ _ E) as Wh. apply wfh_wfp in Wh. pose proof (W _ _ F) as Wk. pose proof Wk as Wk'. apply wfh_wfp in Wk'.
    destruct (acquire_ok (blocks w) _ _ _ C Wk' (live_wt w j _ F)) as (bs & -> & S & C'). cbn [bind].
    destruct (release_ok bs _ (sp_of h) (hty h) C') as (bs' & -> & S' & C'').
    { eapply same_objs_wfp; eauto. }
    { intros b. pose proof (live_wt w i _ E b). lia. }
    cbn [bind]. eexists; split; [reflexivity|].
    pose proof (same_objs_trans _ _ _ S S') as S2.
    eapply inv_intro; [exact C''| |].
    + intros b; cbn beta. pose proof (sumf_upd (refers b) (vars w) i _ (Some k) E) as Hs. rewrite !refers_wt in Hs.
      pose proof (live_wt w i _ E b). lia.
    + apply (wfs_upd (blocks w)); [exact W|exact S2|]. intros x [= <-]. eapply same_objs_wfh; eauto.
  - destruct (live w i) as [h|] eqn:E; eauto. destruct (live w j) as [k|] eqn:F; eauto.
    apply live_inv in E. apply live_inv in F.
    destruct (same_kind h k); eauto. destruct (Nat.eqb_spec i j) as [|N]; eauto.
    pose proof (W _ _ E) as Wh. apply wfh_wfp in Wh. pose proof (W _ _ F) as Wk.
    destruct (release_ok (blocks w) _ (sp_of h) (hty h) C Wh (live_wt w i _ E)) as (bs' & -> & S' & C'').
    cbn [bind]. eexists; split; [reflexivity|].
    eapply inv_intro; [exact C''| |].
    + intros b; cbn beta.
      pose proof (sumf_upd (refers b) (vars w) j _ (Some (moved_from k)) F) as Hs.
      assert (E' : nth_error (upd (vars w) j (Some (moved_from k))) i = Some (Some h)) by (rewrite upd_other; auto).
      pose proof (sumf_upd (refers b) _ i _ (Some k) E') as Hs'. rewrite moved_wt in Hs. rewrite !refers_wt in *.
      pose proof (live_wt w i _ E b). lia.
    + apply (wfs_upd bs'); [|apply same_objs_refl|].
      * apply (wfs_upd (blocks w)); [exact W|exact S'|]. intros x [= <-]. apply moved_wf.
      * intros x [= <-]. eapply same_objs_wfh; eauto.
  - destruct (live w i) as [h|] eqn:E; eauto. apply live_inv in E.
    pose proof (W _ _ E) as Wh. apply wfh_wfp in Wh.
    destruct (release_ok (blocks w) _ (sp_of h) (hty h) C Wh (live_wt w i _ E)) as (bs' & -> & S' & C'').
    cbn [bind]. eexists; split; [reflexivity|].
    eapply inv_intro; [exact C''| |].
    + intros b; cbn beta. pose proof (sumf_upd (refers b) (vars w) i _ None E) as Hs. rewrite !refers_wt in Hs. cbn [refers] in Hs. lia.
    + apply (wfs_upd (blocks w)); [exact W|exact S'|]. discriminate.
Qed.

Lemma run_inv os w : inv w -> exists w', run os w = Ok w' /\ inv w'.
Proof.
  revert w; induction os as [|o os IH]; intros w I; cbn [run]; [eauto|].
  destruct (step_inv o w I) as (w' & -> & I'). cbn [bind]. auto.
Qed.

(** Some live variable uses object [b]. *)
Definition used (w : world) (b : nat) : Prop :=
  exists i h, nth_error (vars w) i = Some (Some h) /\ get (sp_of h) = Some b.

Lemma drops_used w b k : inv w -> nth_error (blocks w) b = Some k ->
  (drops k = 0 /\ used w b) \/ (drops k = 1 /\ ~ used w b).
Proof.
  intros I Hk. rewrite (inv_drops w I b k Hk). pose proof (inv_refs w I b k Hk) as Hr.
  destruct (Nat.eqb_spec (refs k) 0) as [Hz|Hz].
  - right. split; [reflexivity|]. intros (i & h & Hi & Hg).
    pose proof (inv_wf w I i h Hi) as Wh. apply wfh_wfp in Wh. unfold wfp in Wh. rewrite Hg in Wh.
    destruct (ctrl (sp_of h)) as [c|] eqn:Ec; [|contradiction]. destruct Wh as [Eb _].
    pose proof (sumf_ge (refers b) _ _ _ Hi) as Hge. cbn [refers] in Hge. rewrite Ec, <- Eb, Nat.eqb_refl in Hge. lia.
  - left. split; [reflexivity|]. destruct (sumf_pos (refers b) (vars w)) as (i & x & Hi & Hx); [lia|].
    destruct x as [h|]; [|cbn in Hx; lia]. exists i, h. split; [exact Hi|].
    pose proof (inv_wf w I i h Hi) as Wh. apply wfh_wfp in Wh. unfold wfp in Wh. cbn in Hx.
    destruct (ctrl (sp_of h)) as [c|]; [|lia]. destruct (Nat.eqb c b) eqn:Eb; [|lia]. apply Nat.eqb_eq in Eb; subst c.
    destruct (get (sp_of h)); [|contradiction]. now destruct Wh as [-> _].
Qed.

Lemma shared_lifetime os :
  exists w, run os empty_world = Ok w /\
    forall b k, nth_error (blocks w) b = Some k ->
      (drops k = 0 /\ used w b) \/ (drops k = 1 /\ ~ used w b).
Proof.
  destruct (run_inv os empty_world inv_empty) as (w & R & I). exists w. split; [exact R|].
  intros b k. now apply drops_used.
Qed.

Lemma shared_cast_safe os w i p ty c T a :
  run os empty_world = Ok w ->
  nth_error (vars w) i = Some (Some (HAny p ty c)) ->
  shared_cast T (HAny p ty c) = Ok (Some a) ->
  exists k, nth_error (blocks w) a = Some k /\ drops k = 0 /\ oty k = tid T.
Proof.
  intros R Hi Hc. destruct (run_inv os empty_world inv_empty) as (w' & R' & I).
  assert (w' = w) by congruence; subst w'.
  pose proof (inv_wf w I i _ Hi) as Wh. cbn in Wh. unfold wfp in Wh.
  unfold shared_cast, any_cast in Hc; cbn in Hc. destruct (get p) as [g|] eqn:Eg; [|discriminate].
  destruct (Nat.eqb_spec (tid T) ty) as [Et|]; cbn in Hc; [|discriminate].
  destruct (Bool.eqb (cst T) c); cbn in Hc; [|discriminate]. injection Hc as ->.
  destruct (ctrl p) as [b|] eqn:Ec; [|contradiction]. destruct Wh as (-> & k & Hk & Ho).
  exists k. split; [exact Hk|]. split; [|congruence].
  destruct (drops_used w b k I Hk) as [[D _]|[_ U]]; [exact D|].
  exfalso. apply U. now exists i, (HAny p ty c).
Qed.
