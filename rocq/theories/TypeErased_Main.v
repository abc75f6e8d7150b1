(** Refinement for every operation and for whole histories. *)
From Verif Require Import Base TypeErased_Spec TypeErased_Model TypeErased_Trace TypeErased_Inv TypeErased_Proofs.
Local Arguments Nat.eqb : simpl never.
Local Arguments Nat.leb : simpl never.
Local Arguments Nat.ltb : simpl never.
Local Arguments set_obj : simpl never.
Local Arguments absl : simpl never.
Local Arguments aview : simpl never.

Section Pf.
Context {V : Type} (P : settings) (NE : nat) (sizeof_pos : forall t, 0 < sizeof P t).
Notation world := (@world V).
Notation obj := (@obj V).
Notation M := (@M V).
Notation Good := (@Good V P NE).
Notation clean := (clean NE).

Definition opened (s : world) (w : wrapper) : world :=
  World (blocks s) (objs s) (next s) (slots s ++ [Some w]) (trace s ++ [EBegin (length (slots s))]).
Lemma new_slot_eq (s : world) w : new_slot w s = ROk (length (slots s)) (opened s w).
Proof. reflexivity. Qed.
Lemma opened_at s w : at_ (opened s w) (length (slots s)) w.
Proof. unfold at_, opened. cbn. rewrite nth_error_app2, Nat.sub_diag by lia. reflexivity. Qed.
Lemma opened_at_other s w j wj : at_ s j wj -> at_ (opened s w) j wj.
Proof. unfold at_, opened. cbn. intros H. rewrite nth_error_app1; auto. now apply nth_some_lt in H. Qed.
Lemma opened_good s a w : Good s a -> self w = None -> Good (opened s w) (a_push a (Some (AEmpty, al w))).
Proof.
  intros G Hs. apply G_new; auto. apply cl_app; [eapply cl_trace; eauto|]. repeat constructor.
Qed.
Lemma at_lt (s : world) j w : at_ s j w -> j < length (slots s).
Proof. unfold at_. intros H. now apply nth_some_lt in H. Qed.

Lemma kill_ok s a i w : Good s a -> at_ s i w -> self w = None ->
  exists s', kill_slot i s = ROk tt s' /\ Good s' (a_put a i None).
Proof.
  intros G H Hs. pose proof (inv_slot _ _ _ (proj1 G) _ _ H) as Hok. unfold slot_ok in Hok. rewrite Hs in Hok.
  unfold kill_slot. unfold at_ in H. rewrite H, Hok. eexists. split; [reflexivity|].
  eapply G_kill; eauto. apply cl_app; [eapply cl_trace; eauto|]. repeat constructor.
Qed.

(** Outcome of an operation: the abstract reply, or termination of a noexcept move. *)
Definition refines (s : world) (m : @res V (reply V)) (a' : astate V) (r : reply V) : Prop :=
  match r with
  | Thrown e => exists s', m = RThrow e s' /\ Good s' a'
  | _ => exists s', m = ROk r s' /\ Good s' a'
  end.

Lemma ok_bind {A} (m : M A) s x s' : m s = ROk x s' -> ok m s = ROk Done s'.
Proof. intros H. unfold ok. now rewrite (bindE _ _ _ _ _ H). Qed.
Lemma ok_throw {A} (m : M A) s e s' : m s = RThrow e s' -> ok m s = RThrow e s'.
Proof. intros H. unfold ok. now rewrite (bindT _ _ _ _ _ H). Qed.

Lemma step_new s a x : Good s a -> refines s (step P (ONew x) s) (a_push a (Some (AEmpty, x))) Done.
Proof.
  intros G. cbn [step refines]. eexists. split.
  - apply (ok_bind _ _ _ _ (new_slot_eq s _)).
  - exact (opened_good s a (empty_wrapper x) G eq_refl).
Qed.

Lemma step_val s a mk x t v f : Good s a ->
  if val_throws (sizeof P) (sbs P) t f
  then refines s (step P (OVal mk x t v f) s) (a_push a None) (Thrown user_exception)
  else refines s (step P (OVal mk x t v f) s) (a_push a (Some (AOwned t v, x))) Done.
Proof.
  intros G. cbn [step].
  set (w := empty_wrapper x). set (s1 := opened s w). set (i := length (slots s)).
  assert (G1 : Good s1 (a_push a (Some (AEmpty, x)))) by exact (opened_good s a w G eq_refl).
  assert (H1 : at_ s1 i w) by apply opened_at.
  assert (Hlen : i = length (a_ws a)) by (unfold i; symmetry; eapply R_len; exact (proj2 G)).
  pose proof (construct_value_ok P NE sizeof_pos s1 _ i w t v f G1 H1 eq_refl) as K.
  destruct (val_throws (sizeof P) (sbs P) t f).
  - destruct K as (s2 & w2 & E & G2 & H2 & Hs2 & Ha2). cbn [al w empty_wrapper] in G2. rewrite a_put_push in G2 by exact Hlen.
    cbn [refines].
    assert (D : exists s3, construct_by_value P mk x t v f s = RThrow user_exception s3 /\ Good s3 (a_push a None)).
    { unfold construct_by_value, constructing. destruct mk; rewrite (bindE _ _ _ _ _ (new_slot_eq s _)); fold w; fold s1; fold i.
      - destruct (cleanup_ok P NE sizeof_pos s2 _ i w2 G2 H2) as (s3 & Ec & G3 & H3 & _).
        destruct (kill_ok s3 _ i _ G3 H3 eq_refl) as (s4 & Ek & G4).
        exists s4. split.
        + eapply otT; [exact E|]. unfold destroy. rewrite (bindE _ _ _ _ _ Ec). exact Ek.
        + rewrite !a_put_push in G4 by exact Hlen. exact G4.
      - destruct (kill_ok s2 _ i w2 G2 H2 Hs2) as (s4 & Ek & G4).
        exists s4. split; [eapply otT; [exact E|exact Ek]|]. rewrite !a_put_push in G4 by exact Hlen. exact G4. }
    destruct D as (s3 & E3 & G3). exists s3. split; auto. now apply ok_throw.
  - destruct K as (s2 & E & G2). cbn [al w empty_wrapper] in G2. rewrite a_put_push in G2 by exact Hlen.
    cbn [refines]. exists s2. split; auto. eapply ok_bind.
    unfold construct_by_value, constructing. destruct mk; rewrite (bindE _ _ _ _ _ (new_slot_eq s _)); apply otE; exact E.
Qed.

Lemma step_ref s a x e c p : Good s a -> nth_error (a_ext a) e = Some p ->
  refines s (step P (ORef x e c) s) (a_push a (Some (ARef e c, x))) Done.
Proof.
  intros G He. cbn [step refines]. pose proof (proj2 (proj2 G) e) as R2. rewrite He in R2.
  destruct (objs s (LExt e)) as [o|] eqn:Eo; [|discriminate].
  set (w := empty_wrapper x). set (s1 := opened s w). set (i := length (slots s)).
  assert (G1 : Good s1 (a_push a (Some (AEmpty, x)))) by exact (opened_good s a w G eq_refl).
  assert (H1 : at_ s1 i w) by apply opened_at.
  assert (Hlen : i = length (a_ws a)) by (unfold i; symmetry; eapply R_len; exact (proj2 G)).
  eexists. split.
  - eapply ok_bind. unfold construct_by_pointer, constructing. rewrite (bindE _ _ _ _ _ (new_slot_eq s _)).
    apply otE. fold w. fold s1. fold i. unfold construct_ref.
    rewrite (bindE _ _ _ _ _ (set_size_eq _ _ _ _ H1)).
    rewrite (bindE _ _ _ _ _ (set_vt_eq _ _ _ _ (at_put _ _ _ _ H1))). cbn [self size vt al w empty_wrapper].
    rewrite put_put. rewrite (set_self_eq _ _ _ _ (at_put _ _ _ _ H1)). cbn [self size vt al]. rewrite put_put. reflexivity.
  - rewrite <- (a_put_push a i (Some (AEmpty, x))) by exact Hlen.
    refine (G_fill_ext P NE s1 _ i w e o c x _ G1 H1 eq_refl _ _); [exact Eo|]. eapply cl_trace; exact G1.
Qed.

Lemma step_copy s a j oa f w : Good s a -> at_ s j w ->
  if copy_throws (sizeof P) (sbs P) (aview s w) f
  then refines s (step P (OCopy j oa f) s) (a_push a None) (Thrown user_exception)
  else refines s (step P (OCopy j oa f) s)
         (a_push a (Some (aview s w, match oa with Some a' => a' | None => select P (al w) end))) Done.
Proof.
  intros G Hj. cbn [step].
  set (x := match oa with Some a' => a' | None => select P (al w) end).
  set (wn := Wr None SInvalid (vt w) x). set (s1 := opened s wn). set (i := length (slots s)).
  assert (G1 : Good s1 (a_push a (Some (AEmpty, x)))) by exact (opened_good s a wn G eq_refl).
  assert (H1 : at_ s1 i wn) by apply opened_at.
  assert (Hj1 : at_ s1 j w) by (apply opened_at_other; auto).
  assert (Hij : i <> j) by (pose proof (at_lt _ _ _ Hj); unfold i; lia).
  assert (Hlen : i = length (a_ws a)) by (unfold i; symmetry; eapply R_len; exact (proj2 G)).
  pose proof (do_copy_assign_ok P NE sizeof_pos s1 _ false i j wn w f G1 H1 eq_refl Hj1 Hij eq_refl) as K. cbn zeta in K.
  cbn [andb] in K. change (aview s1 w) with (aview s w) in K.
  assert (E0 : copy_construct P j oa f s = on_throw (do_copy_assign P false i j f) (kill_slot i) s1).
  { unfold copy_construct. rewrite (bindE _ _ _ _ _ (getw_eq _ _ _ Hj)). unfold constructing. fold x. fold wn.
    rewrite (bindE _ _ _ _ _ (new_slot_eq s _)). reflexivity. }
  destruct (copy_throws (sizeof P) (sbs P) (aview s w) f); cbn [refines].
  - destruct K as (s2 & w2 & E & G2 & H2 & Hs2 & Ha2). rewrite a_put_push in G2 by exact Hlen.
    destruct (kill_ok s2 _ i w2 G2 H2 Hs2) as (s4 & Ek & G4). rewrite a_put_push in G4 by exact Hlen.
    exists s4. split; auto. apply ok_throw. rewrite E0. eapply otT; [exact E|exact Ek].
  - destruct K as (s2 & E & G2). rewrite a_put_push in G2 by exact Hlen. exists s2. split; auto.
    eapply ok_bind. rewrite E0. apply otE. exact E.
Qed.

Lemma step_copy_assign s a i j f wi wj : Good s a -> at_ s i wi -> at_ s j wj ->
  if Nat.eqb i j then refines s (step P (OCopyAssign i j f) s) a Done
  else let x := if pocca P then al wj else al wi in
  if copy_throws (sizeof P) (sbs P) (aview s wj) f
  then refines s (step P (OCopyAssign i j f) s) (a_put a i (Some (AEmpty, x))) (Thrown user_exception)
  else refines s (step P (OCopyAssign i j f) s) (a_put a i (Some (aview s wj, x))) Done.
Proof.
  intros G Hi Hj. cbn [step].
  destruct (Nat.eqb_spec i j) as [->|Hij].
  { cbn [refines]. exists s. split; auto. eapply ok_bind. unfold copy_assign. rewrite Nat.eqb_refl. reflexivity. }
  destruct (cleanup_ok P NE sizeof_pos s a i wi G Hi) as (s1 & E1 & G1 & H1 & Hk).
  assert (Hj1 : at_ s1 j wj) by (apply Hk; auto).
  set (w2 := Wr None (size wi) (vt wj) (al wi)).
  set (s2 := put s1 i w2).
  assert (G2 : Good s2 (a_put a i (Some (AEmpty, al wi)))).
  { rewrite <- (a_put_put a i (Some (AEmpty, al wi))).
    refine (G_meta P NE s1 _ i _ w2 _ G1 H1 eq_refl eq_refl _). eapply cl_trace; exact G1. }
  assert (H2 : at_ s2 i w2) by (eapply at_put; exact H1).
  assert (Hj2 : at_ s2 j wj) by (apply at_put_other; auto).
  assert (Ev : aview s2 wj = aview s wj).
  { apply (view_eq P NE s2 _ (aview s wj) j (al wj) wj G2); auto. rewrite a_get_put_other by auto.
    apply R_get; auto. exact (proj2 G). }
  pose proof (do_copy_assign_ok P NE sizeof_pos s2 _ true i j w2 wj f G2 H2 eq_refl Hj2 Hij eq_refl) as K. cbn zeta in K.
  cbn [andb al w2] in K. rewrite Ev, !a_put_put in K.
  assert (E0 : copy_assign P i j f s = do_copy_assign P true i j f s2).
  { unfold copy_assign. destruct (Nat.eqb_spec i j); [congruence|]. rewrite (bindE _ _ _ _ _ E1).
    rewrite (bindE _ _ _ _ _ (getw_eq _ _ _ Hj1)). rewrite (bindE _ _ _ _ _ (set_vt_eq _ _ _ _ H1)). reflexivity. }
  cbn zeta.
  destruct (copy_throws (sizeof P) (sbs P) (aview s wj) f); cbn [refines].
  - destruct K as (s3 & w3 & E & G3 & _). exists s3. split; auto. apply ok_throw. rewrite E0. exact E.
  - destruct K as (s3 & E & G3). exists s3. split; auto. eapply ok_bind. rewrite E0. exact E.
Qed.

Lemma noexE {A} (m : M A) s x s' : m s = ROk x s' -> noexcept m s = ROk x s'.
Proof. unfold noexcept. now intros ->. Qed.
Lemma noexT {A} (m : M A) s e s' : m s = RThrow e s' -> noexcept m s = RTerm.
Proof. unfold noexcept. now intros ->. Qed.

(** Content description of a non-empty wrapper. *)
Lemma slot_cases s a j w : Good s a -> at_ s j w ->
  (self w = None) \/
  (exists e, self w = Some (LExt e) /\ owns (size w) = false) \/
  (exists b, self w = Some (LHeap b) /\ owns (size w) = true /\ gt_sbs P (size w) = true) \/
  (self w = Some (LSmall j) /\ owns (size w) = true /\ gt_sbs P (size w) = false).
Proof.
  intros G H. pose proof (inv_slot _ _ _ (proj1 G) _ _ H) as Hok. unfold slot_ok in Hok.
  destruct (self w) as [[b|k|e]|]; auto.
  - destruct Hok as (_ & o & _ & Hsz & Hgt & _). right; right; left. exists b. rewrite Hsz. cbn.
    repeat split; auto. now apply Nat.ltb_lt.
  - destruct Hok as (-> & o & _ & Hsz & Hle & _). right; right; right. rewrite Hsz. cbn.
    repeat split; auto. now apply Nat.ltb_ge.
  - destruct Hok as (_ & o & c & _ & Hsz & _). right; left. exists e. rewrite Hsz. destruct c; auto.
Qed.

Lemma bind_ret_eq {A} (x : A) (f : A -> M unit) s : mbind (ret x) f s = f x s.
Proof. reflexivity. Qed.

Lemma step_move s a j f w : Good s a -> at_ s j w ->
  refines s (step P (OMove j None f) s) (a_push (a_put a j (Some (AEmpty, al w))) (Some (aview s w, al w))) Done.
Proof.
  intros G Hj. cbn [step refines].
  set (wn := Wr None SInvalid (vt w) (al w)). set (s1 := opened s wn). set (i := length (slots s)).
  assert (G1 : Good s1 (a_push a (Some (AEmpty, al w)))) by exact (opened_good s a wn G eq_refl).
  assert (H1 : at_ s1 i wn) by apply opened_at.
  assert (Hj1 : at_ s1 j w) by (apply opened_at_other; auto).
  assert (Hij : i <> j) by (pose proof (at_lt _ _ _ Hj); unfold i; lia).
  assert (Hlen : i = length (a_ws a)) by (unfold i; symmetry; eapply R_len; exact (proj2 G)).
  assert (Hjl : j < length (a_ws a)) by (rewrite <- Hlen; exact (at_lt _ _ _ Hj)).
  set (w2 := Wr None (size w) (vt w) (al w)). set (s2 := put s1 i w2).
  assert (G2 : Good s2 (a_push a (Some (AEmpty, al w)))).
  { rewrite <- (a_put_push a i (Some (AEmpty, al w))) by exact Hlen.
    refine (G_meta P NE s1 _ i _ w2 _ G1 H1 eq_refl eq_refl _). eapply cl_trace; exact G1. }
  assert (H2 : at_ s2 i w2) by (eapply at_put; exact H1).
  assert (Hj2 : at_ s2 j w) by (apply at_put_other; auto).
  assert (Ev : aview s2 w = aview s w) by reflexivity.
  assert (Fin : forall x, a_put (a_put (a_push a (Some (AEmpty, al w))) j (Some (AEmpty, al w))) i x
            = a_push (a_put a j (Some (AEmpty, al w))) x).
  { intros x. rewrite a_put_push_other by exact Hjl. apply a_put_push. cbn. now rewrite upd_length. }
  assert (D : exists s', mbind (if negb (owns (size w)) || gt_sbs P (size w) then steal i j
     else if is_null (self w) then ret tt else move_small P i j) (fun _ => set_size j SInvalid) s2 = ROk tt s' /\
     Good s' (a_push (a_put a j (Some (AEmpty, al w))) (Some (aview s w, al w)))).
  { rewrite <- Fin. rewrite <- Ev. change (Some (aview s2 w, al w)) with (Some (aview s2 w, al w2)).
    destruct (slot_cases _ _ _ _ G Hj) as [Es|[(e & Es & Eo)|[(b & Es & Eo & Eg)|(Es & Eo & Eg)]]].
    - destruct (negb (owns (size w)) || gt_sbs P (size w)).
      + apply (steal_ok P NE s2 _ i j w2 w G2 H2 eq_refl Hj2 Hij eq_refl eq_refl). now rewrite Es.
      + rewrite Es. cbn [is_null]. rewrite bind_ret_eq. rewrite (set_size_eq _ _ _ _ Hj2). eexists. split; [reflexivity|].
        pose proof (G_meta P NE s2 _ j w (Wr (self w) SInvalid (vt w) (al w)) (trace s2) G2 Hj2 Es Es (cl_trace _ _ _ _ G2)) as G3.
        cbn [al] in G3.
        rewrite (a_put_same _ i).
        * exact G3.
        * rewrite a_get_put_other by auto. unfold a_get, a_push. cbn. rewrite Hlen, nth_error_app2, Nat.sub_diag by lia. cbn.
          unfold aview. now rewrite Es.
    - rewrite Eo. cbn [negb orb]. apply (steal_ok P NE s2 _ i j w2 w G2 H2 eq_refl Hj2 Hij eq_refl eq_refl). now rewrite Es.
    - rewrite Eg, orb_true_r. apply (steal_ok P NE s2 _ i j w2 w G2 H2 eq_refl Hj2 Hij eq_refl eq_refl). now rewrite Es.
    - rewrite Eo, Eg, Es. cbn [negb orb is_null].
      apply (move_small_ok P NE s2 _ i j w2 w G2 H2 eq_refl Hj2 Hij eq_refl eq_refl Es). }
  destruct D as (s' & E & G'). exists s'. split; auto. eapply ok_bind. unfold move_construct.
  apply noexE. rewrite (bindE _ _ _ _ _ (getw_eq _ _ _ Hj)). rewrite (bindE _ _ _ _ _ (new_slot_eq s _)). fold wn. fold s1. fold i.
  rewrite (bindE _ _ _ _ _ (set_size_eq _ _ _ _ H1)). exact E.
Qed.

(** deallocate j as the final step of a relocation *)
Lemma fin_dealloc j w b : self w = Some (LHeap b) ->
  forall (s' : world) n, at_ s' j w -> size w = SObj n -> nth_error (blocks s') b = Some (Blk n (al w) true) ->
     objs s' (LHeap b) = None -> sbs P < n -> 0 < n ->
     deallocate P j s' = ROk tt (World (upd (blocks s') b (Blk n (al w) false)) (objs s') (next s')
                       (upd (slots s') j (Some (Wr None (size w) (vt w) (al w)))) (trace s' ++ [EFree b n (al w)])).
Proof. intros Es s' n H Hz Hb Ho Hg Hp. now apply deallocate_heap. Qed.

Lemma move_alloc_body s a j x f w : Good s a -> at_ s j w ->
  let m := move_construct_alloc P j x f s in
  (exists s', m = ROk tt s' /\ Good s' (a_push (a_put a j (Some (AEmpty, al w))) (Some (aview s w, x)))) \/
  (m = RTerm /\ f = true).
Proof.
  intros G Hj. cbn zeta.
  set (wn := Wr None SInvalid (vt w) x). set (s1 := opened s wn). set (i := length (slots s)).
  assert (G1 : Good s1 (a_push a (Some (AEmpty, x)))) by exact (opened_good s a wn G eq_refl).
  assert (H1 : at_ s1 i wn) by apply opened_at.
  assert (Hj1 : at_ s1 j w) by (apply opened_at_other; auto).
  assert (Hij : i <> j) by (pose proof (at_lt _ _ _ Hj); unfold i; lia).
  assert (Hlen : i = length (a_ws a)) by (unfold i; symmetry; eapply R_len; exact (proj2 G)).
  assert (Hjl : j < length (a_ws a)) by (rewrite <- Hlen; exact (at_lt _ _ _ Hj)).
  set (w2 := Wr None (size w) (vt w) x). set (s2 := put s1 i w2).
  assert (G2 : Good s2 (a_push a (Some (AEmpty, x)))).
  { rewrite <- (a_put_push a i (Some (AEmpty, x))) by exact Hlen.
    refine (G_meta P NE s1 _ i _ w2 _ G1 H1 eq_refl eq_refl _). eapply cl_trace; exact G1. }
  assert (H2 : at_ s2 i w2) by (eapply at_put; exact H1).
  assert (Hj2 : at_ s2 j w) by (apply at_put_other; auto).
  assert (Ev : aview s2 w = aview s w) by reflexivity.
  assert (Fin : forall y, a_put (a_put (a_push a (Some (AEmpty, x))) j (Some (AEmpty, al w))) i y
            = a_push (a_put a j (Some (AEmpty, al w))) y).
  { intros y. rewrite a_put_push_other by exact Hjl. apply a_put_push. cbn. now rewrite upd_length. }
  unfold move_construct_alloc. unfold noexcept. rewrite (bindE _ _ _ _ _ (getw_eq _ _ _ Hj)).
  rewrite (bindE _ _ _ _ _ (new_slot_eq s _)). fold wn. fold s1. fold i.
  destruct (slot_cases _ _ _ _ G Hj) as [Es|Hc].
  { rewrite Es. cbn [is_null]. left. exists s1. split; [reflexivity|].
    assert (Ea : aview s w = AEmpty) by (unfold aview; now rewrite Es). rewrite Ea.
    replace (a_put a j (Some (AEmpty, al w))) with a; [exact G1|]. symmetry. apply a_put_same.
    rewrite (R_get _ _ _ _ (proj2 G) Hj). now rewrite Ea. }
  assert (En : is_null (self w) = false).
  { destruct Hc as [(e & Es & Eo)|[(b & Es & Eo & Eg)|(Es & Eo & Eg)]]; now rewrite Es. }
  rewrite En. rewrite (bindE _ _ _ _ _ (set_size_eq _ _ _ _ H1)). cbn [self vt al wn]. fold w2. fold s2.
  rewrite <- Fin, <- Ev. change (Some (aview s2 w, x)) with (Some (aview s2 w, al w2)).
  destruct Hc as [(e & Es & Eo)|[(b & Es & Eo & Eg)|(Es & Eo & Eg)]].
  - left. rewrite Eo. cbn [negb].
    destruct (steal_ok P NE s2 _ i j w2 w G2 H2 eq_refl Hj2 Hij eq_refl eq_refl) as (s' & E & G'); [now rewrite Es|].
    exists s'. rewrite E. auto.
  - rewrite Eo, Eg. cbn [negb]. destruct (Nat.eqb_spec x (al w)) as [Exa|Exa].
    + left. destruct (steal_ok P NE s2 _ i j w2 w G2 H2 eq_refl Hj2 Hij eq_refl eq_refl) as (s' & E & G'); [now rewrite Es|].
      exists s'. rewrite E. auto.
    + destruct f.
      * right. split; auto.
        pose proof (inv_slot _ _ _ (proj1 G) _ _ Hj) as Hok. unfold slot_ok in Hok. rewrite Es in Hok.
        destruct Hok as (_ & o & _ & Hsz & _). rewrite Hsz. cbn [alloc_raw]. reflexivity.
      * left. destruct (relocate_ok P NE sizeof_pos s2 _ i j w2 w b (fun _ => deallocate P j) G2 H2 eq_refl Hj2 Hij eq_refl eq_refl Es
                  (fun _ s' n _ => fin_dealloc j w b Es s' n)) as (s' & E & G').
        exists s'. change (al w2) with x in E. rewrite E. auto.
  - left. rewrite Eo, Eg. cbn [negb].
    destruct (move_small_ok P NE s2 _ i j w2 w G2 H2 eq_refl Hj2 Hij eq_refl eq_refl Es) as (s' & E & G').
    exists s'. rewrite E. auto.
Qed.

Lemma move_assign_body s a i j f wi wj : Good s a -> at_ s i wi -> at_ s j wj ->
  let m := move_assign P i j f s in
  if Nat.eqb i j then m = ROk tt s
  else let x := if pocma P then al wj else al wi in
  (exists s', m = ROk tt s' /\ Good s' (a_put (a_put a j (Some (AEmpty, al wj))) i (Some (aview s wj, x)))) \/
  (m = RTerm /\ f = true).
Proof.
  intros G Hi Hj. cbn zeta. unfold move_assign, noexcept.
  destruct (Nat.eqb_spec i j) as [->|Hij]; [reflexivity|].
  destruct (cleanup_ok P NE sizeof_pos s a i wi G Hi) as (s1 & E1 & G1 & H1 & Hk).
  assert (Hj1 : at_ s1 j wj) by (apply Hk; auto).
  rewrite (bindE _ _ _ _ _ E1). rewrite (bindE _ _ _ _ _ (getw_eq _ _ _ Hj1)).
  set (x := if pocma P then al wj else al wi).
  set (w2 := Wr None (size wi) (vt wi) x). set (s2 := put s1 i w2).
  assert (E2 : (if pocma P then set_al i (al wj) else ret tt) s1 = ROk tt s2).
  { unfold s2, w2, x. destruct (pocma P).
    - rewrite (set_al_eq _ _ _ _ H1). reflexivity.
    - unfold ret. f_equal. unfold put. rewrite upd_self by exact H1. now destruct s1. }
  rewrite (bindE _ _ _ _ _ E2).
  assert (G2 : Good s2 (a_put a i (Some (AEmpty, x)))).
  { rewrite <- (a_put_put a i (Some (AEmpty, al wi))).
    refine (G_meta P NE s1 _ i _ w2 _ G1 H1 eq_refl eq_refl _). eapply cl_trace; exact G1. }
  assert (H2 : at_ s2 i w2) by (eapply at_put; exact H1).
  assert (Hj2 : at_ s2 j wj) by (apply at_put_other; auto).
  assert (Ev : aview s2 wj = aview s wj).
  { apply (view_eq P NE s2 _ (aview s wj) j (al wj) wj G2); auto. rewrite a_get_put_other by auto.
    apply R_get; auto. exact (proj2 G). }
  assert (Fin : forall y, a_put (a_put (a_put a i (Some (AEmpty, x))) j (Some (AEmpty, al wj))) i y
            = a_put (a_put a j (Some (AEmpty, al wj))) i y).
  { intros y. rewrite (a_put_comm a i j) by auto. apply a_put_put. }
  destruct (slot_cases _ _ _ _ G2 Hj2) as [Es|Hc].
  { rewrite Es. cbn [is_null]. left. exists s2. split; [reflexivity|].
    assert (Ea : aview s wj = AEmpty) by (rewrite <- Ev; unfold aview; now rewrite Es). rewrite Ea.
    rewrite (a_put_same a j); [exact G2|]. rewrite (R_get _ _ _ _ (proj2 G) Hj). now rewrite Ea. }
  assert (En : is_null (self wj) = false).
  { destruct Hc as [(e & Es & Eo)|[(b & Es & Eo & Eg)|(Es & Eo & Eg)]]; now rewrite Es. }
  rewrite En.
  rewrite (bindE _ _ _ _ _ (set_size_eq _ _ _ _ H2)). cbn [self vt al w2].
  rewrite (bindE _ _ _ _ _ (set_vt_eq _ _ _ _ (at_put _ _ _ _ H2))). cbn [self size al]. rewrite put_put.
  set (w3 := Wr None (size wj) (vt wj) x). set (s3 := put s2 i w3).
  assert (G3 : Good s3 (a_put a i (Some (AEmpty, x)))).
  { rewrite <- (a_put_put a i (Some (AEmpty, x))).
    refine (G_meta P NE s2 _ i _ w3 _ G2 H2 eq_refl eq_refl _). eapply cl_trace; exact G2. }
  assert (H3 : at_ s3 i w3) by (eapply at_put; exact H2).
  assert (Hj3 : at_ s3 j wj) by (apply at_put_other; auto).
  assert (Ev3 : aview s3 wj = aview s wj) by exact Ev.
  rewrite (bindE _ _ _ _ _ (getw_eq _ _ _ H3)).
  rewrite <- Fin, <- Ev3. change (Some (aview s3 wj, x)) with (Some (aview s3 wj, al w3)).
  destruct Hc as [(e & Es & Eo)|[(b & Es & Eo & Eg)|(Es & Eo & Eg)]].
  - left. rewrite Eo. cbn [negb].
    destruct (steal_ok P NE s3 _ i j w3 wj G3 H3 eq_refl Hj3 Hij eq_refl eq_refl) as (s' & E & G'); [now rewrite Es|].
    exists s'. rewrite E. auto.
  - rewrite Eo, Eg. cbn [negb al w3].
    destruct (pocma P || Nat.eqb x (al wj)) eqn:Ex.
    + left. assert (Exa : x = al wj).
      { unfold x in *. destruct (pocma P); auto. cbn in Ex. now apply Nat.eqb_eq in Ex. }
      destruct (steal_ok P NE s3 _ i j w3 wj G3 H3 eq_refl Hj3 Hij eq_refl eq_refl) as (s' & E & G'); [now rewrite Es|].
      exists s'. rewrite E. auto.
    + apply orb_false_elim in Ex. destruct Ex as [Epm Ex]. rewrite Epm.
      destruct f.
      * right. split; auto.
        pose proof (inv_slot _ _ _ (proj1 G3) _ _ Hj3) as Hok. unfold slot_ok in Hok. rewrite Es in Hok.
        destruct Hok as (_ & o & _ & Hsz & _). rewrite Hsz. cbn [alloc_raw]. reflexivity.
      * left.
        assert (Hfin : forall me (s' : world) n, size me = size wj -> at_ s' j wj -> size wj = SObj n ->
          nth_error (blocks s') b = Some (Blk n (al wj) true) ->
          objs s' (LHeap b) = None -> sbs P < n -> 0 < n ->
          mbind (dealloc_raw (al wj) (self wj) (size me)) (fun _ => set_self j None) s'
          = ROk tt (World (upd (blocks s') b (Blk n (al wj) false)) (objs s') (next s')
                       (upd (slots s') j (Some (Wr None (size wj) (vt wj) (al wj)))) (trace s' ++ [EFree b n (al wj)]))).
        { intros me s' n Hm H' Hz Hb Ho Hg Hp. rewrite Hm, Hz, Es. cbn [dealloc_raw].
          rewrite (bindE _ _ _ _ _ (mfree_eq _ _ _ _ Hb Ho)). rewrite (set_self_eq _ j wj); [now rewrite <- Hz|exact H']. }
        destruct (relocate_ok P NE sizeof_pos s3 _ i j w3 wj b (fun me => mbind (dealloc_raw (al wj) (self wj) (size me)) (fun _ => set_self j None)) G3 H3 eq_refl Hj3 Hij eq_refl eq_refl Es Hfin) as (s' & E & G').
        exists s'. split; auto. change (al w3) with x in E. rewrite E. reflexivity.
  - left. rewrite Eo, Eg. cbn [negb].
    destruct (move_small_ok P NE s3 _ i j w3 wj G3 H3 eq_refl Hj3 Hij eq_refl eq_refl Es) as (s' & E & G').
    exists s'. rewrite E. auto.
Qed.


Lemma step_destroy s a i w : Good s a -> at_ s i w -> refines s (step P (ODestroy i) s) (a_put a i None) Done.
Proof.
  intros G H. cbn [step refines].
  destruct (cleanup_ok P NE sizeof_pos s a i w G H) as (s1 & E1 & G1 & H1 & _).
  destruct (kill_ok s1 _ i _ G1 H1 eq_refl) as (s2 & E2 & G2). rewrite a_put_put in G2.
  exists s2. split; auto. eapply ok_bind. unfold destroy. rewrite (bindE _ _ _ _ _ E1). exact E2.
Qed.

(** The object seen through a wrapper. *)
Lemma see_some s a i w t v : Good s a -> at_ s i w -> a_see a (aview s w) = Some (t, v) ->
  exists l o, self w = Some l /\ objs s l = Some o /\ o_ty o = t /\ o_val o = v /\
    vt w = Some (t, is_const_ref (aview s w)) /\ is_const (size w) = is_const_ref (aview s w) /\
    match l with LExt e => aview s w = ARef e (is_const_ref (aview s w)) | _ => aview s w = AOwned t v end.
Proof.
  intros G H Hs. pose proof (inv_slot _ _ _ (proj1 G) _ _ H) as Hok. unfold slot_ok in Hok.
  unfold aview in *. destruct (self w) as [[b|k|e]|] eqn:Es.
  - destruct Hok as (_ & o & Ho & Hsz & _ & Hvt & _). rewrite Ho in *. cbn in Hs. injection Hs as <- <-.
    exists (LHeap b), o. rewrite Hsz. cbn. repeat split; auto.
  - destruct Hok as (-> & o & Ho & Hsz & _ & Hvt). rewrite Ho in *. cbn in Hs. injection Hs as <- <-.
    exists (LSmall i), o. rewrite Hsz. cbn. repeat split; auto.
  - destruct Hok as (_ & o & c & Ho & Hsz & Hvt). cbn in Hs.
    pose proof (proj2 (proj2 G) e) as R2. rewrite Ho, Hs in R2. cbn in R2. injection R2 as <- <-.
    exists (LExt e), o. rewrite Hsz. destruct c; cbn; repeat split; auto.
  - discriminate.
Qed.
Lemma see_nonempty s a i w : Good s a -> at_ s i w -> aview s w <> AEmpty -> exists t v, a_see a (aview s w) = Some (t, v).
Proof.
  intros G H Hn. pose proof (inv_slot _ _ _ (proj1 G) _ _ H) as Hok. unfold slot_ok in Hok.
  unfold aview in *. destruct (self w) as [[b|k|e]|] eqn:Es.
  - destruct Hok as (_ & o & Ho & _). rewrite Ho. cbn. eauto.
  - destruct Hok as (-> & o & Ho & _). rewrite Ho. cbn. eauto.
  - destruct Hok as (_ & o & c & Ho & _). cbn. pose proof (proj2 (proj2 G) e) as R2. rewrite Ho in R2. cbn in R2. rewrite <- R2. eauto.
  - congruence.
Qed.

Lemma type_is_see w t t' c : vt w = Some (t', c) -> type_is w t = Nat.eqb t t'.
Proof. unfold type_is. now intros ->. Qed.

Lemma good_read s a o : Good s a -> Good (World (blocks s) (objs s) (next s) (slots s) (trace s ++ [ERead o])) a.
Proof. intros G. apply G_trace; auto. apply cl_app; [eapply cl_trace; eauto|]. repeat constructor. Qed.

Lemma write_ok s a i w t v0 v : Good s a -> at_ s i w -> a_see a (aview s w) = Some (t, v0) ->
  exists s', write t (self w) v s = ROk tt s' /\ Good s' (a_store a i (aview s w) (al w) v).
Proof.
  intros G H Hs. destruct (see_some s a i w t v0 G H Hs) as (l & o & Es & Ho & Ht & Hv & Hvt & Hc & Hl).
  rewrite Es, (write_eq s t l o v Ho Ht). eexists. split; [reflexivity|]. rewrite <- Ht.
  assert (Ct : Forall clean (trace s ++ [EWrite (o_id o)])) by (apply cl_app; [eapply cl_trace; eauto|]; repeat constructor).
  destruct l as [b|k|e]; rewrite Hl; cbn [a_store].
  - rewrite <- Ht. exact (G_write_own P NE s a i w (LHeap b) o v _ G H Es Logic.I Ho Ct).
  - rewrite <- Ht. exact (G_write_own P NE s a i w (LSmall k) o v _ G H Es Logic.I Ho Ct).
  - pose proof (proj2 (proj2 G) e) as R2. rewrite Ho in R2. cbn in R2. rewrite <- R2.
    exact (G_write_ext P NE s a e o v _ G Ho Ct).
Qed.

Lemma step_get s a i t w t' v : Good s a -> at_ s i w -> a_see a (aview s w) = Some (t', v) ->
  refines s (step P (OGet i t) s) a (if Nat.eqb t t' then Value v else Thrown bad_type_erased_type).
Proof.
  intros G H Hs. destruct (see_some s a i w t' v G H Hs) as (l & o & Es & Ho & Ht & Hv & Hvt & Hc & Hl).
  cbn [step]. unfold as_const, refines.
  assert (E0 : mbind (getw i) (fun w => if negb (type_is w t) then throw bad_type_erased_type else ret (self w)) s =
     (if negb (Nat.eqb t t') then throw bad_type_erased_type else ret (self w)) s).
  { rewrite (bindE _ _ _ _ _ (getw_eq _ _ _ H)). now rewrite (type_is_see w t t' _ Hvt). }
  destruct (Nat.eqb_spec t t') as [->|]; cbn [negb] in E0.
  - eexists. split; [|apply good_read; exact G]. rewrite (bindE _ _ _ _ _ E0). rewrite Es.
    rewrite (bindE _ _ _ _ _ (use_eq s ERead t' l o Ho Ht)). rewrite Hv. reflexivity.
  - exists s. split; auto. rewrite (bindT _ _ _ _ _ E0). reflexivity.
Qed.

Lemma step_set s a i t v w t' v0 : Good s a -> at_ s i w -> a_see a (aview s w) = Some (t', v0) ->
  if negb (Nat.eqb t t') then step P (OSet i t v) s = RThrow bad_type_erased_type s
  else if is_const_ref (aview s w) then step P (OSet i t v) s = RThrow bad_type_erased_constness s
  else refines s (step P (OSet i t v) s) (a_store a i (aview s w) (al w) v) Done.
Proof.
  intros G H Hs. destruct (see_some s a i w t' v0 G H Hs) as (l & o & Es & Ho & Ht & Hv & Hvt & Hc & Hl).
  cbn [step]. unfold as_mut.
  assert (E0 : mbind (getw i) (fun w => if negb (type_is w t) then throw bad_type_erased_type
      else if is_const (size w) then throw bad_type_erased_constness else ret (self w)) s =
     (if negb (Nat.eqb t t') then throw bad_type_erased_type else
      if is_const_ref (aview s w) then throw bad_type_erased_constness else ret (self w)) s).
  { rewrite (bindE _ _ _ _ _ (getw_eq _ _ _ H)). now rewrite (type_is_see w t t' _ Hvt), Hc. }
  destruct (Nat.eqb_spec t t') as [->|]; cbn [negb] in *.
  - destruct (is_const_ref (aview s w)).
    + rewrite (bindT _ _ _ _ _ E0). reflexivity.
    + cbn [refines]. destruct (write_ok s a i w t' v0 v G H Hs) as (s' & E & G'). exists s'. split; auto.
      rewrite (bindE _ _ _ _ _ E0). eapply ok_bind. exact E.
  - rewrite (bindT _ _ _ _ _ E0). reflexivity.
Qed.

Lemma step_take s a i t v w t' v0 : Good s a -> at_ s i w -> a_see a (aview s w) = Some (t', v0) ->
  if negb (Nat.eqb t t') then step P (OTake i t v) s = RThrow bad_type_erased_type s
  else if is_const_ref (aview s w) then step P (OTake i t v) s = RThrow bad_type_erased_constness s
  else refines s (step P (OTake i t v) s) (a_store a i (aview s w) (al w) v) (Value v0).
Proof.
  intros G H Hs. destruct (see_some s a i w t' v0 G H Hs) as (l & o & Es & Ho & Ht & Hv & Hvt & Hc & Hl).
  cbn [step]. unfold as_rvalue.
  assert (E0 : mbind (getw i) (fun w => if negb (type_is w t) then throw bad_type_erased_type
      else if is_const (size w) then throw bad_type_erased_constness else ret (self w)) s =
     (if negb (Nat.eqb t t') then throw bad_type_erased_type else
      if is_const_ref (aview s w) then throw bad_type_erased_constness else ret (self w)) s).
  { rewrite (bindE _ _ _ _ _ (getw_eq _ _ _ H)). now rewrite (type_is_see w t t' _ Hvt), Hc. }
  destruct (Nat.eqb_spec t t') as [->|]; cbn [negb] in *.
  - destruct (is_const_ref (aview s w)).
    + rewrite (bindT _ _ _ _ _ E0). reflexivity.
    + cbn [refines]. set (s1 := World (blocks s) (objs s) (next s) (slots s) (trace s ++ [ERead (o_id o)])).
      assert (G1 : Good s1 a) by (apply good_read; exact G).
      destruct (write_ok s1 a i w t' v0 v G1 H Hs) as (s' & E & G'). exists s'. split; auto.
      rewrite (bindE _ _ _ _ _ E0). rewrite Es. rewrite (bindE _ _ _ _ _ (use_eq s ERead t' l o Ho Ht)). fold s1.
      rewrite Es in E. rewrite (bindE _ _ _ _ _ E). now rewrite Hv.
  - rewrite (bindT _ _ _ _ _ E0). reflexivity.
Qed.

Lemma step_call_const s a i w t' v : Good s a -> at_ s i w -> a_see a (aview s w) = Some (t', v) ->
  refines s (step P (OCallConst i) s) a (Value v).
Proof.
  intros G H Hs. destruct (see_some s a i w t' v G H Hs) as (l & o & Es & Ho & Ht & Hv & Hvt & Hc & Hl).
  cbn [step refines]. unfold call_const. eexists. split; [|apply good_read; exact G].
  unfold mbind at 1. rewrite (bindE _ _ _ _ _ (getw_eq _ _ _ H)). rewrite Es. cbn [is_null negb assert].
  rewrite (bindE (assert true) _ s tt s eq_refl). unfold vt_type. rewrite Hvt.
  rewrite (bindE (ret t') _ s t' s eq_refl). rewrite (use_eq s ERead t' l o Ho Ht). rewrite Hv. reflexivity.
Qed.
Lemma step_call s a i v w t' v0 : Good s a -> at_ s i w -> a_see a (aview s w) = Some (t', v0) ->
  if is_const_ref (aview s w) then step P (OCall i v) s = RThrow bad_type_erased_constness s
  else refines s (step P (OCall i v) s) (a_store a i (aview s w) (al w) v) Done.
Proof.
  intros G H Hs. destruct (see_some s a i w t' v0 G H Hs) as (l & o & Es & Ho & Ht & Hv & Hvt & Hc & Hl).
  cbn [step]. unfold call_mut.
  assert (E0 : call_mut i v s = (if is_const_ref (aview s w) then throw bad_type_erased_constness else write t' (self w) v) s).
  { unfold call_mut. rewrite (bindE _ _ _ _ _ (getw_eq _ _ _ H)). rewrite Es. cbn [is_null negb].
    rewrite (bindE (assert true) _ s tt s eq_refl). rewrite Hc. destruct (is_const_ref (aview s w)); auto.
    unfold vt_type. rewrite Hvt. rewrite (bindE (ret t') _ s t' s eq_refl). reflexivity. }
  unfold call_mut in E0. destruct (is_const_ref (aview s w)).
  - rewrite (ok_throw _ _ _ _ E0). reflexivity.
  - destruct (write_ok s a i w t' v0 v G H Hs) as (s' & E & G'). cbn [refines]. exists s'. split; auto.
    eapply ok_bind. rewrite E0. exact E.
Qed.

Lemma refines_perform s o a' r : refines s (step P o s) a' r -> exists s', perform P s o = Next s' r /\ Good s' a'.
Proof.
  unfold refines, perform. destruct r; intros (s' & E & G'); rewrite E; eauto.
Qed.
Lemma throw_perform s o e a : step P o s = RThrow e s -> Good s a -> exists s', perform P s o = Next s' (Thrown e) /\ Good s' a.
Proof. unfold perform. intros -> G. eauto. Qed.

Theorem perform_ok s a o a' r : Good s a -> a_step P a o = Some (a', r) ->
  (exists s', perform P s o = Next s' r /\ Good s' a') \/ (perform P s o = Stuck_terminate /\ ~ moves_get_memory o).
Proof.
  intros G Hstep. pose proof (proj2 G) as HR.
  destruct o; cbn [a_step] in Hstep.
  - injection Hstep as <- <-. left. apply refines_perform. now apply step_new.
  - left. pose proof (step_val s a via_make a0 t v f G) as K.
    destruct (val_throws (sizeof P) (sbs P) t f); injection Hstep as <- <-; now apply refines_perform.
  - left. destruct (nth_error (a_ext a) e) as [p|] eqn:E; [|discriminate]. injection Hstep as <- <-.
    apply refines_perform. now apply step_ref with p.
  - left. destruct (a_get a j) as [[x al0]|] eqn:E; [|discriminate].
    destruct (R_get_inv _ _ _ _ HR E) as (w & Hw & [= -> ->]).
    pose proof (step_copy s a j oa f w G Hw) as K.
    destruct (copy_throws (sizeof P) (sbs P) (aview s w) f); injection Hstep as <- <-; now apply refines_perform.
  - destruct (a_get a j) as [[x al0]|] eqn:E; [|discriminate].
    destruct (R_get_inv _ _ _ _ HR E) as (w & Hw & [= -> ->]).
    injection Hstep as <- <-. destruct oa as [a0|].
    + destruct (move_alloc_body s a j a0 f w G Hw) as [(s' & Em & G')|[Em ->]].
      * left. exists s'. split; auto. unfold perform. cbn [step]. now rewrite (ok_bind _ _ _ _ Em).
      * right. split; [|cbn; discriminate]. unfold perform. cbn [step]. unfold ok, mbind. now rewrite Em.
    + left. apply refines_perform. now apply step_move.
  - left. destruct (a_get a i) as [[xi ai]|] eqn:Ei; [|discriminate]. destruct (a_get a j) as [[x aj]|] eqn:Ej; [|discriminate].
    destruct (R_get_inv _ _ _ _ HR Ei) as (wi & Hwi & [= -> ->]). destruct (R_get_inv _ _ _ _ HR Ej) as (wj & Hwj & [= -> ->]).
    pose proof (step_copy_assign s a i j f wi wj G Hwi Hwj) as K. cbn zeta in K, Hstep.
    destruct (Nat.eqb i j); [injection Hstep as <- <-; now apply refines_perform|].
    destruct (copy_throws (sizeof P) (sbs P) (aview s wj) f); injection Hstep as <- <-; now apply refines_perform.
  - destruct (a_get a i) as [[xi ai]|] eqn:Ei; [|discriminate]. destruct (a_get a j) as [[x aj]|] eqn:Ej; [|discriminate].
    destruct (R_get_inv _ _ _ _ HR Ei) as (wi & Hwi & [= -> ->]). destruct (R_get_inv _ _ _ _ HR Ej) as (wj & Hwj & [= -> ->]).
    pose proof (move_assign_body s a i j f wi wj G Hwi Hwj) as K. cbn zeta in K.
    destruct (Nat.eqb i j); injection Hstep as <- <-.
    + left. exists s. split; auto. unfold perform. cbn [step]. now rewrite (ok_bind _ _ _ _ K).
    + destruct K as [(s' & Em & G')|[Em ->]].
      * left. exists s'. split; auto. unfold perform. cbn [step]. now rewrite (ok_bind _ _ _ _ Em).
      * right. split; [|cbn; discriminate]. unfold perform. cbn [step]. unfold ok, mbind. now rewrite Em.
  - left. destruct (a_get a i) as [x|] eqn:Ei; [|discriminate].
    destruct (R_get_inv _ _ _ _ HR Ei) as (w & Hw & ->). injection Hstep as <- <-.
    apply refines_perform. now apply step_destroy with w.
  - left. destruct (a_get a i) as [[x al0]|] eqn:Ei; [|discriminate].
    destruct (R_get_inv _ _ _ _ HR Ei) as (w & Hw & [= -> ->]).
    destruct (a_see a (aview s w)) as [[t' v]|] eqn:Es; [|discriminate]. injection Hstep as <- <-.
    apply refines_perform. now apply step_get with w.
  - left. destruct (a_get a i) as [[x al0]|] eqn:Ei; [|discriminate].
    destruct (R_get_inv _ _ _ _ HR Ei) as (w & Hw & [= -> ->]).
    destruct (a_see a (aview s w)) as [[t' v0]|] eqn:Es; [|discriminate].
    pose proof (step_set s a i t v w t' v0 G Hw Es) as K.
    destruct (negb (Nat.eqb t t')); [|destruct (is_const_ref (aview s w))]; injection Hstep as <- <-;
      first [now apply throw_perform | now apply refines_perform].
  - left. destruct (a_get a i) as [[x al0]|] eqn:Ei; [|discriminate].
    destruct (R_get_inv _ _ _ _ HR Ei) as (w & Hw & [= -> ->]).
    destruct (a_see a (aview s w)) as [[t' v0]|] eqn:Es; [|discriminate].
    pose proof (step_take s a i t v w t' v0 G Hw Es) as K.
    destruct (negb (Nat.eqb t t')); [|destruct (is_const_ref (aview s w))]; injection Hstep as <- <-;
      first [now apply throw_perform | now apply refines_perform].
  - left. destruct (a_get a i) as [[x al0]|] eqn:Ei; [|discriminate].
    destruct (R_get_inv _ _ _ _ HR Ei) as (w & Hw & [= -> ->]).
    destruct (a_see a (aview s w)) as [[t' v]|] eqn:Es; [|discriminate]. injection Hstep as <- <-.
    apply refines_perform. now apply step_call_const with w t'.
  - left. destruct (a_get a i) as [[x al0]|] eqn:Ei; [|discriminate].
    destruct (R_get_inv _ _ _ _ HR Ei) as (w & Hw & [= -> ->]).
    destruct (a_see a (aview s w)) as [[t' v0]|] eqn:Es; [|discriminate].
    pose proof (step_call s a i v w t' v0 G Hw Es) as K.
    destruct (is_const_ref (aview s w)); injection Hstep as <- <-;
      first [now apply throw_perform | now apply refines_perform].
Qed.

Theorem run_ok os : forall s a rs a', Good s a -> a_run P a os rs a' -> Forall moves_get_memory os ->
  exists s', run P s os = Some (s', rs) /\ Good s' a'.
Proof.
  induction os as [|o os IH]; intros s a rs a' G Hr Hm; inversion Hr as [|? ? s1 r ? rs0 ? Hst Htl]; subst; cbn [run].
  - eauto.
  - inversion Hm as [|? ? Hm1 Hm2]; subst. destruct (perform_ok s a o s1 r G Hst) as [(s' & E & G')|[_ N]]; [|contradiction].
    rewrite E. destruct (IH s' s1 rs0 a' G' Htl Hm2) as (s'' & E2 & G''). rewrite E2. eauto.
Qed.
End Pf.

Section Init.
Context {V : Type} (P : settings).
Lemma Good_init (ext : list (nat * V)) : Good P (length ext) (init ext) (AState [] ext).
Proof.
  split.
  - constructor; cbn.
    + intros [|i]; discriminate.
    + discriminate.
    + intros [|i]; discriminate.
    + intros [|i]; discriminate.
    + discriminate.
    + intros e o. destruct (nth_error ext e) as [[t v]|] eqn:E; [|discriminate]. intros [= <-]. cbn.
      split; auto. now apply nth_some_lt in E.
    + intros [b|i|e] o; try discriminate. auto.
    + auto.
    + apply Forall_forall. intros x Hx. destruct (ctor_events_in _ _ _ Hx) as (o & t & _ & -> & _). exact I.
  - split; [reflexivity|]. intros e. cbn. destruct (nth_error ext e) as [[t v]|]; reflexivity.
Qed.
Lemma TI_perform (s : @world V) o s' r : TI P s -> perform P s o = Next s' r -> TI P s'.
Proof.
  intros T. unfold perform. pose proof (keeps_step P o s T) as K. destruct (step P o s); try discriminate; intros [= <- <-]; auto.
Qed.
Lemma TI_run os : forall (s : @world V) s' rs, TI P s -> run P s os = Some (s', rs) -> TI P s'.
Proof.
  induction os as [|o os IH]; intros s s' rs T; cbn [run].
  - now intros [= <- <-].
  - destruct (perform P s o) eqn:E; try discriminate. destruct (run P s0 os) as [[s2 rs2]|] eqn:E2; [|discriminate].
    intros [= <- <-]. apply (IH s0 s2 rs2); [|exact E2]. exact (TI_perform s o s0 r T E).
Qed.
End Init.
