(** The machine only performs allowed events: every primitive keeps the relation
    between machine state and trace, hence so does every program. *)
From Verif Require Import Base TypeErased_Spec TypeErased_Model.
Local Arguments Nat.eqb : simpl never.
Local Arguments Nat.leb : simpl never.
Local Arguments Nat.ltb : simpl never.

Section T.
Context {V : Type} (P : settings).
Notation world := (@world V).
Notation M := (@M V).
Notation obj := (@obj V).

Lemma in_snoc {A} (x y : A) l : In x (l ++ [y]) <-> In x l \/ y = x.
Proof. rewrite in_app_iff. cbn. intuition. Qed.

Lemma loc_eqb_spec x y : reflect (x = y) (loc_eqb x y).
Proof.
  destruct x, y; cbn; try (constructor; congruence);
    destruct (Nat.eqb_spec b b0) || destruct (Nat.eqb_spec i i0) || destruct (Nat.eqb_spec e e0);
    constructor; congruence.
Qed.

Record TI (s : world) : Prop := mkTI {
  ti_wf : wf_trace (sizeof P) (sbs P) (trace s);
  ti_blk1 : forall b n a, nth_error (blocks s) b = Some (Blk n a true) -> block_alive (trace s) b n a;
  ti_blk2 : forall b n a, block_alive (trace s) b n a -> nth_error (blocks s) b = Some (Blk n a true);
  ti_blk3 : forall b n a, In (EAlloc b n a) (trace s) -> b < length (blocks s);
  ti_blk4 : forall b n a, In (EFree b n a) (trace s) -> b < length (blocks s);
  ti_obj1 : forall l o, objs s l = Some o -> obj_alive (trace s) (o_id o) l (o_ty o);
  ti_obj2 : forall o l t, obj_alive (trace s) o l t -> exists v, objs s l = Some (Obj o t v);
  ti_obj3 : forall o l t, In (ECtor o l t) (trace s) -> o < next s;
  ti_obj4 : forall o, In (EDtor o) (trace s) -> o < next s;
  ti_obj5 : forall o l t l' t', In (ECtor o l t) (trace s) -> In (ECtor o l' t') (trace s) -> l = l' /\ t = t';
  ti_sl1 : forall i w, nth_error (slots s) i = Some (Some w) -> wrapper_alive (trace s) i;
  ti_sl2 : forall i, wrapper_alive (trace s) i -> exists w, nth_error (slots s) i = Some (Some w);
  ti_sl3 : forall i, In (EBegin i) (trace s) -> i < length (slots s);
  ti_sl4 : forall i, In (EEnd i) (trace s) -> i < length (slots s)
}.

Definition keeps {A} (m : M A) : Prop := forall s, TI s ->
  match m s with ROk _ s' | RThrow _ s' => TI s' | _ => True end.

Lemma nth_some_lt {A} (l : list A) i x : nth_error l i = Some x -> i < length l.
Proof. intros H. apply nth_error_Some. congruence. Qed.

Lemma nth_snoc {A} (l : list A) x i : nth_error (l ++ [x]) i = if Nat.ltb i (length l) then nth_error l i
   else if Nat.eqb i (length l) then Some x else None.
Proof.
  destruct (Nat.ltb_spec i (length l)).
  - now apply nth_error_app1.
  - rewrite nth_error_app2 by lia. destruct (Nat.eqb_spec i (length l)).
    + subst. now rewrite Nat.sub_diag.
    + destruct (i - length l) eqn:E; [lia|]. cbn. now destruct n0.
Qed.

(** Vacancy from the machine state. *)
Lemma TI_vacant s l : TI s -> objs s l = None -> vacant (trace s) l.
Proof. intros T H o t Ha. destruct (ti_obj2 _ T _ _ _ Ha) as [v Hv]. congruence. Qed.

(** Events that change nothing in the relation. *)
Definition quiet (e : event) : Prop :=
  match e with ECopy _ | EMove _ | ERead _ | EWrite _ => True | _ => False end.
Lemma alive_quiet h e o l t : quiet e -> obj_alive (h ++ [e]) o l t <-> obj_alive h o l t.
Proof. intros Q. unfold obj_alive. rewrite !in_snoc. destruct e; cbn in Q; try tauto; intuition congruence. Qed.
Lemma balive_quiet h e b n a : quiet e -> block_alive (h ++ [e]) b n a <-> block_alive h b n a.
Proof.
  intros Q. unfold block_alive. rewrite !in_snoc. split; intros [H1 H2]; split.
  - destruct H1; [auto|]. destruct e; cbn in Q; try tauto; discriminate.
  - intros (n' & a' & H). apply H2. exists n', a'. rewrite in_snoc. auto.
  - auto.
  - intros (n' & a' & H). apply H2. exists n', a'. rewrite in_snoc in H. destruct H; [auto|].
    destruct e; cbn in Q; try tauto; discriminate.
Qed.
Lemma walive_quiet h e i : quiet e -> wrapper_alive (h ++ [e]) i <-> wrapper_alive h i.
Proof. intros Q. unfold wrapper_alive. rewrite !in_snoc. destruct e; cbn in Q; try tauto; intuition congruence. Qed.

(** Generic: which events touch which part. *)
Definition obj_ev (e : event) := match e with ECtor _ _ _ | EDtor _ => True | _ => False end.
Definition blk_ev (e : event) := match e with EAlloc _ _ _ | EFree _ _ _ => True | _ => False end.
Definition slt_ev (e : event) := match e with EBegin _ | EEnd _ => True | _ => False end.
Lemma alive_skip h e o l t : ~ obj_ev e -> obj_alive (h ++ [e]) o l t <-> obj_alive h o l t.
Proof. intros Q. unfold obj_alive. rewrite !in_snoc. destruct e; cbn in Q; try tauto; intuition congruence. Qed.
Lemma balive_skip h e b n a : ~ blk_ev e -> block_alive (h ++ [e]) b n a <-> block_alive h b n a.
Proof.
  intros Q. unfold block_alive. rewrite !in_snoc. split; intros [H1 H2]; split.
  - destruct H1; [auto|]. destruct e; cbn in Q; try tauto; discriminate.
  - intros (n' & a' & H). apply H2. exists n', a'. rewrite in_snoc. auto.
  - auto.
  - intros (n' & a' & H). apply H2. exists n', a'. rewrite in_snoc in H. destruct H; [auto|].
    destruct e; cbn in Q; try tauto; discriminate.
Qed.
Lemma walive_skip h e i : ~ slt_ev e -> wrapper_alive (h ++ [e]) i <-> wrapper_alive h i.
Proof. intros Q. unfold wrapper_alive. rewrite !in_snoc. destruct e; cbn in Q; try tauto; intuition congruence. Qed.

(** Parts of TI for an event that does not touch them. *)
Lemma TI_mk s e bl ob nx sl :
  TI s -> ok_event (sizeof P) (sbs P) (trace s) e ->
  (* blocks *)
  (if match e with EAlloc _ _ _ | EFree _ _ _ => true | _ => false end then
     (forall b n a, nth_error bl b = Some (Blk n a true) <-> block_alive (trace s ++ [e]) b n a) /\
     (forall b n a, In (EAlloc b n a) (trace s ++ [e]) -> b < length bl) /\
     (forall b n a, In (EFree b n a) (trace s ++ [e]) -> b < length bl)
   else bl = blocks s) ->
  (if match e with ECtor _ _ _ | EDtor _ => true | _ => false end then
     (forall l o, ob l = Some o -> obj_alive (trace s ++ [e]) (o_id o) l (o_ty o)) /\
     (forall o l t, obj_alive (trace s ++ [e]) o l t -> exists v, ob l = Some (Obj o t v)) /\
     (forall o l t, In (ECtor o l t) (trace s ++ [e]) -> o < nx) /\
     (forall o, In (EDtor o) (trace s ++ [e]) -> o < nx) /\
     (forall o l t l' t', In (ECtor o l t) (trace s ++ [e]) -> In (ECtor o l' t') (trace s ++ [e]) -> l = l' /\ t = t')
   else nx = next s /\ forall l, match ob l, objs s l with
                                 | Some x, Some y => o_id x = o_id y /\ o_ty x = o_ty y
                                 | None, None => True | _, _ => False end) ->
  (if match e with EBegin _ | EEnd _ => true | _ => false end then
     (forall i, (exists w, nth_error sl i = Some (Some w)) <-> wrapper_alive (trace s ++ [e]) i) /\
     (forall i, In (EBegin i) (trace s ++ [e]) -> i < length sl) /\
     (forall i, In (EEnd i) (trace s ++ [e]) -> i < length sl)
   else sl = slots s) ->
  TI (World bl ob nx sl (trace s ++ [e])).
Proof.
  intros T Hok HB HO HS.
  assert (B : (forall b n a, nth_error bl b = Some (Blk n a true) <-> block_alive (trace s ++ [e]) b n a) /\
     (forall b n a, In (EAlloc b n a) (trace s ++ [e]) -> b < length bl) /\
     (forall b n a, In (EFree b n a) (trace s ++ [e]) -> b < length bl)).
  { destruct e; try exact HB; cbn in HB; subst bl; (split; [|split]);
      try (intros; rewrite balive_skip by (cbn; tauto); split; [apply (ti_blk1 _ T)|apply (ti_blk2 _ T)]);
      try (intros ? ? ? H; rewrite in_snoc in H; destruct H as [H|H]; [exact (ti_blk3 _ T _ _ _ H)|discriminate]);
      try (intros ? ? ? H; rewrite in_snoc in H; destruct H as [H|H]; [exact (ti_blk4 _ T _ _ _ H)|discriminate]). }
  assert (O : (forall l o, ob l = Some o -> obj_alive (trace s ++ [e]) (o_id o) l (o_ty o)) /\
     (forall o l t, obj_alive (trace s ++ [e]) o l t -> exists v, ob l = Some (Obj o t v)) /\
     (forall o l t, In (ECtor o l t) (trace s ++ [e]) -> o < nx) /\
     (forall o, In (EDtor o) (trace s ++ [e]) -> o < nx) /\
     (forall o l t l' t', In (ECtor o l t) (trace s ++ [e]) -> In (ECtor o l' t') (trace s ++ [e]) -> l = l' /\ t = t')).
  { destruct e; try exact HO; cbn in HO; destruct HO as [-> HO]; (split; [|split; [|split; [|split]]]);
      try (intros l0 o0 H0; rewrite alive_skip by (cbn; tauto); specialize (HO l0); rewrite H0 in HO;
           destruct (objs s l0) as [y|] eqn:E; [|tauto]; destruct HO as [-> ->]; now apply (ti_obj1 _ T));
      try (intros o0 l0 t0 H0; rewrite alive_skip in H0 by (cbn; tauto);
           destruct (ti_obj2 _ T _ _ _ H0) as [v0 Hv0]; specialize (HO l0); rewrite Hv0 in HO;
           destruct (ob l0) as [[id0 ty0 va0]|]; [|tauto]; cbn in HO; destruct HO as [-> ->]; eauto);
      try (intros ? ? ? H; rewrite in_snoc in H; destruct H as [H|H]; [exact (ti_obj3 _ T _ _ _ H)|discriminate]);
      try (intros ? H; rewrite in_snoc in H; destruct H as [H|H]; [exact (ti_obj4 _ T _ H)|discriminate]);
      try (intros ? ? ? ? ? H H'; rewrite in_snoc in H, H'; destruct H as [H|H]; [|discriminate];
           destruct H' as [H'|H']; [|discriminate]; eapply (ti_obj5 _ T); eauto). }
  assert (S : (forall i, (exists w, nth_error sl i = Some (Some w)) <-> wrapper_alive (trace s ++ [e]) i) /\
     (forall i, In (EBegin i) (trace s ++ [e]) -> i < length sl) /\
     (forall i, In (EEnd i) (trace s ++ [e]) -> i < length sl)).
  { destruct e; try exact HS; cbn in HS; subst sl; (split; [|split]);
      try (intros; rewrite walive_skip by (cbn; tauto); split; [intros [w Hw]; eapply (ti_sl1 _ T); eauto|apply (ti_sl2 _ T)]);
      try (intros ? H; rewrite in_snoc in H; destruct H as [H|H]; [exact (ti_sl3 _ T _ H)|discriminate]);
      try (intros ? H; rewrite in_snoc in H; destruct H as [H|H]; [exact (ti_sl4 _ T _ H)|discriminate]). }
  destruct B as (B1 & B2 & B3), O as (O1 & O2 & O3 & O4 & O5), S as (S1 & S2 & S3).
  constructor; cbn; auto.
  - constructor; [apply (ti_wf _ T)|exact Hok].
  - intros. now apply B1.
  - intros. now apply B1.
  - intros. apply S1. eauto.
  - intros. now apply S1.
Qed.

Lemma objs_refl (ob : loc -> option obj) l : match ob l, ob l with
   | Some x, Some y => o_id x = o_id y /\ o_ty x = o_ty y | None, None => True | _, _ => False end.
Proof. destruct (ob l); auto. Qed.

Lemma keeps_malloc a n f : keeps (malloc a n f).
Proof.
  intros s T. unfold malloc. destruct f; [exact T|]. cbn zeta.
  apply TI_mk; auto; try reflexivity.
  - cbn. intros n' a' H. apply (ti_blk3 _ T) in H. lia.
  - split; [|split].
    + intros b n' a'. rewrite nth_snoc. destruct (Nat.ltb_spec b (length (blocks s))) as [Hb|Hb].
      * rewrite (conj (ti_blk1 _ T b n' a') (ti_blk2 _ T b n' a') : _ <-> _).
        unfold block_alive. rewrite in_snoc. split; intros [H1 H2]; split; auto.
        -- intros (n2 & a2 & H). rewrite in_snoc in H. destruct H as [H|H]; [|discriminate]. eauto.
        -- destruct H1 as [H1|H1]; [auto|]. injection H1; lia.
        -- intros (n2 & a2 & H). apply H2. exists n2, a2. rewrite in_snoc. auto.
      * destruct (Nat.eqb_spec b (length (blocks s))) as [->|Hn].
        -- split.
           ++ intros [= <- <-]. split; [rewrite in_snoc; auto|]. intros (n2 & a2 & H).
              rewrite in_snoc in H. destruct H as [H|H]; [|discriminate]. apply (ti_blk4 _ T) in H. lia.
           ++ intros [H1 _]. rewrite in_snoc in H1. destruct H1 as [H1|[= -> ->]]; [|reflexivity].
              apply (ti_blk3 _ T) in H1. lia.
        -- split; [discriminate|]. intros [H1 _]. rewrite in_snoc in H1. destruct H1 as [H1|H1].
           ++ apply (ti_blk3 _ T) in H1. lia.
           ++ injection H1. lia.
    + intros b n' a' H. rewrite app_length. cbn. rewrite in_snoc in H. destruct H as [H|H].
      * apply (ti_blk3 _ T) in H. lia.
      * injection H. lia.
    + intros b n' a' H. rewrite app_length. cbn. rewrite in_snoc in H. destruct H as [H|H]; [|discriminate].
      apply (ti_blk4 _ T) in H. lia.
  - split; [reflexivity|]. intros l. apply objs_refl.
Qed.

Lemma keeps_mfree a l n : keeps (mfree a l n).
Proof.
  intros s T. unfold mfree. destruct l as [[b| |]|]; auto.
  destruct (nth_error (blocks s) b) as [[n' a' [|]]|] eqn:E; auto.
  destruct (Nat.eqb_spec n n'); cbn [andb]; auto. destruct (Nat.eqb_spec a a'); auto. subst n' a'.
  destruct (objs s (LHeap b)) eqn:Ho; auto.
  pose proof (nth_some_lt _ _ _ E) as Hlt.
  pose proof (ti_blk1 _ T _ _ _ E) as Ha.
  apply TI_mk; auto; try reflexivity.
  - cbn. split; [exact Ha|]. now apply TI_vacant.
  - split; [|split].
    + intros b' n' a'. rewrite nth_error_upd. destruct (Nat.eqb_spec b b') as [<-|Hne].
      * rewrite (proj2 (Nat.ltb_lt _ _)) by auto. split; [discriminate|]. intros [_ H]. exfalso. apply H.
        exists n, a. rewrite in_snoc. auto.
      * rewrite (conj (ti_blk1 _ T b' n' a') (ti_blk2 _ T b' n' a') : _ <-> _).
        unfold block_alive. rewrite in_snoc. split; intros [H1 H2]; split; auto.
        -- intros (n2 & a2 & H). rewrite in_snoc in H. destruct H as [H|H]; [eauto|]. injection H. lia.
        -- destruct H1 as [H1|H1]; [auto|discriminate].
        -- intros (n2 & a2 & H). apply H2. exists n2, a2. rewrite in_snoc. auto.
    + intros b' n' a' H. rewrite upd_length. rewrite in_snoc in H. destruct H as [H|H]; [|discriminate].
      now apply (ti_blk3 _ T) in H.
    + intros b' n' a' H. rewrite upd_length. rewrite in_snoc in H. destruct H as [H|H].
      * now apply (ti_blk4 _ T) in H.
      * injection H as <- <- <-. exact Hlt.
  - split; [reflexivity|]. intros l. apply objs_refl.
Qed.

Lemma keeps_ctor l t v f : keeps (ctor P l t v f).
Proof.
  intros s T. unfold ctor. destruct (storage_ok P s l (sizeof P t)) eqn:Es; auto.
  destruct (objs s l) eqn:Eo; auto. destruct f; auto.
  apply TI_mk; auto; try reflexivity.
  - cbn. split; [|split].
    + intros l' t' H. apply (ti_obj3 _ T) in H. lia.
    + now apply TI_vacant.
    + destruct l as [b|i|e]; cbn in Es; auto.
      * destruct (nth_error (blocks s) b) as [[m a [|]]|] eqn:E; try discriminate.
        apply Nat.leb_le in Es. exists m, a. split; [now apply (ti_blk1 _ T)|exact Es].
      * destruct (nth_error (slots s) i) as [[w|]|] eqn:E; try discriminate.
        apply Nat.leb_le in Es. split; [eapply (ti_sl1 _ T); eauto|exact Es].
  - split; [|split; [|split; [|split]]].
    + intros l' o H. unfold set_obj in H. destruct (loc_eqb_spec l l') as [<-|Hne].
      * injection H as <-. cbn. split; [rewrite in_snoc; auto|]. rewrite in_snoc. intros [Hd|Hd]; [|discriminate].
        apply (ti_obj4 _ T) in Hd. lia.
      * destruct (ti_obj1 _ T _ _ H) as [H1 H2]. split; [rewrite in_snoc; auto|].
        rewrite in_snoc. intros [Hd|Hd]; [auto|discriminate].
    + intros o l' t' [H1 H2]. rewrite in_snoc in H1, H2. unfold set_obj. destruct H1 as [H1|[= <- <- <-]].
      * destruct (ti_obj2 _ T o l' t') as [v' Hv']; [split; tauto|].
        destruct (loc_eqb_spec l l') as [<-|Hne]; [congruence|eauto].
      * destruct (loc_eqb_spec l l); [eauto|congruence].
    + intros o l' t' H. rewrite in_snoc in H. destruct H as [H|[= <- <- <-]].
      * apply (ti_obj3 _ T) in H. lia.
      * lia.
    + intros o H. rewrite in_snoc in H. destruct H as [H|H]; [|discriminate]. apply (ti_obj4 _ T) in H. lia.
    + intros o l1 t1 l2 t2 H1 H2. rewrite in_snoc in H1, H2.
      destruct H1 as [H1|[= <- <- <-]], H2 as [H2|H2].
      * eapply (ti_obj5 _ T); eauto.
      * injection H2 as <- <- <-. apply (ti_obj3 _ T) in H1. lia.
      * apply (ti_obj3 _ T) in H2. lia.
      * injection H2 as <- <-. auto.
Qed.


Lemma keeps_use_gen (e : nat -> event) t l :
  (forall h o, ok_event (sizeof P) (sbs P) h (e o) <-> exists l t, obj_alive h o l t) ->
  (forall o, quiet (e o)) -> keeps (use e t l).
Proof.
  intros K Q s T. unfold use. destruct l as [l|]; auto. destruct (objs s l) as [o|] eqn:E; auto.
  destruct (Nat.eqb (o_ty o) t); auto.
  pose proof (ti_obj1 _ T _ _ E) as Ha. specialize (Q (o_id o)).
  apply TI_mk; auto; try reflexivity.
  - apply K. eauto.
  - destruct (e (o_id o)); cbn in Q; tauto || reflexivity.
  - destruct (e (o_id o)); cbn in Q; try tauto; (split; [reflexivity|intros; apply objs_refl]).
  - destruct (e (o_id o)); cbn in Q; tauto || reflexivity.
Qed.

Lemma keeps_use_copy t l : keeps (use ECopy t l).
Proof. apply keeps_use_gen; cbn; tauto. Qed.
Lemma keeps_use_move t l : keeps (use EMove t l).
Proof. apply keeps_use_gen; cbn; tauto. Qed.
Lemma keeps_use_read t l : keeps (use ERead t l).
Proof. apply keeps_use_gen; cbn; tauto. Qed.

Lemma keeps_write t l v : keeps (write t l v).
Proof.
  intros s T. unfold write. destruct l as [l|]; auto. destruct (objs s l) as [o|] eqn:E; auto.
  destruct (Nat.eqb_spec (o_ty o) t) as [<-|]; auto.
  apply TI_mk; auto; try reflexivity.
  - cbn. exists l, (o_ty o). now apply (ti_obj1 _ T).
  - split; [reflexivity|]. intros l'. unfold set_obj. destruct (loc_eqb_spec l l') as [<-|].
    + rewrite E. auto.
    + apply objs_refl.
Qed.

Lemma keeps_dtor t l : keeps (dtor t l).
Proof.
  intros s T. unfold dtor. destruct l as [l|]; auto. destruct (objs s l) as [o|] eqn:E; auto.
  destruct (Nat.eqb_spec (o_ty o) t) as [<-|]; auto.
  pose proof (ti_obj1 _ T _ _ E) as Ha. destruct Ha as [Ha1 Ha2].
  apply TI_mk; auto; try reflexivity.
  - cbn. exists l, (o_ty o). split; auto.
  - split; [|split; [|split; [|split]]].
    + intros l' o' H. unfold set_obj in H. destruct (loc_eqb_spec l l') as [<-|Hne]; [discriminate|].
      destruct (ti_obj1 _ T _ _ H) as [H1 H2]. split; [rewrite in_snoc; auto|].
      rewrite in_snoc. intros [Hd|Hd]; [auto|]. injection Hd as Hd. rewrite Hd in *.
      destruct (ti_obj5 _ T _ _ _ _ _ Ha1 H1). congruence.
    + intros o' l' t' [H1 H2]. rewrite in_snoc in H1, H2. destruct H1 as [H1|]; [|discriminate].
      destruct (ti_obj2 _ T o' l' t') as [v Hv]; [split; tauto|].
      unfold set_obj. destruct (loc_eqb_spec l l') as [<-|Hne]; [|eauto].
      rewrite E in Hv. injection Hv as ->. exfalso. apply H2. auto.
    + intros o' l' t' H. rewrite in_snoc in H. destruct H as [H|]; [|discriminate]. eapply (ti_obj3 _ T); eauto.
    + intros o' H. rewrite in_snoc in H. destruct H as [H|[= <-]]; [eapply (ti_obj4 _ T); eauto|].
      eapply (ti_obj3 _ T); eauto.
    + intros o' l1 t1 l2 t2 H1 H2. rewrite in_snoc in H1, H2. destruct H1 as [H1|]; [|discriminate].
      destruct H2 as [H2|]; [|discriminate]. eapply (ti_obj5 _ T); eauto.
Qed.

Lemma keeps_new_slot w : keeps (new_slot w).
Proof.
  intros s T. unfold new_slot. cbn zeta. apply TI_mk; auto; try reflexivity.
  - cbn. intros H. apply (ti_sl3 _ T) in H. lia.
  - split; [reflexivity|intros; apply objs_refl].
  - split; [|split].
    + intros i. rewrite nth_snoc. destruct (Nat.ltb_spec i (length (slots s))) as [Hi|Hi].
      * transitivity (wrapper_alive (trace s) i).
        -- split; [intros [w' H]; eapply (ti_sl1 _ T); eauto|apply (ti_sl2 _ T)].
        -- unfold wrapper_alive. rewrite !in_snoc. split; intros [H1 H2]; split; auto.
           ++ intros [H|H]; [auto|discriminate].
           ++ destruct H1 as [H1|H1]; [auto|]. injection H1. lia.
      * destruct (Nat.eqb_spec i (length (slots s))) as [->|Hn].
        -- split; [intros _|eauto]. split; [rewrite in_snoc; auto|]. rewrite in_snoc. intros [H|H]; [|discriminate].
           apply (ti_sl4 _ T) in H. lia.
        -- split; [intros [? ?]; discriminate|]. intros [H1 _]. rewrite in_snoc in H1. destruct H1 as [H1|H1].
           ++ apply (ti_sl3 _ T) in H1. lia.
           ++ injection H1. lia.
    + intros i H. rewrite app_length. cbn. rewrite in_snoc in H. destruct H as [H|H].
      * apply (ti_sl3 _ T) in H. lia.
      * injection H. lia.
    + intros i H. rewrite app_length. cbn. rewrite in_snoc in H. destruct H as [H|H]; [|discriminate].
      apply (ti_sl4 _ T) in H. lia.
Qed.

Lemma keeps_kill_slot i : keeps (kill_slot i).
Proof.
  intros s T. unfold kill_slot. destruct (nth_error (slots s) i) as [[w|]|] eqn:E; auto.
  destruct (objs s (LSmall i)) eqn:Eo; auto.
  pose proof (nth_some_lt _ _ _ E) as Hlt.
  apply TI_mk; auto; try reflexivity.
  - cbn. split; [eapply (ti_sl1 _ T); eauto|now apply TI_vacant].
  - split; [reflexivity|intros; apply objs_refl].
  - split; [|split].
    + intros j. rewrite nth_error_upd. destruct (Nat.eqb_spec i j) as [<-|Hne].
      * rewrite (proj2 (Nat.ltb_lt _ _)) by auto. split; [intros [? ?]; discriminate|]. intros [_ H]. exfalso. apply H.
        rewrite in_snoc. auto.
      * transitivity (wrapper_alive (trace s) j).
        -- split; [intros [w' H]; eapply (ti_sl1 _ T); eauto|apply (ti_sl2 _ T)].
        -- unfold wrapper_alive. rewrite !in_snoc. split; intros [H1 H2]; split; auto.
           ++ intros [H|H]; [auto|]. injection H. lia.
           ++ destruct H1 as [H1|H1]; [auto|discriminate].
    + intros j H. rewrite upd_length. rewrite in_snoc in H. destruct H as [H|H]; [|discriminate].
      now apply (ti_sl3 _ T) in H.
    + intros j H. rewrite upd_length. rewrite in_snoc in H. destruct H as [H|H].
      * now apply (ti_sl4 _ T) in H.
      * injection H as <-. exact Hlt.
Qed.

Lemma keeps_getw i : keeps (getw i).
Proof. intros s T. unfold getw. destruct (nth_error (slots s) i) as [[w|]|]; auto. Qed.

Lemma keeps_setw i w : keeps (setw i w).
Proof.
  intros s T. unfold setw. destruct (nth_error (slots s) i) as [[w0|]|] eqn:E; auto.
  pose proof (nth_some_lt _ _ _ E) as Hlt.
  destruct T. constructor; cbn; auto.
  - intros j w' H. rewrite nth_error_upd in H. destruct (Nat.eqb_spec i j) as [<-|]; eauto.
  - intros j H. apply ti_sl6 in H. destruct H as [w' H]. rewrite nth_error_upd.
    destruct (Nat.eqb_spec i j) as [<-|]; eauto. rewrite (proj2 (Nat.ltb_lt _ _)) by auto. eauto.
  - intros. rewrite upd_length. auto.
  - intros. rewrite upd_length. auto.
Qed.

Lemma keeps_ret {A} (a : A) : keeps (ret a).
Proof. intros s T. exact T. Qed.
Lemma keeps_throw {A} e : keeps (@throw V A e).
Proof. intros s T. exact T. Qed.
Lemma keeps_ub {A} : keeps (@ub V A).
Proof. intros s T. exact I. Qed.
Lemma keeps_terminate {A} : keeps (@terminate V A).
Proof. intros s T. exact I. Qed.
Lemma keeps_assert b : keeps (assert b).
Proof. intros s T. destruct b; cbn; auto. Qed.
Lemma keeps_bind {A B} (m : M A) (f : A -> M B) : keeps m -> (forall a, keeps (f a)) -> keeps (mbind m f).
Proof. intros Hm Hf s T. unfold mbind. specialize (Hm s T). destruct (m s); auto. now apply Hf. Qed.
Lemma keeps_on_throw {A} (m : M A) g : keeps m -> keeps g -> keeps (on_throw m g).
Proof.
  intros Hm Hg s T. unfold on_throw. specialize (Hm s T). destruct (m s); auto.
  specialize (Hg s0 Hm). destruct (g s0); auto.
Qed.
Lemma keeps_noexcept {A} (m : M A) : keeps m -> keeps (noexcept m).
Proof. intros Hm s T. unfold noexcept. specialize (Hm s T). destruct (m s); auto. Qed.
End T.

Create HintDb keeps.
#[global] Hint Resolve keeps_malloc keeps_mfree keeps_ctor keeps_use_copy keeps_use_move keeps_use_read keeps_write
  keeps_dtor keeps_new_slot keeps_kill_slot keeps_getw keeps_setw keeps_ret keeps_throw keeps_ub keeps_terminate
  keeps_assert : keeps.

Ltac keep :=
  repeat first
   [ solve [eauto with keeps]
   | apply keeps_bind; [|intros]
   | apply keeps_on_throw
   | apply keeps_noexcept
   | match goal with
     | |- keeps _ (match ?x with _ => _ end) => destruct x
     | |- keeps _ (if ?x then _ else _) => destruct x
     end ].

Section T2.
Context {V : Type} (P : settings).

Lemma keeps_step (o : op V) : keeps P (step P o).
Proof.
  destruct o; cbn [step]; unfold ok.
  3: { intros s T. destruct (objs s (LExt e)); [|exact I].
       revert s T. change (keeps P (mbind (@construct_by_pointer V a e (o_ty o) c) (fun _ => ret (@Done V)))).
       unfold construct_by_pointer, constructing, construct_ref, set_size, set_vt, set_self. keep. }
  all: try destruct oa.
  all: unfold construct_by_value, copy_construct, copy_assign, move_construct, move_construct_alloc, move_assign,
      destroy, as_const, as_mut, as_rvalue, call_const, call_mut, constructing, do_copy_assign, construct_value,
      cleanup, deallocate, allocate, move_small, steal, vt_copy, vt_move, vt_destroy, set_size, set_vt, set_self, set_al,
      alloc_raw, dealloc_raw, vt_type.
  all: keep.
Qed.

Lemma ctor_events_in (ext : list (nat * V)) : forall k e, In e (ctor_events k ext) ->
  exists o t, k <= o < k + length ext /\ e = ECtor o (LExt o) t /\ exists v, nth_error ext (o - k) = Some (t, v).
Proof.
  induction ext as [|[t v] ext IH]; intros k e; cbn; [tauto|].
  intros [<-|H].
  - exists k, t. rewrite Nat.sub_diag. repeat split; try lia. exists v. reflexivity.
  - destruct (IH _ _ H) as (o & t' & Ho & -> & v' & Hv). exists o, t'. repeat split; try lia.
    exists v'. replace (o - k) with (S (o - S k)) by lia. exact Hv.
Qed.
Lemma ctor_events_in2 (ext : list (nat * V)) : forall k j t v, nth_error ext j = Some (t, v) ->
  In (ECtor (k + j) (LExt (k + j)) t) (ctor_events k ext).
Proof.
  induction ext as [|[t0 v0] ext IH]; intros k [|j] t v; cbn; try discriminate.
  - intros [= -> ->]. rewrite Nat.add_0_r. auto.
  - intros H. right. replace (k + S j) with (S k + j) by lia. eauto.
Qed.
Lemma ctor_events_snoc (ext : list (nat * V)) : forall k t v,
  ctor_events k (ext ++ [(t, v)]) = ctor_events k ext ++ [ECtor (k + length ext) (LExt (k + length ext)) t].
Proof.
  induction ext as [|[t0 v0] ext IH]; intros k t v; cbn.
  - now rewrite Nat.add_0_r.
  - rewrite IH. do 2 f_equal. cbn. now rewrite Nat.add_succ_r.
Qed.
Lemma ctor_events_wf (ext : list (nat * V)) : wf_trace (sizeof P) (sbs P) (ctor_events 0 ext).
Proof.
  induction ext as [|[t v] ext IH] using rev_ind; [constructor|].
  rewrite ctor_events_snoc. constructor; [exact IH|]. cbn.
  split; [|split; [|exact I]].
  - intros l' t' H. destruct (ctor_events_in _ _ _ H) as (o & t2 & Ho & [= E1 E2 E3] & _). lia.
  - intros o t' [H _]. destruct (ctor_events_in _ _ _ H) as (o2 & t2 & Ho & [= E1 E2 E3] & _). lia.
Qed.

Lemma TI_init (ext : list (nat * V)) : TI P (init ext).
Proof.
  assert (N : forall e, In e (ctor_events 0 ext) -> match e with ECtor _ _ _ => True | _ => False end).
  { intros e H. destruct (ctor_events_in _ _ _ H) as (o & t2 & Ho & -> & _). exact I. }
  constructor; cbn.
  - apply ctor_events_wf.
  - intros [|b]; discriminate.
  - intros b n a [H _]. destruct (N _ H).
  - intros b n a H. destruct (N _ H).
  - intros b n a H. destruct (N _ H).
  - intros [b|i|e] o; try discriminate. destruct (nth_error ext e) as [[t v]|] eqn:E; [|discriminate].
    intros [= <-]. cbn. split; [|intros H; destruct (N _ H)]. now apply (ctor_events_in2 ext 0 e t v).
  - intros o l t [H _]. destruct (ctor_events_in _ _ _ H) as (o2 & t2 & Ho & [= -> -> ->] & v & Hv).
    rewrite Nat.sub_0_r in Hv. rewrite Hv. eauto.
  - intros o l t H. destruct (ctor_events_in _ _ _ H) as (o2 & t2 & Ho & [= -> -> ->] & v & Hv). lia.
  - intros o H. destruct (N _ H).
  - intros o l t l' t' H H'. destruct (ctor_events_in _ _ _ H) as (o2 & t2 & Ho & [= -> -> ->] & v & Hv).
    destruct (ctor_events_in _ _ _ H') as (o3 & t3 & Ho3 & [= -> -> ->] & v3 & Hv3).
    rewrite Hv in Hv3. injection Hv3 as -> ->. auto.
  - intros [|i]; discriminate.
  - intros i [H _]. destruct (N _ H).
  - intros i H. destruct (N _ H).
  - intros i H. destruct (N _ H).
Qed.
End T2.
