(** Representation invariant of the wrappers, its relation to the value semantics,
    and its preservation by the elementary state changes. *)
From Verif Require Import Base TypeErased_Spec TypeErased_Model TypeErased_Trace.
Local Arguments Nat.eqb : simpl never.
Local Arguments Nat.leb : simpl never.
Local Arguments Nat.ltb : simpl never.

Local Arguments set_obj : simpl never.

Section I.
Context {V : Type} (P : settings) (NE : nat).
Notation world := (@world V).
Notation obj := (@obj V).

(** Events allowed for the program's own variables (ids below [NE]): only
    the initial construction, reads and writes. *)
Definition clean (e : event) : Prop :=
  match e with ECopy o | EMove o | EDtor o => NE <= o | _ => True end.

Definition slot_ok (s : world) (i : nat) (w : wrapper) : Prop :=
  match self w with
  | None => objs s (LSmall i) = None
  | Some (LHeap b) =>
      objs s (LSmall i) = None /\
      exists o, objs s (LHeap b) = Some o /\ size w = SObj (sizeof P (o_ty o)) /\ sbs P < sizeof P (o_ty o) /\
        vt w = Some (o_ty o, false) /\ nth_error (blocks s) b = Some (Blk (sizeof P (o_ty o)) (al w) true)
  | Some (LSmall j) =>
      j = i /\
      exists o, objs s (LSmall i) = Some o /\ size w = SObj (sizeof P (o_ty o)) /\ sizeof P (o_ty o) <= sbs P /\
        vt w = Some (o_ty o, false)
  | Some (LExt e) =>
      objs s (LSmall i) = None /\
      exists o c, objs s (LExt e) = Some o /\ size w = (if c : bool then SConst else SMut) /\ vt w = Some (o_ty o, c)
  end.

Record Inv (s : world) : Prop := mkInv {
  inv_slot : forall i w, nth_error (slots s) i = Some (Some w) -> slot_ok s i w;
  inv_small : forall i o, objs s (LSmall i) = Some o -> exists w, nth_error (slots s) i = Some (Some w);
  inv_uniq : forall i j wi wj b, nth_error (slots s) i = Some (Some wi) -> nth_error (slots s) j = Some (Some wj) ->
      self wi = Some (LHeap b) -> self wj = Some (LHeap b) -> i = j;
  inv_blk : forall b m a, nth_error (blocks s) b = Some (Blk m a true) ->
      exists i w, nth_error (slots s) i = Some (Some w) /\ self w = Some (LHeap b);
  inv_heap : forall b o, objs s (LHeap b) = Some o -> exists m a, nth_error (blocks s) b = Some (Blk m a true);
  inv_ext : forall e o, objs s (LExt e) = Some o -> o_id o = e /\ e < NE;
  inv_ids : forall l o, objs s l = Some o -> match l with LExt _ => True | _ => NE <= o_id o end;
  inv_next : NE <= next s;
  inv_clean : Forall clean (trace s)
}.

(** The value a wrapper stands for. *)
Definition aview (s : world) (w : wrapper) : aval V :=
  match self w with
  | None => AEmpty
  | Some (LExt e) => ARef e (is_const (size w))
  | Some l => match objs s l with Some o => AOwned (o_ty o) (o_val o) | None => AEmpty end
  end.
Definition absl (s : world) : list (option (aval V * nat)) :=
  map (option_map (fun w => (aview s w, al w))) (slots s).
Local Arguments absl : simpl never.
Local Arguments aview : simpl never.
Definition R (s : world) (a : astate V) : Prop :=
  absl s = a_ws a /\
  forall e, option_map (fun o => (o_ty o, o_val o)) (objs s (LExt e)) = nth_error (a_ext a) e.
Definition Good (s : world) (a : astate V) : Prop := Inv s /\ R s a.

Lemma set_obj_same (f : loc -> option obj) l x : set_obj f l x l = x.
Proof. unfold set_obj. destruct (loc_eqb_spec l l); congruence. Qed.
Lemma set_obj_other (f : loc -> option obj) l x l' : l <> l' -> set_obj f l x l' = f l'.
Proof. unfold set_obj. destruct (loc_eqb_spec l l'); congruence. Qed.

Lemma nth_upd_same {A} (l : list A) i x y : nth_error l i = Some y -> nth_error (upd l i x) i = Some x.
Proof. intros H. apply upd_same. now apply nth_some_lt in H. Qed.

Lemma nth_upd_inv {A} (l : list A) i j x y z : nth_error l i = Some z ->
  nth_error (upd l i x) j = Some y -> (j = i /\ y = x) \/ (j <> i /\ nth_error l j = Some y).
Proof.
  intros Hz H. rewrite nth_error_upd in H. destruct (Nat.eqb_spec i j) as [<-|Hn].
  - rewrite (proj2 (Nat.ltb_lt _ _)) in H by (now apply nth_some_lt in Hz). injection H as <-. auto.
  - auto.
Qed.
Lemma nth_upd_some {A} (l : list A) i x z : forall j, j <> i -> nth_error l j = Some z -> nth_error (upd l i x) j = Some z.
Proof. intros j Hj H. rewrite upd_other by auto. exact H. Qed.

Lemma list_ext {A} (l l' : list A) : (forall i, nth_error l i = nth_error l' i) -> l = l'.
Proof.
  revert l'. induction l as [|x l IH]; intros [|y l'] H; auto.
  - specialize (H 0). discriminate.
  - specialize (H 0). discriminate.
  - f_equal; [specialize (H 0); cbn in H; congruence|]. apply IH. intros i. apply (H (S i)).
Qed.

(** A slot change with a local effect on objects changes one abstract slot. *)
Lemma absl_upd s s' i w0 (x : option wrapper) :
  nth_error (slots s) i = Some (Some w0) ->
  slots s' = upd (slots s) i x ->
  (forall j w, j <> i -> nth_error (slots s) j = Some (Some w) -> aview s' w = aview s w) ->
  absl s' = upd (absl s) i (option_map (fun w => (aview s' w, al w)) x).
Proof.
  intros Hi Hs Ho. apply list_ext. intros j. unfold absl. rewrite nth_error_upd, map_length, !nth_error_map, Hs, nth_error_upd.
  destruct (Nat.eqb_spec i j) as [<-|Hn].
  - rewrite (proj2 (Nat.ltb_lt _ _)) by (now apply nth_some_lt in Hi). reflexivity.
  - destruct (nth_error (slots s) j) as [[w|]|] eqn:E; cbn; auto. rewrite (Ho j w); auto.
Qed.

Lemma R_get s a i w : R s a -> nth_error (slots s) i = Some (Some w) -> a_get a i = Some (aview s w, al w).
Proof. intros [H _] Hi. unfold a_get. rewrite <- H. unfold absl. rewrite nth_error_map, Hi. reflexivity. Qed.
Lemma R_get_inv s a i x : R s a -> a_get a i = Some x ->
  exists w, nth_error (slots s) i = Some (Some w) /\ x = (aview s w, al w).
Proof.
  intros [H _]. unfold a_get. rewrite <- H. unfold absl. rewrite nth_error_map.
  destruct (nth_error (slots s) i) as [[w|]|]; cbn; try discriminate. intros [= <-]. eauto.
Qed.

Ltac case_upd H Hi :=
  apply (nth_upd_inv _ _ _ _ _ _ Hi) in H; destruct H as [[-> H]|[? H]].

(** ** Metadata of an empty wrapper, or of a wrapper whose content keeps its description. *)
Lemma G_meta s a i w w' tr : Good s a -> nth_error (slots s) i = Some (Some w) -> self w = None -> self w' = None ->
  Forall clean tr ->
  Good (World (blocks s) (objs s) (next s) (upd (slots s) i (Some w')) tr) (a_put a i (Some (AEmpty, al w'))).
Proof.
  intros [I [R1 R2]] Hi Hs Hs' Ht. pose proof (inv_slot _ I _ _ Hi) as Hok. unfold slot_ok in Hok. rewrite Hs in Hok.
  split.
  - constructor; cbn.
    + intros j wj H. case_upd H Hi.
      * injection H as ->. unfold slot_ok. rewrite Hs'. exact Hok.
      * exact (inv_slot _ I _ _ H).
    + intros j o H. destruct (inv_small _ I _ _ H) as [wj Hj]. destruct (Nat.eq_dec j i) as [->|].
      * eexists. eapply nth_upd_same; eauto.
      * eexists. eapply nth_upd_some; eauto.
    + intros j k wj wk b Hj Hk Sj Sk. case_upd Hj Hi; case_upd Hk Hi.
      * reflexivity.
      * congruence.
      * congruence.
      * exact (inv_uniq _ I _ _ _ _ _ Hj Hk Sj Sk).
    + intros b m al0 H. destruct (inv_blk _ I _ _ _ H) as (j & wj & Hj & Sj). exists j, wj. split; auto.
      apply nth_upd_some; auto. intros ->. congruence.
    + apply (inv_heap _ I).
    + apply (inv_ext _ I).
    + apply (inv_ids _ I).
    + apply (inv_next _ I).
    + exact Ht.
  - split; [|exact R2]. cbn.
    rewrite (absl_upd s _ i w (Some w') Hi); [|reflexivity|reflexivity].
    cbn. unfold aview at 1. rewrite Hs'. now rewrite R1.
Qed.

(** ** New wrapper *)
Lemma G_new s a w tr : Good s a -> self w = None -> Forall clean tr ->
  Good (World (blocks s) (objs s) (next s) (slots s ++ [Some w]) tr) (a_push a (Some (AEmpty, al w))).
Proof.
  intros [I [R1 R2]] Hs Ht.
  assert (K : forall j wj, nth_error (slots s ++ [Some w]) j = Some (Some wj) ->
     (j = length (slots s) /\ wj = w) \/ (nth_error (slots s) j = Some (Some wj))).
  { intros j wj H. rewrite nth_snoc in H. destruct (Nat.ltb_spec j (length (slots s))); [auto|].
    destruct (Nat.eqb_spec j (length (slots s))); [|discriminate]. injection H as ->. auto. }
  assert (K2 : forall j wj, nth_error (slots s) j = Some (Some wj) -> nth_error (slots s ++ [Some w]) j = Some (Some wj)).
  { intros j wj H. rewrite nth_error_app1; auto. now apply nth_some_lt in H. }
  split.
  - constructor; cbn.
    + intros j wj H. destruct (K _ _ H) as [[-> ->]|H'].
      * unfold slot_ok. rewrite Hs. cbn. destruct (objs s (LSmall (length (slots s)))) as [o|] eqn:E; auto.
        destruct (inv_small _ I _ _ E) as [w' Hw']. apply nth_some_lt in Hw'. lia.
      * exact (inv_slot _ I _ _ H').
    + intros j o H. destruct (inv_small _ I _ _ H) as [wj Hj]. eauto.
    + intros j k wj wk b Hj Hk Sj Sk. destruct (K _ _ Hj) as [[-> ->]|Hj']; [congruence|].
      destruct (K _ _ Hk) as [[-> ->]|Hk']; [congruence|]. exact (inv_uniq _ I _ _ _ _ _ Hj' Hk' Sj Sk).
    + intros b m al0 H. destruct (inv_blk _ I _ _ _ H) as (j & wj & Hj & Sj). exists j, wj. auto.
    + apply (inv_heap _ I).
    + apply (inv_ext _ I).
    + apply (inv_ids _ I).
    + apply (inv_next _ I).
    + exact Ht.
  - split; [|exact R2]. cbn. unfold absl. cbn. rewrite map_app. cbn. unfold aview at 2. rewrite Hs.
    f_equal. exact R1.
Qed.

(** ** End of an empty wrapper *)
Lemma G_kill s a i w tr : Good s a -> nth_error (slots s) i = Some (Some w) -> self w = None -> Forall clean tr ->
  Good (World (blocks s) (objs s) (next s) (upd (slots s) i None) tr) (a_put a i None).
Proof.
  intros [I [R1 R2]] Hi Hs Ht. pose proof (inv_slot _ I _ _ Hi) as Hok. unfold slot_ok in Hok. rewrite Hs in Hok.
  split.
  - constructor; cbn.
    + intros j wj H. case_upd H Hi; [discriminate|]. exact (inv_slot _ I _ _ H).
    + intros j o H. destruct (inv_small _ I _ _ H) as [wj Hj]. destruct (Nat.eq_dec j i) as [->|]; [congruence|].
      eexists. eapply nth_upd_some; eauto.
    + intros j k wj wk b Hj Hk Sj Sk. case_upd Hj Hi; [discriminate|]. case_upd Hk Hi; [discriminate|].
      exact (inv_uniq _ I _ _ _ _ _ Hj Hk Sj Sk).
    + intros b m al0 H. destruct (inv_blk _ I _ _ _ H) as (j & wj & Hj & Sj). exists j, wj. split; auto.
      apply nth_upd_some; auto. intros ->. congruence.
    + apply (inv_heap _ I).
    + apply (inv_ext _ I).
    + apply (inv_ids _ I).
    + apply (inv_next _ I).
    + exact Ht.
  - split; [|exact R2]. cbn. rewrite (absl_upd s _ i w None Hi); [|reflexivity|reflexivity]. cbn. now rewrite R1.
Qed.

(** ** An empty wrapper gets an object in its small buffer *)
Lemma G_fill_small s a i w t v al' tr : Good s a -> nth_error (slots s) i = Some (Some w) -> self w = None ->
  sizeof P t <= sbs P -> Forall clean tr ->
  Good (World (blocks s) (set_obj (objs s) (LSmall i) (Some (Obj (next s) t v))) (S (next s))
          (upd (slots s) i (Some (Wr (Some (LSmall i)) (SObj (sizeof P t)) (Some (t, false)) al'))) tr)
       (a_put a i (Some (AOwned t v, al'))).
Proof.
  intros [I [R1 R2]] Hi Hs Hsz Ht. pose proof (inv_slot _ I _ _ Hi) as Hok. unfold slot_ok in Hok. rewrite Hs in Hok.
  split.
  - constructor; cbn.
    + intros j wj H. case_upd H Hi.
      * injection H as ->. unfold slot_ok. cbn. split; auto. eexists. rewrite set_obj_same. cbn. repeat split; auto.
      * pose proof (inv_slot _ I _ _ H) as Hj. unfold slot_ok in *. cbn.
        rewrite (set_obj_other _ (LSmall i) _ (LSmall j)) by congruence.
        destruct (self wj) as [[b|k|e]|]; auto.
    + intros j o H. destruct (Nat.eq_dec j i) as [->|].
      * eexists. eapply nth_upd_same; eauto.
      * rewrite set_obj_other in H by congruence. destruct (inv_small _ I _ _ H) as [wj Hj]. eexists. eapply nth_upd_some; eauto.
    + intros j k wj wk b Hj Hk Sj Sk. case_upd Hj Hi; case_upd Hk Hi; auto.
      * injection Hj as ->. discriminate.
      * injection Hk as ->. discriminate.
      * exact (inv_uniq _ I _ _ _ _ _ Hj Hk Sj Sk).
    + intros b m al0 H. destruct (inv_blk _ I _ _ _ H) as (j & wj & Hj & Sj). exists j, wj. split; auto.
      apply nth_upd_some; auto. intros ->. congruence.
    + intros b o H. rewrite set_obj_other in H by congruence. exact (inv_heap _ I _ _ H).
    + intros e o H. rewrite set_obj_other in H by congruence. exact (inv_ext _ I _ _ H).
    + intros l o H. destruct l as [b|j|e]; auto.
      * rewrite set_obj_other in H by congruence. exact (inv_ids _ I _ _ H).
      * destruct (Nat.eq_dec j i) as [->|].
        -- rewrite set_obj_same in H. injection H as <-. cbn. apply (inv_next _ I).
        -- rewrite set_obj_other in H by congruence. exact (inv_ids _ I _ _ H).
    + pose proof (inv_next _ I). lia.
    + exact Ht.
  - split.
    + erewrite (absl_upd s _ i w _ Hi); [|reflexivity|].
      * cbn. rewrite R1. unfold aview. cbn. rewrite set_obj_same. reflexivity.
      * intros j wj Hj H. unfold aview. cbn. pose proof (inv_slot _ I _ _ H) as Hok'. unfold slot_ok in Hok'.
        destruct (self wj) as [[b|k|e]|]; auto. destruct Hok' as [-> _]. rewrite set_obj_other by congruence. reflexivity.
    + cbn. intros e. rewrite set_obj_other by congruence. apply R2.
Qed.

(** ** An empty wrapper gets an object in a new heap block *)
Lemma G_fill_heap s a i w t v al' tr : Good s a -> nth_error (slots s) i = Some (Some w) -> self w = None ->
  sbs P < sizeof P t -> Forall clean tr ->
  let b := length (blocks s) in
  Good (World (blocks s ++ [Blk (sizeof P t) al' true]) (set_obj (objs s) (LHeap b) (Some (Obj (next s) t v))) (S (next s))
          (upd (slots s) i (Some (Wr (Some (LHeap b)) (SObj (sizeof P t)) (Some (t, false)) al'))) tr)
       (a_put a i (Some (AOwned t v, al'))).
Proof.
  intros [I [R1 R2]] Hi Hs Hsz Ht b0. pose proof (inv_slot _ I _ _ Hi) as Hok. unfold slot_ok in Hok. rewrite Hs in Hok.
  assert (Kb : forall b x, nth_error (blocks s) b = Some x -> b <> b0).
  { intros b x H ->. apply nth_some_lt in H. unfold b0 in H. lia. }
  assert (Kb2 : forall b x, nth_error (blocks s) b = Some x -> nth_error (blocks s ++ [Blk (sizeof P t) al' true]) b = Some x).
  { intros b x H. rewrite nth_error_app1; auto. now apply nth_some_lt in H. }
  assert (Ks : forall j wj, nth_error (slots s) j = Some (Some wj) -> self wj <> Some (LHeap b0)).
  { intros j wj H E. pose proof (inv_slot _ I _ _ H) as Hj. unfold slot_ok in Hj. rewrite E in Hj.
    destruct Hj as (_ & o & _ & _ & _ & _ & Hb). now apply Kb in Hb. }
  split.
  - constructor; cbn.
    + intros j wj H. case_upd H Hi.
      * injection H as ->. unfold slot_ok. cbn. rewrite set_obj_other by congruence. split; auto.
        eexists. rewrite set_obj_same. cbn. repeat split; auto. unfold b0. rewrite nth_error_app2, Nat.sub_diag by lia. reflexivity.
      * pose proof (inv_slot _ I _ _ H) as Hj. pose proof (Ks _ _ H) as Hnb. unfold slot_ok in *. cbn.
        rewrite !(set_obj_other _ (LHeap b0) _ (LSmall j)) by congruence.
        destruct (self wj) as [[b|k|e]|]; auto.
        destruct Hj as (G0 & o & G1 & G2 & G3 & G4 & G5). split; auto. exists o. rewrite set_obj_other by congruence. repeat split; auto.
    + intros j o H. rewrite set_obj_other in H by congruence. destruct (inv_small _ I _ _ H) as [wj Hj].
      destruct (Nat.eq_dec j i) as [->|]; [congruence|]. eexists. eapply nth_upd_some; eauto.
    + intros j k wj wk b Hj Hk Sj Sk. case_upd Hj Hi; case_upd Hk Hi; auto.
      * injection Hj as ->. cbn in Sj. injection Sj as <-. exfalso. exact (Ks _ _ Hk Sk).
      * injection Hk as ->. cbn in Sk. injection Sk as <-. exfalso. exact (Ks _ _ Hj Sj).
      * exact (inv_uniq _ I _ _ _ _ _ Hj Hk Sj Sk).
    + intros b m al0 H. rewrite nth_snoc in H. destruct (Nat.ltb_spec b (length (blocks s))).
      * destruct (inv_blk _ I _ _ _ H) as (j & wj & Hj & Sj). exists j, wj. split; auto.
        apply nth_upd_some; auto. intros ->. congruence.
      * destruct (Nat.eqb_spec b (length (blocks s))); [|discriminate]. subst b. eexists i, _. split.
        -- eapply nth_upd_same; eauto.
        -- reflexivity.
    + intros b o H. destruct (Nat.eq_dec b b0) as [->|].
      * unfold b0. rewrite nth_error_app2, Nat.sub_diag by lia. cbn. eauto.
      * rewrite set_obj_other in H by congruence. destruct (inv_heap _ I _ _ H) as (m & a' & Hb). eauto.
    + intros e o H. rewrite set_obj_other in H by congruence. exact (inv_ext _ I _ _ H).
    + intros l o H. destruct l as [b|j|e]; auto.
      * destruct (Nat.eq_dec b b0) as [->|].
        -- rewrite set_obj_same in H. injection H as <-. cbn. apply (inv_next _ I).
        -- rewrite set_obj_other in H by congruence. exact (inv_ids _ I _ _ H).
      * rewrite set_obj_other in H by congruence. exact (inv_ids _ I _ _ H).
    + pose proof (inv_next _ I). lia.
    + exact Ht.
  - split.
    + erewrite (absl_upd s _ i w _ Hi); [|reflexivity|].
      * cbn. rewrite R1. unfold aview. cbn. rewrite set_obj_same. reflexivity.
      * intros j wj Hj H. unfold aview. cbn. pose proof (Ks _ _ H).
        destruct (self wj) as [[b|k|e]|]; auto. rewrite set_obj_other by congruence. reflexivity.
    + cbn. intros e. rewrite set_obj_other by congruence. apply R2.
Qed.

(** ** An empty wrapper becomes a reference *)
Lemma G_fill_ext s a i w e o c al' tr : Good s a -> nth_error (slots s) i = Some (Some w) -> self w = None ->
  objs s (LExt e) = Some o -> Forall clean tr ->
  Good (World (blocks s) (objs s) (next s)
          (upd (slots s) i (Some (Wr (Some (LExt e)) (if c : bool then SConst else SMut) (Some (o_ty o, c)) al'))) tr)
       (a_put a i (Some (ARef e c, al'))).
Proof.
  intros [I [R1 R2]] Hi Hs He Ht. pose proof (inv_slot _ I _ _ Hi) as Hok. unfold slot_ok in Hok. rewrite Hs in Hok.
  split.
  - constructor; cbn.
    + intros j wj H. case_upd H Hi.
      * injection H as ->. unfold slot_ok. cbn. split; [exact Hok|]. exists o, c. auto.
      * exact (inv_slot _ I _ _ H).
    + intros j o' H. destruct (inv_small _ I _ _ H) as [wj Hj]. destruct (Nat.eq_dec j i) as [->|]; [congruence|].
      eexists. eapply nth_upd_some; eauto.
    + intros j k wj wk b Hj Hk Sj Sk. case_upd Hj Hi; case_upd Hk Hi; auto.
      * injection Hj as ->. discriminate.
      * injection Hk as ->. discriminate.
      * exact (inv_uniq _ I _ _ _ _ _ Hj Hk Sj Sk).
    + intros b m al0 H. destruct (inv_blk _ I _ _ _ H) as (j & wj & Hj & Sj). exists j, wj. split; auto.
      apply nth_upd_some; auto. intros ->. congruence.
    + apply (inv_heap _ I).
    + apply (inv_ext _ I).
    + apply (inv_ids _ I).
    + apply (inv_next _ I).
    + exact Ht.
  - split; [|exact R2].
    erewrite (absl_upd s _ i w _ Hi); [|reflexivity|reflexivity].
    cbn. rewrite R1. unfold aview. cbn. destruct c; reflexivity.
Qed.

(** ** A reference is dropped *)
Lemma G_empty_ext s a i w e w' tr : Good s a -> nth_error (slots s) i = Some (Some w) -> self w = Some (LExt e) ->
  self w' = None -> Forall clean tr ->
  Good (World (blocks s) (objs s) (next s) (upd (slots s) i (Some w')) tr) (a_put a i (Some (AEmpty, al w'))).
Proof.
  intros [I [R1 R2]] Hi Hs Hs' Ht. pose proof (inv_slot _ I _ _ Hi) as Hok. unfold slot_ok in Hok. rewrite Hs in Hok.
  destruct Hok as [Hok _].
  split.
  - constructor; cbn.
    + intros j wj H. case_upd H Hi.
      * injection H as ->. unfold slot_ok. rewrite Hs'. exact Hok.
      * exact (inv_slot _ I _ _ H).
    + intros j o H. destruct (inv_small _ I _ _ H) as [wj Hj]. destruct (Nat.eq_dec j i) as [->|]; [congruence|].
      eexists. eapply nth_upd_some; eauto.
    + intros j k wj wk b Hj Hk Sj Sk. case_upd Hj Hi; case_upd Hk Hi; auto; try congruence.
      exact (inv_uniq _ I _ _ _ _ _ Hj Hk Sj Sk).
    + intros b m al0 H. destruct (inv_blk _ I _ _ _ H) as (j & wj & Hj & Sj). exists j, wj. split; auto.
      apply nth_upd_some; auto. intros ->. congruence.
    + apply (inv_heap _ I).
    + apply (inv_ext _ I).
    + apply (inv_ids _ I).
    + apply (inv_next _ I).
    + exact Ht.
  - split; [|exact R2].
    erewrite (absl_upd s _ i w _ Hi); [|reflexivity|reflexivity].
    cbn. rewrite R1. unfold aview. rewrite Hs'. reflexivity.
Qed.

(** ** The object in a small buffer is destroyed *)
Lemma G_empty_small s a i w w' tr : Good s a -> nth_error (slots s) i = Some (Some w) -> self w = Some (LSmall i) ->
  self w' = None -> Forall clean tr ->
  Good (World (blocks s) (set_obj (objs s) (LSmall i) None) (next s) (upd (slots s) i (Some w')) tr)
       (a_put a i (Some (AEmpty, al w'))).
Proof.
  intros [I [R1 R2]] Hi Hs Hs' Ht.
  split.
  - constructor; cbn.
    + intros j wj H. case_upd H Hi.
      * injection H as ->. unfold slot_ok. rewrite Hs'. apply set_obj_same.
      * pose proof (inv_slot _ I _ _ H) as Hj. unfold slot_ok in *. cbn.
        rewrite (set_obj_other _ (LSmall i) _ (LSmall j)) by congruence.
        destruct (self wj) as [[b|k|e]|]; auto.
    + intros j o H. destruct (Nat.eq_dec j i) as [->|]; [rewrite set_obj_same in H; discriminate|].
      rewrite set_obj_other in H by congruence. destruct (inv_small _ I _ _ H) as [wj Hj].
      eexists. eapply nth_upd_some; eauto.
    + intros j k wj wk b Hj Hk Sj Sk. case_upd Hj Hi; case_upd Hk Hi; auto; try congruence.
      exact (inv_uniq _ I _ _ _ _ _ Hj Hk Sj Sk).
    + intros b m al0 H. destruct (inv_blk _ I _ _ _ H) as (j & wj & Hj & Sj). exists j, wj. split; auto.
      apply nth_upd_some; auto. intros ->. congruence.
    + intros b o H. rewrite set_obj_other in H by congruence. exact (inv_heap _ I _ _ H).
    + intros e o H. rewrite set_obj_other in H by congruence. exact (inv_ext _ I _ _ H).
    + intros l o H. unfold set_obj in H. destruct (loc_eqb (LSmall i) l); [discriminate|]. exact (inv_ids _ I _ _ H).
    + apply (inv_next _ I).
    + exact Ht.
  - split.
    + erewrite (absl_upd s _ i w _ Hi); [|reflexivity|].
      * cbn. rewrite R1. unfold aview. rewrite Hs'. reflexivity.
      * intros j wj Hj H. unfold aview. cbn. pose proof (inv_slot _ I _ _ H) as Hok'. unfold slot_ok in Hok'.
        destruct (self wj) as [[b|k|e]|]; auto. destruct Hok' as [-> _]. rewrite set_obj_other by congruence. reflexivity.
    + cbn. intros e. rewrite set_obj_other by congruence. apply R2.
Qed.

(** ** The object in a heap block is destroyed and the block freed *)
Lemma G_empty_heap s a i w b m al0 w' tr : Good s a -> nth_error (slots s) i = Some (Some w) -> self w = Some (LHeap b) ->
  self w' = None -> Forall clean tr ->
  Good (World (upd (blocks s) b (Blk m al0 false)) (set_obj (objs s) (LHeap b) None) (next s) (upd (slots s) i (Some w')) tr)
       (a_put a i (Some (AEmpty, al w'))).
Proof.
  intros [I [R1 R2]] Hi Hs Hs' Ht. pose proof (inv_slot _ I _ _ Hi) as Hok. unfold slot_ok in Hok. rewrite Hs in Hok.
  destruct Hok as (Hsm & o & Ho & Hsz & Hgt & Hvt & Hb).
  assert (Ks : forall j wj, j <> i -> nth_error (slots s) j = Some (Some wj) -> self wj <> Some (LHeap b)).
  { intros j wj Hj H E. apply Hj. exact (inv_uniq _ I _ _ _ _ _ H Hi E Hs). }
  split.
  - constructor; cbn.
    + intros j wj H. case_upd H Hi.
      * injection H as ->. unfold slot_ok. rewrite Hs'. cbn. rewrite set_obj_other by congruence. exact Hsm.
      * pose proof (inv_slot _ I _ _ H) as Hj. pose proof (Ks _ _ H0 H) as Hnb. unfold slot_ok in *. cbn.
        rewrite !(set_obj_other _ (LHeap b) _ (LSmall j)) by congruence.
        destruct (self wj) as [[b'|k|e]|]; auto.
        destruct Hj as (G0 & o' & G1 & G2 & G3 & G4 & G5). split; auto. exists o'. rewrite set_obj_other by congruence.
        repeat split; auto. rewrite upd_other by congruence. exact G5.
    + intros j o' H. rewrite set_obj_other in H by congruence. destruct (inv_small _ I _ _ H) as [wj Hj].
      destruct (Nat.eq_dec j i) as [->|]; [congruence|]. eexists. eapply nth_upd_some; eauto.
    + intros j k wj wk b' Hj Hk Sj Sk. case_upd Hj Hi; case_upd Hk Hi; auto; try congruence.
      exact (inv_uniq _ I _ _ _ _ _ Hj Hk Sj Sk).
    + intros b' m' al1 H. case_upd H Hb; [discriminate|].
      destruct (inv_blk _ I _ _ _ H) as (j & wj & Hj & Sj). exists j, wj. split; auto.
      apply nth_upd_some; auto. intros ->. congruence.
    + intros b' o' H. destruct (Nat.eq_dec b' b) as [->|]; [rewrite set_obj_same in H; discriminate|].
      rewrite set_obj_other in H by congruence. destruct (inv_heap _ I _ _ H) as (m' & a' & Hb').
      rewrite upd_other by congruence. eauto.
    + intros e o' H. rewrite set_obj_other in H by congruence. exact (inv_ext _ I _ _ H).
    + intros l o' H. unfold set_obj in H. destruct (loc_eqb (LHeap b) l); [discriminate|]. exact (inv_ids _ I _ _ H).
    + apply (inv_next _ I).
    + exact Ht.
  - split.
    + erewrite (absl_upd s _ i w _ Hi); [|reflexivity|].
      * cbn. rewrite R1. unfold aview. rewrite Hs'. reflexivity.
      * intros j wj Hj H. unfold aview. cbn. pose proof (Ks _ _ Hj H).
        destruct (self wj) as [[b'|k|e]|]; auto. rewrite set_obj_other by congruence. reflexivity.
    + cbn. intros e. rewrite set_obj_other by congruence. apply R2.
Qed.

(** ** A heap block changes hands *)
Lemma G_steal_heap s a i j wi wj b wj' tr : Good s a -> i <> j ->
  nth_error (slots s) i = Some (Some wi) -> self wi = None ->
  nth_error (slots s) j = Some (Some wj) -> self wj = Some (LHeap b) -> self wj' = None -> Forall clean tr ->
  Good (World (blocks s) (objs s) (next s)
          (upd (upd (slots s) j (Some wj')) i (Some (Wr (Some (LHeap b)) (size wj) (vt wj) (al wj)))) tr)
       (a_put (a_put a j (Some (AEmpty, al wj'))) i (Some (aview s wj, al wj))).
Proof.
  intros [I [R1 R2]] Hij Hi Hsi Hj Hsj Hsj' Ht.
  pose proof (inv_slot _ I _ _ Hi) as Hok. unfold slot_ok in Hok. rewrite Hsi in Hok.
  pose proof (inv_slot _ I _ _ Hj) as Hokj. unfold slot_ok in Hokj. rewrite Hsj in Hokj.
  destruct Hokj as (Hsm & o & Ho & Hsz & Hgt & Hvt & Hb).
  set (wi' := Wr (Some (LHeap b)) (size wj) (vt wj) (al wj)).
  assert (Hi2 : nth_error (upd (slots s) j (Some wj')) i = Some (Some wi)) by (rewrite upd_other; auto).
  assert (Ks : forall k wk, k <> j -> nth_error (slots s) k = Some (Some wk) -> self wk <> Some (LHeap b)).
  { intros k wk Hk H E. apply Hk. exact (inv_uniq _ I _ _ _ _ _ H Hj E Hsj). }
  split.
  - constructor; cbn.
    + intros k wk H. case_upd H Hi2.
      * injection H as ->. unfold slot_ok. cbn. split; auto. exists o. auto.
      * case_upd H Hj.
        -- injection H as ->. unfold slot_ok. rewrite Hsj'. exact Hsm.
        -- exact (inv_slot _ I _ _ H).
    + intros k o' H. destruct (inv_small _ I _ _ H) as [wk Hk].
      destruct (Nat.eq_dec k i) as [->|]; [congruence|]. destruct (Nat.eq_dec k j) as [->|]; [congruence|].
      eexists. eapply nth_upd_some; auto. eapply nth_upd_some; eauto.
    + intros k l wk wl b' Hk Hl Sk Sl. case_upd Hk Hi2; case_upd Hl Hi2; auto.
      * injection Hk as ->. cbn in Sk. injection Sk as <-. case_upd Hl Hj; [congruence|].
        exfalso. exact (Ks _ _ H0 Hl Sl).
      * injection Hl as ->. cbn in Sl. injection Sl as <-. case_upd Hk Hj; [congruence|].
        exfalso. exact (Ks _ _ H0 Hk Sk).
      * case_upd Hk Hj; [congruence|]. case_upd Hl Hj; [congruence|].
        exact (inv_uniq _ I _ _ _ _ _ Hk Hl Sk Sl).
    + intros b' m' al1 H. destruct (inv_blk _ I _ _ _ H) as (k & wk & Hk & Sk).
      destruct (Nat.eq_dec k j) as [->|Hkj].
      * assert (b' = b) by congruence. subst b'. exists i, wi'. split; [|reflexivity]. eapply nth_upd_same; eauto.
      * exists k, wk. split; auto. apply nth_upd_some; [intros ->; congruence|]. apply nth_upd_some; auto.
    + apply (inv_heap _ I).
    + apply (inv_ext _ I).
    + apply (inv_ids _ I).
    + apply (inv_next _ I).
    + exact Ht.
  - split; [|exact R2].
    set (s1 := World (blocks s) (objs s) (next s) (upd (slots s) j (Some wj')) tr).
    rewrite (absl_upd s1 _ i wi (Some wi') Hi2); [|reflexivity|reflexivity].
    rewrite (absl_upd s s1 j wj (Some wj') Hj); [|reflexivity|reflexivity].
    cbn. rewrite R1. unfold aview. rewrite Hsj'. cbn. rewrite Hsj. reflexivity.
Qed.

(** ** Writing an object *)
Lemma G_write_own s a i w l o v tr : Good s a -> nth_error (slots s) i = Some (Some w) -> self w = Some l ->
  match l with LExt _ => False | _ => True end -> objs s l = Some o -> Forall clean tr ->
  Good (World (blocks s) (set_obj (objs s) l (Some (Obj (o_id o) (o_ty o) v))) (next s) (slots s) tr)
       (a_put a i (Some (AOwned (o_ty o) v, al w))).
Proof.
  intros [I [R1 R2]] Hi Hs Hl Ho Ht.
  set (ob := set_obj (objs s) l (Some (Obj (o_id o) (o_ty o) v))).
  assert (K : forall l', exists q, ob l' = q /\ match q, objs s l' with
     | Some x, Some y => o_id x = o_id y /\ o_ty x = o_ty y | None, None => True | _, _ => False end).
  { intros l'. eexists. split; [reflexivity|]. unfold ob. destruct (loc_eqb_spec l l') as [<-|].
    - rewrite set_obj_same, Ho. auto.
    - rewrite set_obj_other by auto. apply objs_refl. }
  assert (KS : forall l' x, ob l' = Some x -> exists y, objs s l' = Some y /\ o_id x = o_id y /\ o_ty x = o_ty y).
  { intros l' x H. destruct (K l') as (q & Hq & HH). rewrite H in Hq. subst q. destruct (objs s l'); [eauto|tauto]. }
  assert (KN : forall l', objs s l' = None -> ob l' = None).
  { intros l' H. destruct (K l') as (q & Hq & HH). rewrite H in HH. destruct q; tauto. }
  assert (KB : forall l' y, objs s l' = Some y -> exists x, ob l' = Some x /\ o_ty x = o_ty y).
  { intros l' y H. destruct (K l') as (q & Hq & HH). rewrite H in HH. destruct q; [|tauto]. destruct HH. eauto. }
  assert (KE : forall e, ob (LExt e) = objs s (LExt e)).
  { intros e. unfold ob. apply set_obj_other. intros ->. exact Hl. }
  split.
  - constructor; cbn; fold ob.
    + intros j wj H. pose proof (inv_slot _ I _ _ H) as Hj. unfold slot_ok in *. cbn. fold ob.
      destruct (self wj) as [[b|k|e]|].
      * destruct Hj as (H0 & o' & H1 & H2). split; auto. destruct (KB _ _ H1) as (x & Hx & Ex). exists x.
        rewrite Ex. auto.
      * destruct Hj as (-> & o' & H1 & H2). split; auto. destruct (KB _ _ H1) as (x & Hx & Ex). exists x.
        rewrite Ex. auto.
      * destruct Hj as (H0 & Hj). split; auto. rewrite KE. exact Hj.
      * auto.
    + intros j x H. destruct (KS _ _ H) as (y & Hy & _). exact (inv_small _ I _ _ Hy).
    + apply (inv_uniq _ I).
    + apply (inv_blk _ I).
    + intros b x H. destruct (KS _ _ H) as (y & Hy & _). exact (inv_heap _ I _ _ Hy).
    + intros e x H. rewrite KE in H. exact (inv_ext _ I _ _ H).
    + intros l' x H. destruct (KS _ _ H) as (y & Hy & -> & _). exact (inv_ids _ I _ _ Hy).
    + apply (inv_next _ I).
    + exact Ht.
  - split.
    + set (s' := World _ _ _ _ _).
      assert (Hsl : slots s' = upd (slots s) i (Some w)).
      { cbn. apply list_ext. intros j. rewrite nth_error_upd. destruct (Nat.eqb_spec i j) as [<-|]; auto.
        rewrite (proj2 (Nat.ltb_lt _ _)) by (now apply nth_some_lt in Hi). exact Hi. }
      rewrite (absl_upd s s' i w (Some w) Hi Hsl).
      * cbn [a_put a_ws]. rewrite R1. unfold option_map, aview. rewrite Hs.
        destruct l; try tauto; cbn; fold ob; unfold ob; rewrite set_obj_same; reflexivity.
      * intros j wj Hj H. unfold aview. cbn. fold ob.
        assert (Hne : self wj = Some l -> False).
        { intros E. pose proof (inv_slot _ I _ _ H) as Hok. pose proof (inv_slot _ I _ _ Hi) as Hok'.
          unfold slot_ok in Hok, Hok'. rewrite E in Hok. rewrite Hs in Hok'. destruct l; auto.
          - exact (Hj (inv_uniq _ I _ _ _ _ _ H Hi E Hs)).
          - destruct Hok as [-> _], Hok' as [-> _]. auto. }
        destruct (self wj) as [[b|k|e]|]; auto; unfold ob; rewrite set_obj_other by congruence; auto.
    + cbn. fold ob. intros e. rewrite KE. apply R2.
Qed.

Lemma G_write_ext s a e o v tr : Good s a -> objs s (LExt e) = Some o -> Forall clean tr ->
  Good (World (blocks s) (set_obj (objs s) (LExt e) (Some (Obj (o_id o) (o_ty o) v))) (next s) (slots s) tr)
       (AState (a_ws a) (upd (a_ext a) e (o_ty o, v))).
Proof.
  intros [I [R1 R2]] Ho Ht.
  set (ob := set_obj (objs s) (LExt e) (Some (Obj (o_id o) (o_ty o) v))).
  assert (KH : forall b, ob (LHeap b) = objs s (LHeap b)) by (intros; apply set_obj_other; congruence).
  assert (KM : forall b, ob (LSmall b) = objs s (LSmall b)) by (intros; apply set_obj_other; congruence).
  split.
  - constructor; cbn; fold ob.
    + intros j wj H. pose proof (inv_slot _ I _ _ H) as Hj. unfold slot_ok in *. cbn. fold ob. rewrite KM.
      destruct (self wj) as [[b|k|e']|].
      * exact Hj.
      * exact Hj.
      * destruct Hj as (H0 & o' & c & H1 & H2 & H3). split; auto. destruct (Nat.eq_dec e e') as [<-|].
        -- eexists _, c. unfold ob. rewrite set_obj_same. cbn. split; [reflexivity|]. split; auto. cbn. rewrite Ho in H1. injection H1 as <-. exact H3.
        -- exists o', c. unfold ob. rewrite set_obj_other by congruence. auto.
      * exact Hj.
    + intros j x. rewrite KM. apply (inv_small _ I).
    + apply (inv_uniq _ I).
    + apply (inv_blk _ I).
    + intros b x. rewrite KH. apply (inv_heap _ I).
    + intros e' x H. destruct (Nat.eq_dec e e') as [<-|].
      * unfold ob in H. rewrite set_obj_same in H. injection H as <-. cbn. exact (inv_ext _ I _ _ Ho).
      * unfold ob in H. rewrite set_obj_other in H by congruence. exact (inv_ext _ I _ _ H).
    + intros l x H. destruct l; auto.
      * rewrite KH in H. exact (inv_ids _ I _ _ H).
      * rewrite KM in H. exact (inv_ids _ I _ _ H).
    + apply (inv_next _ I).
    + exact Ht.
  - split; cbn.
    + rewrite <- R1. unfold absl. cbn. apply map_ext. intros [w|]; auto. unfold aview. cbn. fold ob.
      destruct (self w) as [[b|k|e']|]; auto; now rewrite ?KH, ?KM.
    + fold ob. intros e'. rewrite nth_error_upd. destruct (Nat.eqb_spec e e') as [<-|].
      * unfold ob. rewrite set_obj_same. cbn. pose proof (R2 e) as Q. rewrite Ho in Q. cbn in Q.
        rewrite (proj2 (Nat.ltb_lt _ _)); [reflexivity|]. symmetry in Q. now apply nth_some_lt in Q.
      * unfold ob. rewrite set_obj_other by congruence. apply R2.
Qed.

Lemma G_trace s a tr : Good s a -> Forall clean tr ->
  Good (World (blocks s) (objs s) (next s) (slots s) tr) a.
Proof. intros [I HR] Ht. split; [|exact HR]. destruct I. constructor; auto. Qed.
End I.
