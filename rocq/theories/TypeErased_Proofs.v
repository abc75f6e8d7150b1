(** Every operation of the class refines the value semantics. *)
From Verif Require Import Base TypeErased_Spec TypeErased_Model TypeErased_Trace TypeErased_Inv.
Local Arguments Nat.eqb : simpl never.
Local Arguments Nat.leb : simpl never.
Local Arguments Nat.ltb : simpl never.
Local Arguments set_obj : simpl never.
Local Arguments absl : simpl never.
Local Arguments aview : simpl never.

Section Pf.
Context {V : Type} (P : settings) (NE : nat) (sizeof_pos : forall t, 0 < sizeof P t).
Notation world := (@world V).
Notation obj := (@obj V).
Notation M := (@M V).
Notation Good := (@Good V P NE).
Notation Inv := (@Inv V P NE).
Notation clean := (clean NE).

Definition at_ (s : world) (i : nat) (w : wrapper) : Prop := nth_error (slots s) i = Some (Some w).
Definition put (s : world) (i : nat) (w : wrapper) : world :=
  World (blocks s) (objs s) (next s) (upd (slots s) i (Some w)) (trace s).

Lemma bindE {A B} (m : M A) (f : A -> M B) s a s' : m s = ROk a s' -> mbind m f s = f a s'.
Proof. unfold mbind. now intros ->. Qed.
Lemma bindT {A B} (m : M A) (f : A -> M B) s e s' : m s = RThrow e s' -> mbind m f s = RThrow e s'.
Proof. unfold mbind. now intros ->. Qed.

Lemma otB {A B} (m : M A) (f : A -> M B) g s a s' : m s = ROk a s' -> on_throw (mbind m f) g s = on_throw (f a) g s'.
Proof. intros H. unfold on_throw. now rewrite (bindE _ _ _ _ _ H). Qed.
Lemma otT {A} (m : M A) g s e s' s'' : m s = RThrow e s' -> g s' = ROk tt s'' -> on_throw m g s = RThrow e s''.
Proof. intros H H'. unfold on_throw. now rewrite H, H'. Qed.
Lemma otE {A} (m : M A) g s a s' : m s = ROk a s' -> on_throw m g s = ROk a s'.
Proof. intros H. unfold on_throw. now rewrite H. Qed.

Lemma upd_upd' {A} (l : list A) i x y : upd (upd l i x) i y = upd l i y.
Proof. revert i. induction l as [|z l IH]; intros [|i]; cbn; auto. now rewrite IH. Qed.
Lemma upd_comm' {A} (l : list A) i j x y : i <> j -> upd (upd l i x) j y = upd (upd l j y) i x.
Proof. revert i j. induction l as [|z l IH]; intros [|i] [|j] H; cbn; auto; try lia. now rewrite IH by lia. Qed.
Lemma upd_self {A} (l : list A) i x : nth_error l i = Some x -> upd l i x = l.
Proof. revert i. induction l as [|z l IH]; intros [|i]; cbn; try discriminate.
  - now intros [= ->]. - intros H. now rewrite IH. Qed.

Lemma put_put s i w w' : put (put s i w) i w' = put s i w'.
Proof. unfold put. cbn. now rewrite upd_upd'. Qed.
Lemma put_comm s i j w w' : i <> j -> put (put s i w) j w' = put (put s j w') i w.
Proof. intros. unfold put. cbn. now rewrite upd_comm'. Qed.
Lemma at_put s i w w0 : at_ s i w0 -> at_ (put s i w) i w.
Proof. unfold at_, put. cbn. intros H. eapply nth_upd_same; eauto. Qed.
Lemma at_put_other s i j w wj : i <> j -> at_ s j wj -> at_ (put s i w) j wj.
Proof. unfold at_, put. cbn. intros Hn H. now rewrite upd_other. Qed.

Lemma getw_eq s i w : at_ s i w -> getw i s = ROk w s.
Proof. unfold at_, getw. now intros ->. Qed.
Lemma setw_eq s i w w' : at_ s i w -> setw i w' s = ROk tt (put s i w').
Proof. unfold at_, setw, put. now intros ->. Qed.
Lemma set_self_eq s i w p : at_ s i w -> set_self i p s = ROk tt (put s i (Wr p (size w) (vt w) (al w))).
Proof. intros H. unfold set_self. rewrite (bindE _ _ _ _ _ (getw_eq _ _ _ H)). now apply setw_eq with w. Qed.
Lemma set_size_eq s i w z : at_ s i w -> set_size i z s = ROk tt (put s i (Wr (self w) z (vt w) (al w))).
Proof. intros H. unfold set_size. rewrite (bindE _ _ _ _ _ (getw_eq _ _ _ H)). now apply setw_eq with w. Qed.
Lemma set_vt_eq s i w x : at_ s i w -> set_vt i x s = ROk tt (put s i (Wr (self w) (size w) x (al w))).
Proof. intros H. unfold set_vt. rewrite (bindE _ _ _ _ _ (getw_eq _ _ _ H)). now apply setw_eq with w. Qed.
Lemma set_al_eq s i w a : at_ s i w -> set_al i a s = ROk tt (put s i (Wr (self w) (size w) (vt w) a)).
Proof. intros H. unfold set_al. rewrite (bindE _ _ _ _ _ (getw_eq _ _ _ H)). now apply setw_eq with w. Qed.

Lemma malloc_eq (s : world) a n : malloc a n false s =
  ROk (LHeap (length (blocks s)))
      (World (blocks s ++ [Blk n a true]) (objs s) (next s) (slots s) (trace s ++ [EAlloc (length (blocks s)) n a])).
Proof. reflexivity. Qed.
Lemma mfree_eq (s : world) a b n : nth_error (blocks s) b = Some (Blk n a true) -> objs s (LHeap b) = None ->
  mfree a (Some (LHeap b)) n s =
  ROk tt (World (upd (blocks s) b (Blk n a false)) (objs s) (next s) (slots s) (trace s ++ [EFree b n a])).
Proof. intros H H0. unfold mfree. now rewrite H, !Nat.eqb_refl, H0. Qed.
Lemma use_eq (s : world) ev t l o : objs s l = Some o -> o_ty o = t ->
  use ev t (Some l) s = ROk (o_val o) (World (blocks s) (objs s) (next s) (slots s) (trace s ++ [ev (o_id o)])).
Proof. intros H <-. unfold use. now rewrite H, Nat.eqb_refl. Qed.
Lemma write_eq (s : world) t l o v : objs s l = Some o -> o_ty o = t ->
  write t (Some l) v s = ROk tt (World (blocks s) (set_obj (objs s) l (Some (Obj (o_id o) t v))) (next s) (slots s)
                                      (trace s ++ [EWrite (o_id o)])).
Proof. intros H <-. unfold write. now rewrite H, Nat.eqb_refl. Qed.
Lemma dtor_eq (s : world) t l o : objs s l = Some o -> o_ty o = t ->
  dtor t (Some l) s = ROk tt (World (blocks s) (set_obj (objs s) l None) (next s) (slots s) (trace s ++ [EDtor (o_id o)])).
Proof. intros H <-. unfold dtor. now rewrite H, Nat.eqb_refl. Qed.
Lemma ctor_eq (s : world) l t v : storage_ok P s l (sizeof P t) = true -> objs s l = None ->
  ctor P l t v false s =
  ROk tt (World (blocks s) (set_obj (objs s) l (Some (Obj (next s) t v))) (S (next s)) (slots s)
                (trace s ++ [ECtor (next s) l t])).
Proof. intros H H0. unfold ctor. now rewrite H, H0. Qed.
Lemma ctor_throw (s : world) l t v : storage_ok P s l (sizeof P t) = true -> objs s l = None ->
  ctor P l t v true s = RThrow user_exception s.
Proof. intros H H0. unfold ctor. now rewrite H, H0. Qed.

Lemma storage_small (s : world) i w n : at_ s i w -> n <= sbs P -> storage_ok P s (LSmall i) n = true.
Proof. unfold at_. intros H Hn. cbn. rewrite H. now apply Nat.leb_le. Qed.
Lemma storage_heap (s : world) b n a : nth_error (blocks s) b = Some (Blk n a true) -> storage_ok P s (LHeap b) n = true.
Proof. intros H. cbn. rewrite H. apply Nat.leb_refl. Qed.

Lemma cl_app l l' : Forall clean l -> Forall clean l' -> Forall clean (l ++ l').
Proof. intros. now apply Forall_app. Qed.
Lemma cl_trace (s : world) a : Good s a -> Forall clean (trace s).
Proof. intros [I _]. apply (inv_clean _ _ _ I). Qed.
Lemma cl_id (s : world) a l o : Good s a -> objs s l = Some o -> match l with LExt _ => False | _ => True end -> NE <= o_id o.
Proof. intros [I _] H Hl. pose proof (inv_ids _ _ _ I _ _ H). destruct l; tauto. Qed.
Lemma cl_next (s : world) a : Good s a -> NE <= next s.
Proof. intros [I _]. apply (inv_next _ _ _ I). Qed.

Lemma a_put_put (a : astate V) i x y : a_put (a_put a i x) i y = a_put a i y.
Proof. unfold a_put. cbn. now rewrite upd_upd'. Qed.
Lemma a_put_comm (a : astate V) i j x y : i <> j -> a_put (a_put a i x) j y = a_put (a_put a j y) i x.
Proof. intros. unfold a_put. cbn. now rewrite upd_comm'. Qed.
Lemma a_put_same (a : astate V) i x : a_get a i = Some x -> a_put a i (Some x) = a.
Proof.
  unfold a_get, a_put. intros H. destruct a as [ws ext]; cbn in *. f_equal. apply upd_self.
  destruct (nth_error ws i) as [[y|]|]; congruence.
Qed.
Lemma a_put_push (a : astate V) i x y : i = length (a_ws a) -> a_put (a_push a x) i y = a_push a y.
Proof. intros ->. unfold a_put, a_push. cbn. now rewrite upd_app_mid. Qed.
Lemma a_get_put_other (a : astate V) i j x : i <> j -> a_get (a_put a i x) j = a_get a j.
Proof. intros. unfold a_get, a_put. cbn. now rewrite upd_other. Qed.
Lemma a_put_push_other (a : astate V) i x y : i < length (a_ws a) -> a_put (a_push a x) i y = a_push (a_put a i y) x.
Proof.
  intros H. unfold a_put, a_push. cbn. f_equal. revert i H. generalize (a_ws a). induction l as [|z l IH]; intros [|i] H; cbn in *; auto; try lia.
  rewrite IH by lia. reflexivity.
Qed.
Lemma R_len (s : world) a : R s a -> length (a_ws a) = length (slots s).
Proof. intros [H _]. rewrite <- H. apply map_length. Qed.

(** Two abstractions of the same content agree. *)
Lemma view_eq (s : world) a w j al0 wj : Good s a -> a_get a j = Some (w, al0) -> at_ s j wj -> aview s wj = w /\ al wj = al0.
Proof. intros [_ HR] Hg Hj. rewrite (R_get _ _ _ _ HR Hj) in Hg. injection Hg; auto. Qed.

(** ** allocate / deallocate *)
Lemma allocate_small (s : world) i w n f : at_ s i w -> self w = None -> 0 < n -> n <= sbs P ->
  allocate P i (SObj n) f s = ROk tt (put s i (Wr (Some (LSmall i)) (SObj n) (vt w) (al w))).
Proof.
  intros H Hs H0 Hn. unfold allocate. rewrite (bindE _ _ _ _ _ (getw_eq _ _ _ H)). rewrite Hs. cbn [is_null].
  unfold assert at 1. rewrite (bindE _ _ _ tt s eq_refl).
  cbn [sz_valid]. rewrite (proj2 (Nat.ltb_lt _ _)) by auto. unfold assert. rewrite (bindE _ _ _ tt s eq_refl).
  cbn [gt_sbs]. rewrite (proj2 (Nat.ltb_ge _ _)) by auto. rewrite (bindE _ _ _ (LSmall i) s eq_refl).
  rewrite (bindE _ _ _ _ _ (set_self_eq _ _ _ _ H)).
  rewrite (set_size_eq _ _ _ _ (at_put _ _ _ _ H)). cbn [self vt al]. now rewrite put_put.
Qed.
Definition grown (s : world) (n a : nat) : world :=
  World (blocks s ++ [Blk n a true]) (objs s) (next s) (slots s) (trace s ++ [EAlloc (length (blocks s)) n a]).
Lemma allocate_heap (s : world) i w n : at_ s i w -> self w = None -> 0 < n -> sbs P < n ->
  allocate P i (SObj n) false s =
  ROk tt (put (grown s n (al w)) i (Wr (Some (LHeap (length (blocks s)))) (SObj n) (vt w) (al w))).
Proof.
  intros H Hs H0 Hn. unfold allocate. rewrite (bindE _ _ _ _ _ (getw_eq _ _ _ H)). rewrite Hs. cbn [is_null].
  unfold assert at 1. rewrite (bindE _ _ _ tt s eq_refl).
  cbn [sz_valid]. rewrite (proj2 (Nat.ltb_lt _ _)) by auto. unfold assert. rewrite (bindE _ _ _ tt s eq_refl).
  cbn [gt_sbs]. rewrite (proj2 (Nat.ltb_lt _ _)) by auto. cbn [alloc_raw]. rewrite (bindE _ _ _ _ _ (malloc_eq s (al w) n)).
  fold (grown s n (al w)).
  assert (H' : at_ (grown s n (al w)) i w) by exact H.
  rewrite (bindE _ _ _ _ _ (set_self_eq _ _ _ _ H')).
  rewrite (set_size_eq _ _ _ _ (at_put _ _ _ _ H')). cbn [self vt al]. now rewrite put_put.
Qed.
Lemma allocate_fail (s : world) i w n : at_ s i w -> self w = None -> 0 < n -> sbs P < n ->
  allocate P i (SObj n) true s = RThrow user_exception s.
Proof.
  intros H Hs H0 Hn. unfold allocate. rewrite (bindE _ _ _ _ _ (getw_eq _ _ _ H)). rewrite Hs. cbn [is_null].
  unfold assert at 1. rewrite (bindE _ _ _ tt s eq_refl).
  cbn [sz_valid]. rewrite (proj2 (Nat.ltb_lt _ _)) by auto. unfold assert. rewrite (bindE _ _ _ tt s eq_refl).
  cbn [gt_sbs]. rewrite (proj2 (Nat.ltb_lt _ _)) by auto. reflexivity.
Qed.
Lemma deallocate_small (s : world) i w n : at_ s i w -> size w = SObj n -> 0 < n -> n <= sbs P ->
  deallocate P i s = ROk tt (put s i (Wr None (size w) (vt w) (al w))).
Proof.
  intros H Hs H0 Hn. unfold deallocate. rewrite (bindE _ _ _ _ _ (getw_eq _ _ _ H)). rewrite Hs. cbn [sz_valid].
  rewrite (proj2 (Nat.ltb_lt _ _)) by auto. unfold assert. rewrite (bindE _ _ _ tt s eq_refl).
  cbn [gt_sbs]. rewrite (proj2 (Nat.ltb_ge _ _)) by auto. rewrite (bindE _ _ _ tt s eq_refl).
  rewrite (set_self_eq _ _ _ _ H). now rewrite Hs.
Qed.
Lemma deallocate_heap (s : world) i w n b : at_ s i w -> size w = SObj n -> 0 < n -> sbs P < n -> self w = Some (LHeap b) ->
  nth_error (blocks s) b = Some (Blk n (al w) true) -> objs s (LHeap b) = None ->
  deallocate P i s =
  ROk tt (World (upd (blocks s) b (Blk n (al w) false)) (objs s) (next s)
                (upd (slots s) i (Some (Wr None (size w) (vt w) (al w)))) (trace s ++ [EFree b n (al w)])).
Proof.
  intros H Hs H0 Hn Hp Hb Ho. unfold deallocate. rewrite (bindE _ _ _ _ _ (getw_eq _ _ _ H)). rewrite Hs. cbn [sz_valid].
  rewrite (proj2 (Nat.ltb_lt _ _)) by auto. unfold assert. rewrite (bindE _ _ _ tt s eq_refl).
  cbn [gt_sbs]. rewrite (proj2 (Nat.ltb_lt _ _)) by auto. cbn [dealloc_raw]. rewrite Hp.
  rewrite (bindE _ _ _ _ _ (mfree_eq _ _ _ _ Hb Ho)).
  rewrite (set_self_eq _ _ w _); [|exact H]. now rewrite Hs.
Qed.

(** ** cleanup *)
Lemma cleanup_ok s a i w : Good s a -> at_ s i w ->
  exists s', cleanup P i s = ROk tt s' /\ Good s' (a_put a i (Some (AEmpty, al w))) /\
    at_ s' i (Wr None (size w) (vt w) (al w)) /\ (forall j wj, j <> i -> at_ s j wj -> at_ s' j wj).
Proof.
  intros G H. pose proof (proj1 G) as I. pose proof (inv_slot _ _ _ I _ _ H) as Hok. unfold slot_ok in Hok.
  pose proof (cl_trace _ _ G) as Ct.
  unfold cleanup. rewrite (bindE _ _ _ _ _ (getw_eq _ _ _ H)).
  destruct (self w) as [[b|k|e]|] eqn:Es.
  - destruct Hok as (Hsm & o & Ho & Hsz & Hgt & Hvt & Hb). rewrite Hsz. cbn [owns negb is_null].
    rewrite Hvt. cbn [vt_destroy]. rewrite (bindE _ _ _ _ _ (dtor_eq _ _ _ _ Ho eq_refl)).
    pose proof (cl_id _ _ _ _ G Ho Logic.I) as Cid.
    rewrite (deallocate_heap _ i w (sizeof P (o_ty o)) b); auto.
    2: { cbn. apply set_obj_same. }
    cbn [blocks objs next slots trace]. eexists. split; [reflexivity|].
    assert (Hn : self (Wr None (SObj (sizeof P (o_ty o))) (vt w) (al w)) = None) by reflexivity.
    rewrite Hsz, <- Hvt.
    split; [|split].
    + refine (G_empty_heap P NE s a i w b _ _ (Wr None (SObj (sizeof P (o_ty o))) (vt w) (al w)) _ G H Es eq_refl _).
      apply cl_app; [apply cl_app|]; auto; repeat constructor; cbn; auto.
    + unfold at_. cbn. eapply nth_upd_same. exact H.
    + intros j wj Hj Hw. unfold at_. cbn. rewrite upd_other; auto.
  - destruct Hok as (-> & o & Ho & Hsz & Hle & Hvt). rewrite Hsz. cbn [owns negb is_null].
    rewrite Hvt. cbn [vt_destroy]. rewrite (bindE _ _ _ _ _ (dtor_eq _ _ _ _ Ho eq_refl)).
    pose proof (cl_id _ _ _ _ G Ho Logic.I) as Cid.
    rewrite (deallocate_small _ i w (sizeof P (o_ty o))); auto.
    eexists. split; [reflexivity|]. rewrite Hsz, <- Hvt. unfold put. cbn [blocks objs next slots trace].
    split; [|split].
    + refine (G_empty_small P NE s a i w (Wr None (SObj (sizeof P (o_ty o))) (vt w) (al w)) _ G H Es eq_refl _).
      apply cl_app; auto; repeat constructor; cbn; auto.
    + unfold at_. cbn. eapply nth_upd_same. exact H.
    + intros j wj Hj Hw. unfold at_. cbn. rewrite upd_other; auto.
  - destruct Hok as (Hsm & o & c & Ho & Hsz & Hvt).
    assert (Eo : negb (owns (size w)) = true) by (rewrite Hsz; destruct c; reflexivity). rewrite Eo.
    rewrite (set_self_eq _ _ _ _ H). eexists. split; [reflexivity|]. split; [|split].
    + exact (G_empty_ext P NE s a i w e (Wr None (size w) (vt w) (al w)) _ G H Es eq_refl Ct).
    + eapply at_put; eauto.
    + intros j wj Hj Hw. apply at_put_other; auto.
  - assert (Hg : a_put a i (Some (AEmpty, al w)) = a).
    { apply a_put_same. rewrite (R_get _ _ _ _ (proj2 G) H). unfold aview. now rewrite Es. }
    rewrite Hg. cbn [is_null].
    destruct (negb (owns (size w))).
    + rewrite (set_self_eq _ _ _ _ H). rewrite <- Es.
      assert (Ew : Wr (self w) (size w) (vt w) (al w) = w) by (now destruct w).
      rewrite Ew. assert (Ep : put s i w = s) by (unfold put; rewrite upd_self by exact H; now destruct s).
      rewrite Ep. eexists. split; [reflexivity|]. split; [exact G|]. split; [exact H|]. auto.
    + eexists. split; [reflexivity|]. split; [exact G|]. split; [|auto]. unfold at_ in *. rewrite H. destruct w. cbn in *. now rewrite Es.
Qed.

(** A block that was allocated and freed again. *)
Lemma G_deadblock s a n x : Good s a ->
  Good (World (blocks s ++ [Blk n x false]) (objs s) (next s) (slots s) (trace s)) a.
Proof.
  intros [I HR]. split; [|exact HR]. destruct I. constructor; cbn; auto.
  - intros i w H. specialize (inv_slot i w H). unfold slot_ok in *. cbn. destruct (self w) as [[b|k|e]|]; auto.
    destruct inv_slot as (Q0 & o & Q1 & Q2 & Q3 & Q4 & Q5). split; auto. exists o. repeat split; auto.
    rewrite nth_error_app1; auto. now apply nth_some_lt in Q5.
  - intros b m y H. rewrite nth_snoc in H. destruct (Nat.ltb_spec b (length (blocks s))); [eauto|].
    destruct (Nat.eqb_spec b (length (blocks s))); discriminate.
  - intros b o H. destruct (inv_heap b o H) as (m & y & Hb). exists m, y. rewrite nth_error_app1; auto. now apply nth_some_lt in Hb.
Qed.

(** ** Constructing an object into an empty wrapper *)
Lemma construct_value_ok s a i w t v f : Good s a -> at_ s i w -> self w = None ->
  if val_throws (sizeof P) (sbs P) t f
  then exists s' w', construct_value P i t v f s = RThrow user_exception s' /\ Good s' (a_put a i (Some (AEmpty, al w))) /\
         at_ s' i w' /\ self w' = None /\ al w' = al w
  else exists s', construct_value P i t v f s = ROk tt s' /\ Good s' (a_put a i (Some (AOwned t v, al w))).
Proof.
  intros G H Hs. pose proof (cl_trace _ _ G) as Ct. pose proof (sizeof_pos t) as Hp.
  pose proof (cl_next _ _ G) as Cn.
  pose proof (inv_slot _ _ _ (proj1 G) _ _ H) as Hok. unfold slot_ok in Hok. rewrite Hs in Hok.
  assert (Hput : a_put a i (Some (AEmpty, al w)) = a).
  { apply a_put_same. rewrite (R_get _ _ _ _ (proj2 G) H). unfold aview. now rewrite Hs. }
  unfold construct_value.
  destruct (Nat.ltb_spec (sbs P) (sizeof P t)) as [Hgt|Hle].
  - (* heap *)
    destruct (alloc_fails f) eqn:Ef.
    { destruct f; try discriminate. cbn [val_throws]. rewrite (proj2 (Nat.ltb_lt _ _)) by auto.
      rewrite (bindT _ _ _ _ _ (allocate_fail s i w _ H Hs Hp Hgt)).
      exists s, w. rewrite Hput. split; [reflexivity|]. auto. }
    rewrite (bindE _ _ _ _ _ (allocate_heap s i w _ H Hs Hp Hgt)).
    set (b := length (blocks s)). set (s1 := put _ _ _).
    assert (H1 : at_ s1 i (Wr (Some (LHeap b)) (SObj (sizeof P t)) (vt w) (al w))).
    { unfold at_, s1. cbn. eapply nth_upd_same. exact H. }
    assert (Hb1 : nth_error (blocks s1) b = Some (Blk (sizeof P t) (al w) true)).
    { cbn. unfold b. rewrite nth_error_app2, Nat.sub_diag by lia. reflexivity. }
    assert (Ho1 : objs s1 (LHeap b) = None).
    { cbn. destruct (objs s (LHeap b)) eqn:E; auto. destruct (inv_heap _ _ _ (proj1 G) _ _ E) as (m & a' & Hb).
      apply nth_some_lt in Hb. unfold b in Hb. lia. }
    rewrite (otB _ _ _ _ _ _ (getw_eq _ _ _ H1)). cbn [self].
    pose proof (storage_heap s1 b _ _ Hb1) as St.
    destruct (copy_fails f) eqn:Ec.
    { destruct f; try discriminate. cbn [val_throws].
      erewrite otT; [|exact (bindT _ _ _ _ _ (ctor_throw s1 _ t v St Ho1))|apply (deallocate_heap s1 i _ (sizeof P t) b H1); auto].
      eexists _, (Wr None (SObj (sizeof P t)) (vt w) (al w)). split; [reflexivity|]. cbn [blocks objs next slots trace size vt al].
      (* the block was allocated and freed *)
      assert (Ct2 : Forall clean ((trace s ++ [EAlloc b (sizeof P t) (al w)]) ++ [EFree b (sizeof P t) (al w)]))
          by (apply cl_app; [apply cl_app|]; auto; repeat constructor).
      pose proof (G_meta P NE _ a i w (Wr None (SObj (sizeof P t)) (vt w) (al w)) _
        (G_deadblock s a (sizeof P t) (al w) G) H Hs eq_refl Ct2) as G'.
      cbn [blocks objs next slots trace al] in G'.
      split.
      - cbn [s1 put grown blocks objs next slots trace]. unfold b at 1. rewrite upd_app_mid. fold b. rewrite upd_upd'.
        exact G'.
      - split; [|split; reflexivity]. unfold at_. cbn. rewrite upd_upd'. eapply nth_upd_same. exact H. }
    rewrite (otB _ _ _ _ _ _ (ctor_eq s1 _ t v St Ho1)).
    set (s2 := World _ _ _ _ _).
    assert (H2 : at_ s2 i (Wr (Some (LHeap b)) (SObj (sizeof P t)) (vt w) (al w))) by exact H1.
    destruct (vtable_fails f) eqn:Ev.
    { destruct f; try discriminate. cbn [val_throws].
      assert (Ho2 : objs s2 (LHeap b) = Some (Obj (next s) t v)) by (unfold s2; cbn; apply set_obj_same).
      pose proof (dtor_eq s2 t _ _ Ho2 eq_refl) as Ed.
      set (s3 := World _ _ _ _ _) in Ed.
      erewrite otT; [|eapply otT; [reflexivity|exact Ed]|apply (deallocate_heap s3 i _ (sizeof P t) b H2); auto].
      2: { unfold s3. cbn. apply set_obj_same. }
      eexists _, (Wr None (SObj (sizeof P t)) (vt w) (al w)). split; [reflexivity|]. cbn [size vt al].
      pose proof (G_fill_heap P NE s a i w t v (al w) (trace s) G H Hs Hgt Ct) as G1. cbn zeta in G1. fold b in G1.
      set (s4 := World _ _ _ _ _) in G1.
      assert (H4 : at_ s4 i (Wr (Some (LHeap b)) (SObj (sizeof P t)) (Some (t, false)) (al w)))
        by (unfold at_, s4; cbn; eapply nth_upd_same; exact H).
      pose proof (G_empty_heap P NE s4 _ i _ b (sizeof P t) (al w) (Wr None (SObj (sizeof P t)) (vt w) (al w))
            (trace s3 ++ [EFree b (sizeof P t) (al w)]) G1 H4 eq_refl eq_refl) as G2.
      assert (Ct2 : Forall clean (trace s3 ++ [EFree b (sizeof P t) (al w)])).
      { unfold s3, s2, s1. cbn [trace o_id]. repeat apply cl_app; auto; repeat constructor; cbn; auto. }
      specialize (G2 Ct2). rewrite a_put_put in G2. cbn [al] in G2.
      unfold s4 in G2. cbn [blocks objs next slots] in G2. rewrite upd_upd' in G2.
      split; [|split; [|split; reflexivity]].
      - unfold s3, s2, s1. cbn [blocks objs next slots put grown]. rewrite upd_upd'. exact G2.
      - unfold at_. cbn. rewrite upd_upd'. eapply nth_upd_same. exact H. }
    rewrite (otE _ _ _ _ _ (otE _ _ _ _ _ (set_vt_eq s2 i _ _ H2))). cbn [self size al].
    assert (Hf : val_throws (sizeof P) (sbs P) t f = false) by (destruct f; cbn in *; congruence). rewrite Hf.
    eexists. split; [reflexivity|]. unfold put, s2, s1. cbn [blocks objs next slots trace put grown]. rewrite upd_upd'.
    apply G_fill_heap with w; auto. repeat apply cl_app; auto; repeat constructor.
  - (* small buffer *)
    assert (Hall : allocate P i (SObj (sizeof P t)) (alloc_fails f) s =
       ROk tt (put s i (Wr (Some (LSmall i)) (SObj (sizeof P t)) (vt w) (al w)))) by (apply allocate_small; auto).
    rewrite (bindE _ _ _ _ _ Hall). clear Hall.
    set (s1 := put _ _ _).
    assert (H1 : at_ s1 i (Wr (Some (LSmall i)) (SObj (sizeof P t)) (vt w) (al w))) by (eapply at_put; eauto).
    assert (Ho1 : objs s1 (LSmall i) = None) by exact Hok.
    rewrite (otB _ _ _ _ _ _ (getw_eq _ _ _ H1)). cbn [self].
    pose proof (storage_small s1 i _ _ H1 Hle) as St.
    destruct (copy_fails f) eqn:Ec.
    { destruct f; try discriminate. cbn [val_throws].
      erewrite otT; [|exact (bindT _ _ _ _ _ (ctor_throw s1 _ t v St Ho1))|apply (deallocate_small s1 i _ (sizeof P t) H1); auto].
      cbn [size vt al].
      eexists _, (Wr None (SObj (sizeof P t)) (vt w) (al w)). split; [reflexivity|]. unfold s1. rewrite put_put. split; [|split; [|split; reflexivity]].
      - eapply G_meta with (w' := Wr None (SObj (sizeof P t)) (vt w) (al w)); eauto.
      - eapply at_put; eauto. }
    rewrite (otB _ _ _ _ _ _ (ctor_eq s1 _ t v St Ho1)).
    set (s2 := World _ _ _ _ _).
    assert (H2 : at_ s2 i (Wr (Some (LSmall i)) (SObj (sizeof P t)) (vt w) (al w))) by exact H1.
    destruct (vtable_fails f) eqn:Ev.
    { destruct f; try discriminate. cbn [val_throws].
      assert (Ho2 : objs s2 (LSmall i) = Some (Obj (next s) t v)) by (unfold s2; cbn; apply set_obj_same).
      pose proof (dtor_eq s2 t _ _ Ho2 eq_refl) as Ed.
      set (s3 := World _ _ _ _ _) in Ed.
      erewrite otT; [|eapply otT; [reflexivity|exact Ed]|apply (deallocate_small s3 i _ (sizeof P t) H2); auto].
      cbn [size vt al].
      eexists _, (Wr None (SObj (sizeof P t)) (vt w) (al w)). split; [reflexivity|].
      pose proof (G_fill_small P NE s a i w t v (al w) (trace s) G H Hs Hle Ct) as G1.
      set (s4 := World _ _ _ _ _) in G1.
      assert (H4 : at_ s4 i (Wr (Some (LSmall i)) (SObj (sizeof P t)) (Some (t, false)) (al w)))
        by (unfold at_, s4; cbn; eapply nth_upd_same; exact H).
      pose proof (G_empty_small P NE s4 _ i _ (Wr None (SObj (sizeof P t)) (vt w) (al w)) (trace s3) G1 H4 eq_refl eq_refl) as G2.
      assert (Ct2 : Forall clean (trace s3)).
      { unfold s3, s2, s1. cbn [trace o_id put]. repeat apply cl_app; auto; repeat constructor; cbn; auto. }
      specialize (G2 Ct2). rewrite a_put_put in G2. cbn [al] in G2.
      unfold s4 in G2. cbn [blocks objs next slots] in G2. rewrite upd_upd' in G2.
      split; [|split; [|split; reflexivity]].
      - unfold put, s3, s2, s1. cbn [blocks objs next slots put]. rewrite upd_upd'. exact G2.
      - unfold at_. cbn. rewrite upd_upd'. eapply nth_upd_same. exact H. }
    rewrite (otE _ _ _ _ _ (otE _ _ _ _ _ (set_vt_eq s2 i _ _ H2))). cbn [self size al].
    assert (Hf : val_throws (sizeof P) (sbs P) t f = false).
    { destruct f; cbn in *; try congruence. now apply Nat.ltb_ge. }
    rewrite Hf. eexists. split; [reflexivity|]. unfold put, s2, s1. cbn [blocks objs next slots trace put]. rewrite upd_upd'.
    apply G_fill_small with w; auto. repeat apply cl_app; auto; repeat constructor.
Qed.

(** ** Copying the content of wrapper j into the empty wrapper i *)
Lemma copy_owned_ok s a i j w wj o l f : Good s a -> at_ s i w -> self w = None -> at_ s j wj -> i <> j ->
  self wj = Some l -> objs s l = Some o -> match l with LExt _ => False | _ => True end ->
  size wj = SObj (sizeof P (o_ty o)) -> vt w = Some (o_ty o, false) ->
  forall m, m = mbind (allocate P i (size wj) (alloc_fails f)) (fun _ =>
             on_throw (mbind (getw i) (fun me => vt_copy P (vt me) (self wj) (self me) (copy_fails f))) (deallocate P i)) ->
  if copy_throws (sizeof P) (sbs P) (AOwned (o_ty o) (o_val o)) f
  then exists s' w', m s = RThrow user_exception s' /\ Good s' (a_put a i (Some (AEmpty, al w))) /\ at_ s' i w' /\ self w' = None /\ al w' = al w
  else exists s', m s = ROk tt s' /\ Good s' (a_put a i (Some (AOwned (o_ty o) (o_val o), al w))).
Proof.
  intros G H Hs Hj Hij Hl Ho Hne Hsz Hvt m ->. set (t := o_ty o) in *.
  pose proof (cl_trace _ _ G) as Ct. pose proof (sizeof_pos t) as Hp. pose proof (cl_next _ _ G) as Cn.
  pose proof (cl_id _ _ _ _ G Ho Hne) as Cid.
  pose proof (inv_slot _ _ _ (proj1 G) _ _ H) as Hok. unfold slot_ok in Hok. rewrite Hs in Hok.
  assert (Hput : a_put a i (Some (AEmpty, al w)) = a).
  { apply a_put_same. rewrite (R_get _ _ _ _ (proj2 G) H). unfold aview. now rewrite Hs. }
  rewrite Hsz, Hl.
  assert (Hli : l <> LSmall i) by (intros ->; congruence).
  assert (Hlb : l <> LHeap (length (blocks s))).
  { intros ->. destruct (inv_heap _ _ _ (proj1 G) _ _ Ho) as (m & a' & Hb). apply nth_some_lt in Hb. lia. }
  destruct (Nat.ltb_spec (sbs P) (sizeof P t)) as [Hgt|Hle].
  - destruct (alloc_fails f) eqn:Ef.
    { destruct f; try discriminate. cbn [copy_throws]. rewrite (proj2 (Nat.ltb_lt _ _)) by auto.
      rewrite (bindT _ _ _ _ _ (allocate_fail s i w _ H Hs Hp Hgt)).
      exists s, w. rewrite Hput. split; [reflexivity|]. auto. }
    rewrite (bindE _ _ _ _ _ (allocate_heap s i w _ H Hs Hp Hgt)).
    set (b := length (blocks s)) in *. set (s1 := put _ _ _).
    assert (H1 : at_ s1 i (Wr (Some (LHeap b)) (SObj (sizeof P t)) (vt w) (al w))).
    { unfold at_, s1. cbn. eapply nth_upd_same. exact H. }
    assert (Hb1 : nth_error (blocks s1) b = Some (Blk (sizeof P t) (al w) true)).
    { cbn. unfold b. rewrite nth_error_app2, Nat.sub_diag by lia. reflexivity. }
    assert (Ho1 : objs s1 (LHeap b) = None).
    { cbn. destruct (objs s (LHeap b)) eqn:E; auto. destruct (inv_heap _ _ _ (proj1 G) _ _ E) as (m & a' & Hb).
      apply nth_some_lt in Hb. unfold b in Hb. lia. }
    rewrite (otB _ _ _ _ _ _ (getw_eq _ _ _ H1)). cbn [self vt]. rewrite Hvt. cbn [vt_copy].
    assert (Hu : objs s1 l = Some o) by exact Ho.
    rewrite (otB _ _ _ _ _ _ (use_eq s1 ECopy t l o Hu eq_refl)).
    set (s2 := World _ _ _ _ _).
    assert (St : storage_ok P s2 (LHeap b) (sizeof P t) = true) by (eapply storage_heap; exact Hb1).
    assert (H2 : at_ s2 i (Wr (Some (LHeap b)) (SObj (sizeof P t)) (vt w) (al w))) by exact H1.
    destruct (copy_fails f) eqn:Ec.
    { destruct f; try discriminate. cbn [copy_throws].
      erewrite otT; [|exact (ctor_throw s2 _ t (o_val o) St Ho1)|apply (deallocate_heap s2 i _ (sizeof P t) b H2); auto].
      eexists _, (Wr None (SObj (sizeof P t)) (vt w) (al w)). split; [reflexivity|]. cbn [blocks objs next slots trace size vt al].
      assert (Ct2 : Forall clean (((trace s ++ [EAlloc b (sizeof P t) (al w)]) ++ [ECopy (o_id o)]) ++ [EFree b (sizeof P t) (al w)]))
          by (repeat apply cl_app; auto; repeat constructor; auto).
      pose proof (G_meta P NE _ a i w (Wr None (SObj (sizeof P t)) (vt w) (al w)) _
        (G_deadblock s a (sizeof P t) (al w) G) H Hs eq_refl Ct2) as G'.
      cbn [blocks objs next slots trace al] in G'.
      split.
      - cbn [s2 s1 put grown blocks objs next slots trace]. unfold b at 1. rewrite upd_app_mid. fold b. rewrite upd_upd'.
        exact G'.
      - split; [|split; reflexivity]. unfold at_. cbn. rewrite upd_upd'. eapply nth_upd_same. exact H. }
    rewrite (otE _ _ _ _ _ (ctor_eq s2 _ t (o_val o) St Ho1)).
    assert (Hf : copy_throws (sizeof P) (sbs P) (AOwned t (o_val o)) f = false) by (destruct f; cbn in *; congruence).
    rewrite Hf. eexists. split; [reflexivity|]. unfold s2, s1, put, grown. cbn [blocks objs next slots trace]. rewrite Hvt.
    apply G_fill_heap with w; auto. repeat apply cl_app; auto; repeat constructor; auto.
  - assert (Hall : allocate P i (SObj (sizeof P t)) (alloc_fails f) s =
       ROk tt (put s i (Wr (Some (LSmall i)) (SObj (sizeof P t)) (vt w) (al w)))) by (apply allocate_small; auto).
    rewrite (bindE _ _ _ _ _ Hall). clear Hall.
    set (s1 := put _ _ _).
    assert (H1 : at_ s1 i (Wr (Some (LSmall i)) (SObj (sizeof P t)) (vt w) (al w))) by (eapply at_put; eauto).
    assert (Ho1 : objs s1 (LSmall i) = None) by exact Hok.
    rewrite (otB _ _ _ _ _ _ (getw_eq _ _ _ H1)). cbn [self vt]. rewrite Hvt. cbn [vt_copy].
    assert (Hu : objs s1 l = Some o) by exact Ho.
    rewrite (otB _ _ _ _ _ _ (use_eq s1 ECopy t l o Hu eq_refl)).
    set (s2 := World _ _ _ _ _).
    assert (H2 : at_ s2 i (Wr (Some (LSmall i)) (SObj (sizeof P t)) (vt w) (al w))) by exact H1.
    pose proof (storage_small s2 i _ _ H2 Hle) as St.
    destruct (copy_fails f) eqn:Ec.
    { destruct f; try discriminate. cbn [copy_throws].
      erewrite otT; [|exact (ctor_throw s2 _ t (o_val o) St Ho1)|apply (deallocate_small s2 i _ (sizeof P t) H2); auto].
      cbn [size vt al].
      eexists _, (Wr None (SObj (sizeof P t)) (vt w) (al w)). split; [reflexivity|].
      unfold s2, s1, put. cbn [blocks objs next slots trace]. rewrite upd_upd'. split; [|split; [|split; reflexivity]].
      - refine (G_meta P NE s a i w (Wr None (SObj (sizeof P t)) (vt w) (al w)) _ G H Hs eq_refl _).
        repeat apply cl_app; auto; repeat constructor; auto.
      - unfold at_. cbn. eapply nth_upd_same. exact H. }
    rewrite (otE _ _ _ _ _ (ctor_eq s2 _ t (o_val o) St Ho1)).
    assert (Hf : copy_throws (sizeof P) (sbs P) (AOwned t (o_val o)) f = false).
    { destruct f; cbn in *; try congruence. now apply Nat.ltb_ge. }
    rewrite Hf. eexists. split; [reflexivity|]. unfold s2, s1, put. cbn [blocks objs next slots trace]. rewrite Hvt.
    apply G_fill_small with w; auto. repeat apply cl_app; auto; repeat constructor; auto.
Qed.

Lemma do_copy_assign_ok s a ca i j w wj f : Good s a -> at_ s i w -> self w = None -> at_ s j wj -> i <> j -> vt w = vt wj ->
  let a' := if ca && pocca P then al wj else al w in
  if copy_throws (sizeof P) (sbs P) (aview s wj) f
  then exists s' w', do_copy_assign P ca i j f s = RThrow user_exception s' /\ Good s' (a_put a i (Some (AEmpty, a'))) /\ at_ s' i w' /\ self w' = None /\ al w' = a'
  else exists s', do_copy_assign P ca i j f s = ROk tt s' /\ Good s' (a_put a i (Some (aview s wj, a'))).
Proof.
  intros G H Hs Hj Hij Hvt a'.
  unfold do_copy_assign. rewrite !(bindE _ _ _ _ _ (getw_eq _ _ _ Hj)).
  set (w1 := Wr None (size w) (vt w) a').
  set (s1 := put s i w1).
  assert (Es : mbind (if ca && pocca P then set_al i (al wj) else ret tt)
     (fun _ : unit =>
      if is_null (self wj) then ret tt
      else if negb (owns (size wj)) then mbind (set_size i (size wj)) (fun _ => set_self i (self wj))
      else mbind (allocate P i (size wj) (alloc_fails f)) (fun _ =>
             on_throw (mbind (getw i) (fun me => vt_copy P (vt me) (self wj) (self me) (copy_fails f))) (deallocate P i))) s
    = (if is_null (self wj) then ret tt
      else if negb (owns (size wj)) then mbind (set_size i (size wj)) (fun _ => set_self i (self wj))
      else mbind (allocate P i (size wj) (alloc_fails f)) (fun _ =>
             on_throw (mbind (getw i) (fun me => vt_copy P (vt me) (self wj) (self me) (copy_fails f))) (deallocate P i))) s1).
  { unfold s1, w1, a'. destruct (ca && pocca P).
    - rewrite (bindE _ _ _ _ _ (set_al_eq _ _ _ _ H)). now rewrite Hs.
    - rewrite (bindE _ _ _ tt s eq_refl). replace (put s i _) with s; [reflexivity|].
      unfold put. rewrite upd_self; [now destruct s|]. rewrite H, <- Hs. now destruct w. }
  rewrite !Es. clear Es.
  assert (G1 : Good s1 (a_put a i (Some (AEmpty, a')))).
  { refine (G_meta P NE s a i w w1 _ G H Hs eq_refl _). eapply cl_trace; eauto. }
  assert (H1 : at_ s1 i w1) by (eapply at_put; eauto).
  assert (Hj1 : at_ s1 j wj) by (apply at_put_other; auto).
  assert (Ev : aview s1 wj = aview s wj) by reflexivity.
  pose proof (inv_slot _ _ _ (proj1 G1) _ _ Hj1) as Hok. unfold slot_ok in Hok.
  destruct (self wj) as [[b|k|e]|] eqn:Esj; cbn [is_null].
  - destruct Hok as (_ & o & Ho & Hsz & Hgt & Hvj & Hb).
    rewrite Hsz. cbn [owns negb]. rewrite <- Hsz, <- Esj.
    assert (Evw : aview s wj = AOwned (o_ty o) (o_val o)).
    { rewrite <- Ev. unfold aview. rewrite Esj, Ho. reflexivity. }
    rewrite Evw. assert (Hv1 : vt w1 = Some (o_ty o, false)) by (cbn; congruence).
    pose proof (copy_owned_ok s1 _ i j w1 wj o (LHeap b) f G1 H1 eq_refl Hj1 Hij Esj Ho Logic.I Hsz Hv1 _ eq_refl) as K.
    rewrite !a_put_put in K. exact K.
  - destruct Hok as (-> & o & Ho & Hsz & Hle & Hvj).
    rewrite Hsz. cbn [owns negb]. rewrite <- Hsz, <- Esj.
    assert (Evw : aview s wj = AOwned (o_ty o) (o_val o)).
    { rewrite <- Ev. unfold aview. rewrite Esj, Ho. reflexivity. }
    rewrite Evw. assert (Hv1 : vt w1 = Some (o_ty o, false)) by (cbn; congruence).
    pose proof (copy_owned_ok s1 _ i j w1 wj o (LSmall j) f G1 H1 eq_refl Hj1 Hij Esj Ho Logic.I Hsz Hv1 _ eq_refl) as K.
    rewrite !a_put_put in K. exact K.
  - destruct Hok as (_ & o & c & Ho & Hsz & Hvj).
    assert (Evw : aview s wj = ARef e c).
    { unfold aview. rewrite Esj, Hsz. destruct c; reflexivity. }
    rewrite Evw. cbn [copy_throws].
    assert (Eo : negb (owns (size wj)) = true) by (rewrite Hsz; destruct c; reflexivity). rewrite Eo.
    rewrite (bindE _ _ _ _ _ (set_size_eq _ _ _ _ H1)).
    rewrite (set_self_eq _ _ _ _ (at_put _ _ _ _ H1)). cbn [self size vt al w1]. rewrite put_put.
    eexists. split; [reflexivity|]. rewrite Hsz, Hvt, Hvj.
    rewrite <- (a_put_put a i (Some (AEmpty, a'))).
    refine (G_fill_ext P NE s1 _ i w1 e o c a' _ G1 H1 eq_refl Ho _). eapply cl_trace; eauto.
  - assert (Evw : aview s wj = AEmpty) by (unfold aview; now rewrite Esj).
    rewrite Evw. cbn [copy_throws]. eexists. split; [reflexivity|]. exact G1.
Qed.

(** ** Moving the content of wrapper j into the empty wrapper i *)
Lemma steal_eq s i j wi wj : at_ s i wi -> at_ s j wj -> i <> j ->
  steal i j s = ROk tt (put (put s j (Wr None (size wj) (vt wj) (al wj))) i (Wr (self wj) (size wi) (vt wi) (al wi))).
Proof.
  intros Hi Hj Hij. unfold steal. rewrite (bindE _ _ _ _ _ (getw_eq _ _ _ Hj)).
  rewrite (bindE _ _ _ _ _ (set_self_eq _ _ _ _ Hj)).
  rewrite (set_self_eq _ i wi); [reflexivity|]. apply at_put_other; auto.
Qed.

(** What is left of the source after its size was reset. *)
Definition hollow (w : wrapper) : wrapper := Wr None SInvalid (vt w) (al w).

(** The three ways of moving, each followed by [other.size = invalid_size]. *)
Lemma steal_ok s a i j wi wj : Good s a -> at_ s i wi -> self wi = None -> at_ s j wj -> i <> j ->
  size wi = size wj -> vt wi = vt wj ->
  (match self wj with Some (LHeap _) => al wi = al wj | Some (LSmall _) => False | _ => True end) ->
  exists s', mbind (steal i j) (fun _ => set_size j SInvalid) s = ROk tt s' /\ Good s' (a_put (a_put a j (Some (AEmpty, al wj))) i (Some (aview s wj, al wi))).
Proof.
  intros G Hi Hsi Hj Hij Hz Hv Ha.
  rewrite (bindE _ _ _ _ _ (steal_eq _ _ _ _ _ Hi Hj Hij)).
  assert (Hj2 : at_ (put (put s j (Wr None (size wj) (vt wj) (al wj))) i (Wr (self wj) (size wi) (vt wi) (al wi))) j
               (Wr None (size wj) (vt wj) (al wj))).
  { apply at_put_other; auto. eapply at_put; eauto. }
  rewrite (set_size_eq _ _ _ _ Hj2). cbn [self vt al]. eexists. split; [reflexivity|].
  rewrite put_comm by auto. rewrite put_put.
  pose proof (inv_slot _ _ _ (proj1 G) _ _ Hj) as Hok. unfold slot_ok in Hok.
  pose proof (cl_trace _ _ G) as Ct.
  destruct (self wj) as [[b|k|e]|] eqn:Esj.
  - rewrite Ha, Hz, Hv. exact (G_steal_heap P NE s a i j wi wj b (hollow wj) _ G Hij Hi Hsi Hj Esj eq_refl Ct).
  - contradiction.
  - destruct Hok as (_ & o & c & Ho & Hsz & Hvj).
    assert (Evw : aview s wj = ARef e c).
    { unfold aview. rewrite Esj, Hsz. destruct c; reflexivity. }
    rewrite Evw, Hz, Hv, Hsz, Hvj.
    pose proof (G_empty_ext P NE s a j wj e (Wr None SInvalid (Some (o_ty o, c)) (al wj)) _ G Hj Esj eq_refl Ct) as G1.
    refine (G_fill_ext P NE _ _ i wi e o c (al wi) _ G1 _ Hsi Ho Ct). cbn. unfold at_ in Hi. rewrite upd_other by auto. exact Hi.
  - assert (Evw : aview s wj = AEmpty) by (unfold aview; now rewrite Esj). rewrite Evw.
    pose proof (G_meta P NE s a j wj (hollow wj) _ G Hj Esj eq_refl Ct) as G1.
    refine (G_meta P NE _ _ i wi (Wr None (size wi) (vt wi) (al wi)) _ G1 _ Hsi eq_refl Ct). cbn. unfold at_ in Hi. rewrite upd_other by auto. exact Hi.
Qed.

Lemma move_small_ok s a i j wi wj : Good s a -> at_ s i wi -> self wi = None -> at_ s j wj -> i <> j ->
  size wi = size wj -> vt wi = vt wj -> self wj = Some (LSmall j) ->
  exists s', mbind (move_small P i j) (fun _ => set_size j SInvalid) s = ROk tt s' /\ Good s' (a_put (a_put a j (Some (AEmpty, al wj))) i (Some (aview s wj, al wi))).
Proof.
  intros G Hi Hsi Hj Hij Hz Hv Esj.
  pose proof (inv_slot _ _ _ (proj1 G) _ _ Hj) as Hok. unfold slot_ok in Hok. rewrite Esj in Hok.
  destruct Hok as (_ & o & Ho & Hsz & Hle & Hvj).
  pose proof (inv_slot _ _ _ (proj1 G) _ _ Hi) as Hoki. unfold slot_ok in Hoki. rewrite Hsi in Hoki.
  pose proof (cl_trace _ _ G) as Ct. pose proof (cl_next _ _ G) as Cn. pose proof (cl_id _ _ _ _ G Ho Logic.I) as Cid.
  assert (Evw : aview s wj = AOwned (o_ty o) (o_val o)) by (unfold aview; now rewrite Esj, Ho).
  set (w1 := Wr (Some (LSmall i)) (size wi) (vt wi) (al wi)).
  set (s1 := put s i w1).
  assert (H1 : at_ s1 i w1) by (eapply at_put; eauto).
  assert (Hj1 : at_ s1 j wj) by (apply at_put_other; auto).
  assert (Ho1 : objs s1 (LSmall j) = Some o) by exact Ho.
  set (s2 := World (blocks s1) (objs s1) (next s1) (slots s1) (trace s1 ++ [EMove (o_id o)])).
  assert (St : storage_ok P s2 (LSmall i) (sizeof P (o_ty o)) = true) by (eapply (storage_small s2 i w1); auto; exact H1).
  set (s3 := World (blocks s2) (set_obj (objs s2) (LSmall i) (Some (Obj (next s2) (o_ty o) (o_val o)))) (S (next s2)) (slots s2)
                (trace s2 ++ [ECtor (next s2) (LSmall i) (o_ty o)])).
  assert (Ho3 : objs s3 (LSmall j) = Some o) by (unfold s3; cbn; rewrite set_obj_other by congruence; exact Ho).
  set (s4 := World (blocks s3) (set_obj (objs s3) (LSmall j) None) (next s3) (slots s3) (trace s3 ++ [EDtor (o_id o)])).
  assert (Hj4 : at_ s4 j wj) by exact Hj1.
  assert (E : move_small P i j s = ROk tt (put s4 j (Wr None (size wj) (vt wj) (al wj)))).
  { unfold move_small. rewrite (bindE _ _ _ _ _ (set_self_eq _ _ _ _ Hi)). fold w1. fold s1.
    rewrite (bindE _ _ _ _ _ (getw_eq _ _ _ H1)). rewrite (bindE _ _ _ _ _ (getw_eq _ _ _ Hj1)).
    rewrite Esj. cbn [self vt w1]. rewrite Hv, Hvj. cbn [vt_move vt_destroy].
    assert (E2 : mbind (use EMove (o_ty o) (Some (LSmall j))) (fun v => ctor P (LSmall i) (o_ty o) v false) s1 = ROk tt s3).
    { rewrite (bindE _ _ _ _ _ (use_eq s1 EMove _ _ o Ho1 eq_refl)). fold s2.
      rewrite (ctor_eq s2 _ _ _ St); [reflexivity|exact Hoki]. }
    rewrite (bindE _ _ _ _ _ E2).
    rewrite (bindE _ _ _ _ _ (dtor_eq s3 _ _ _ Ho3 eq_refl)). fold s4.
    rewrite (set_self_eq _ _ _ _ Hj4). rewrite <- Hvj. reflexivity. }
  rewrite (bindE _ _ _ _ _ E).
  rewrite (set_size_eq _ _ _ _ (at_put _ _ _ _ Hj4)). cbn [self vt al]. rewrite put_put.
  eexists. split; [reflexivity|]. rewrite Evw.
  assert (Ct4 : Forall clean (trace s4)).
  { unfold s4, s3, s2, s1. cbn [trace put]. repeat apply cl_app; auto; repeat constructor; auto. }
  pose proof (G_fill_small P NE s a i wi (o_ty o) (o_val o) (al wi) (trace s4) G Hi Hsi Hle Ct4) as G1.
  set (s5 := World _ _ _ _ _) in G1.
  assert (Hj5 : at_ s5 j wj). { unfold at_, s5. cbn. rewrite upd_other; auto. }
  pose proof (G_empty_small P NE s5 _ j wj (hollow wj) (trace s4) G1 Hj5 Esj eq_refl Ct4) as G2.
  rewrite a_put_comm in G2 by auto. unfold hollow in G2. cbn [al] in G2.
  unfold put, s4, s3, s2, s1, put, w1. cbn [blocks objs next slots trace]. rewrite Hv, Hz, Hsz, Hvj. rewrite Hvj in G2. exact G2.
Qed.

(** Relocation to a new block of another allocator. [fin] is the code that frees
    the source block: other.deallocate() or the explicit deallocation. *)
Lemma relocate_ok s a i j wi wj b (fin : wrapper -> M unit) : Good s a -> at_ s i wi -> self wi = None -> at_ s j wj -> i <> j ->
  size wi = size wj -> vt wi = vt wj -> self wj = Some (LHeap b) ->
  (forall me (s' : world) n, size me = size wj -> at_ s' j wj -> size wj = SObj n -> nth_error (blocks s') b = Some (Blk n (al wj) true) ->
     objs s' (LHeap b) = None -> sbs P < n -> 0 < n ->
     fin me s' = ROk tt (World (upd (blocks s') b (Blk n (al wj) false)) (objs s') (next s')
                       (upd (slots s') j (Some (Wr None (size wj) (vt wj) (al wj)))) (trace s' ++ [EFree b n (al wj)]))) ->
  exists s', mbind (mbind (alloc_raw (al wi) (size wj) false) (fun p => mbind (set_self i (Some p)) (fun _ =>
         mbind (getw i) (fun me => mbind (vt_move P (vt me) (self wj) (self me)) (fun _ =>
         mbind (vt_destroy (vt me) (self wj)) (fun _ => fin me)))))) (fun _ => set_size j SInvalid) s = ROk tt s' /\ Good s' (a_put (a_put a j (Some (AEmpty, al wj))) i (Some (aview s wj, al wi))).
Proof.
  intros G Hi Hsi Hj Hij Hz Hv Esj Hfin.
  pose proof (inv_slot _ _ _ (proj1 G) _ _ Hj) as Hok. unfold slot_ok in Hok. rewrite Esj in Hok.
  destruct Hok as (_ & o & Ho & Hsz & Hgt & Hvj & Hb).
  pose proof (cl_trace _ _ G) as Ct. pose proof (cl_next _ _ G) as Cn. pose proof (cl_id _ _ _ _ G Ho Logic.I) as Cid.
  assert (Evw : aview s wj = AOwned (o_ty o) (o_val o)) by (unfold aview; now rewrite Esj, Ho).
  set (t := o_ty o) in *. set (n := sizeof P t) in *. set (b' := length (blocks s)).
  assert (Hbb : b < b') by (apply nth_some_lt in Hb; exact Hb).
  set (s0 := grown s n (al wi)).
  set (w1 := Wr (Some (LHeap b')) (size wi) (vt wi) (al wi)).
  set (s1 := put s0 i w1).
  assert (Hi0 : at_ s0 i wi) by exact Hi.
  assert (H1 : at_ s1 i w1) by (eapply at_put; exact Hi0).
  assert (Hj1 : at_ s1 j wj) by (apply at_put_other; auto).
  set (s2 := World (blocks s1) (objs s1) (next s1) (slots s1) (trace s1 ++ [EMove (o_id o)])).
  assert (Hb2 : nth_error (blocks s2) b' = Some (Blk n (al wi) true)).
  { cbn. unfold b'. rewrite nth_error_app2, Nat.sub_diag by lia. reflexivity. }
  assert (St : storage_ok P s2 (LHeap b') (sizeof P t) = true) by (eapply storage_heap; exact Hb2).
  assert (Ho2 : objs s2 (LHeap b') = None).
  { cbn. destruct (objs s (LHeap b')) eqn:E; auto. destruct (inv_heap _ _ _ (proj1 G) _ _ E) as (m & a' & Hb').
    apply nth_some_lt in Hb'. unfold b' in Hb'. lia. }
  set (s3 := World (blocks s2) (set_obj (objs s2) (LHeap b') (Some (Obj (next s2) t (o_val o)))) (S (next s2)) (slots s2)
                (trace s2 ++ [ECtor (next s2) (LHeap b') t])).
  assert (Hne : b' <> b) by lia.
  assert (Ho3 : objs s3 (LHeap b) = Some o) by (unfold s3; cbn; rewrite set_obj_other by congruence; exact Ho).
  set (s4 := World (blocks s3) (set_obj (objs s3) (LHeap b) None) (next s3) (slots s3) (trace s3 ++ [EDtor (o_id o)])).
  assert (Hj4 : at_ s4 j wj) by exact Hj1.
  assert (Hb4 : nth_error (blocks s4) b = Some (Blk n (al wj) true)).
  { cbn. rewrite nth_error_app1 by exact Hbb. exact Hb. }
  assert (Ho4 : objs s4 (LHeap b) = None) by (unfold s4; cbn; apply set_obj_same).
  set (s5 := World (upd (blocks s4) b (Blk n (al wj) false)) (objs s4) (next s4)
                       (upd (slots s4) j (Some (Wr None (size wj) (vt wj) (al wj)))) (trace s4 ++ [EFree b n (al wj)])).
  assert (E : mbind (alloc_raw (al wi) (size wj) false) (fun p => mbind (set_self i (Some p)) (fun _ =>
         mbind (getw i) (fun me => mbind (vt_move P (vt me) (self wj) (self me)) (fun _ =>
         mbind (vt_destroy (vt me) (self wj)) (fun _ => fin me))))) s = ROk tt s5).
  { rewrite Hsz. cbn [alloc_raw]. rewrite (bindE _ _ _ _ _ (malloc_eq s (al wi) n)). fold b'. 
    change (World (blocks s ++ [Blk n (al wi) true]) (objs s) (next s) (slots s) (trace s ++ [EAlloc b' n (al wi)])) with s0.
    rewrite (bindE _ _ _ _ _ (set_self_eq _ _ _ _ Hi0)). fold w1. fold s1.
    rewrite (bindE _ _ _ _ _ (getw_eq _ _ _ H1)).
    rewrite Esj. cbn [self vt w1]. rewrite Hv, Hvj. cbn [vt_move vt_destroy].
    assert (E2 : mbind (use EMove t (Some (LHeap b))) (fun v => ctor P (LHeap b') t v false) s1 = ROk tt s3).
    { rewrite (bindE _ _ _ _ _ (use_eq s1 EMove t (LHeap b) o Ho eq_refl)). fold s2.
      rewrite (ctor_eq s2 _ _ _ St Ho2). reflexivity. }
    rewrite (bindE _ _ _ _ _ E2).
    rewrite (bindE _ _ _ _ _ (dtor_eq s3 _ _ _ Ho3 eq_refl)). fold s4.
    unfold s5. apply Hfin; auto. apply sizeof_pos. }
  rewrite (bindE _ _ _ _ _ E).
  assert (Hj5 : at_ s5 j (Wr None (size wj) (vt wj) (al wj))) by (unfold at_, s5; cbn; eapply nth_upd_same; exact Hj4).
  rewrite (set_size_eq _ _ _ _ Hj5). cbn [self vt al].
  eexists. split; [reflexivity|]. rewrite Evw.
  assert (Ct5 : Forall clean (trace s5)).
  { unfold s5, s4, s3, s2, s1, s0. cbn [trace put grown]. repeat apply cl_app; auto; repeat constructor; auto. }
  pose proof (G_fill_heap P NE s a i wi t (o_val o) (al wi) (trace s5) G Hi Hsi Hgt Ct5) as G1. cbn zeta in G1. fold b' in G1.
  set (s6 := World _ _ _ _ _) in G1.
  assert (Hj6 : at_ s6 j wj). { unfold at_, s6. cbn. rewrite upd_other; auto. }
  pose proof (G_empty_heap P NE s6 _ j wj b n (al wj) (hollow wj) (trace s5) G1 Hj6 Esj eq_refl Ct5) as G2.
  rewrite a_put_comm in G2 by auto. unfold hollow in G2. cbn [al] in G2.
  unfold put, s5, s4, s3, s2, s1, put, w1, s0, grown. cbn [blocks objs next slots trace]. rewrite upd_upd'.
  rewrite Hv, Hz, Hsz, Hvj. rewrite Hvj in G2. exact G2.
Qed.
End Pf.
