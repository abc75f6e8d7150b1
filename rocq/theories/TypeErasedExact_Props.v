(** C25: which empty wrappers as<T>() accepts, exactly. *)
From Verif Require Import Base TypeErased_Spec TypeErased_Model TypeErased_Trace TypeErased_Inv TypeErased_Proofs
  TypeErased_Main TypeErased_Obs TypeErased_Final TypeErased_Props.
Local Arguments Nat.eqb : simpl never.

(** ** Specification: the type a wrapper remembers *)

(** For every wrapper ever made: gone ([None]), or the type it remembers
    ([Some None]: no type). *)
Definition memory := list (option (option nat)).
Definition recall (g : memory) (i : nat) : option (option nat) := match nth_error g i with Some x => x | None => None end.

Section Spec.
Context {V : Type} (P : settings).
(** One operation that was performed in the value state [a] and answered [r]. A
    wrapper remembers the type of what it was given last; it does not forget it
    when its content is moved away, and a failed copy assignment makes it remember
    the type it did not get. *)
Definition learn (a : astate V) (o : op V) (r : reply V) (g : memory) : memory :=
  match o with
  | ONew _ => g ++ [Some None]
  | OVal _ _ t _ _ => g ++ [match r with Thrown _ => None | _ => Some (Some t) end]
  | ORef _ e _ => g ++ [match nth_error (a_ext a) e with Some (t, _) => Some (Some t) | None => None end]
  | OCopy j _ _ => g ++ [match r with Thrown _ => None | _ => recall g j end]
  | OMove j _ _ => g ++ [recall g j]
  | OCopyAssign i j _ => if Nat.eqb i j then g else upd g i (recall g j)
  | OMoveAssign i j _ =>
      if Nat.eqb i j then g
      else match a_get a j with Some (AEmpty, _) => g | _ => upd g i (recall g j) end
  | ODestroy i => upd g i None
  | _ => g
  end.
Fixpoint remembered (a : astate V) (os : list (op V)) (g : memory) : memory :=
  match os with
  | [] => g
  | o :: os => match a_step P a o with
               | Some (a', r) => remembered a' os (learn a o r g)
               | None => g
               end
  end.
End Spec.

(** ** The model keeps exactly this in the vtables *)
Local Notation "x <- m ;; k" := (mbind m (fun x => k)) (at level 61, m at next level, right associativity).
Local Notation "m ;; k" := (mbind m (fun _ => k)) (at level 61, right associativity).
Section Pf.
Context {V : Type} (P : settings).
Notation world := (@world V).
Notation M := (@M V).

Definition types (s : world) : memory := map (option_map (fun w => option_map fst (vt w))) (slots s).

Definition tri {A} (g : memory) (m : M A) (Q : A -> memory -> Prop) (E : memory -> Prop) : Prop :=
  forall s, types s = g ->
  match m s with ROk x s' => Q x (types s') | RThrow _ s' => E (types s') | _ => True end.
Definition keeps {A} (m : M A) : Prop := forall g, tri g m (fun _ g' => g' = g) (fun g' => g' = g).

Lemma tri_bind {A B} g (m : M A) (f : A -> M B) Q Q' (E : memory -> Prop) :
  tri g m Q E -> (forall x g', Q x g' -> tri g' (f x) Q' E) -> tri g (mbind m f) Q' E.
Proof.
  intros H K s Hs. unfold mbind. specialize (H s Hs). destruct (m s) as [x s'|e s'| | |]; auto.
  exact (K x _ H s' eq_refl).
Qed.
Lemma tri_weaken {A} g (m : M A) (Q Q' : A -> memory -> Prop) (E E' : memory -> Prop) :
  tri g m Q E -> (forall x g', Q x g' -> Q' x g') -> (forall g', E g' -> E' g') -> tri g m Q' E'.
Proof. intros H A1 A2 s Hs. specialize (H s Hs). destruct (m s); auto. Qed.
Lemma keeps_tri {A} g (m : M A) (Q : A -> memory -> Prop) (E : memory -> Prop) :
  keeps m -> (forall x, Q x g) -> E g -> tri g m Q E.
Proof. intros K A1 A2. eapply tri_weaken; [apply K| |]; cbn beta; intros; subst; auto. Qed.
Lemma keeps_bind {A B} (m : M A) (f : A -> M B) : keeps m -> (forall x, keeps (f x)) -> keeps (mbind m f).
Proof. intros K1 K2 g. eapply tri_bind; [apply K1|]. cbn beta. intros x g' ->. apply K2. Qed.
Lemma keeps_ret {A} (x : A) : keeps (ret x : M A). Proof. intros g s <-. reflexivity. Qed.
Lemma keeps_throw {A} e : keeps (throw e : M A). Proof. intros g s <-. reflexivity. Qed.
Lemma keeps_ub {A} : keeps (ub : M A). Proof. intros g s _. exact I. Qed.
Lemma keeps_terminate {A} : keeps (terminate : M A). Proof. intros g s _. exact I. Qed.
Lemma keeps_assert b : keeps (assert b : M unit). Proof. destruct b; [apply keeps_ret|]. intros g s _. exact I. Qed.
Lemma tri_on_throw {A} g (m : M A) h Q (E1 E2 : memory -> Prop) :
  tri g m Q E1 -> (forall g', E1 g' -> tri g' h (fun _ => E2) (fun _ => True)) -> tri g (on_throw m h) Q E2.
Proof.
  intros H K s Hs. unfold on_throw. specialize (H s Hs). destruct (m s) as [x s'|e s'| | |]; auto.
  specialize (K _ H s' eq_refl). destruct (h s'); auto.
Qed.
Lemma keeps_on_throw {A} (m : M A) h : keeps m -> keeps h -> keeps (on_throw m h).
Proof.
  intros K1 K2 g. eapply tri_on_throw; [apply K1|]. cbn beta. intros g' ->. eapply tri_weaken; [apply K2|auto|auto].
Qed.
Lemma tri_noexcept {A} g (m : M A) Q (E E' : memory -> Prop) : tri g m Q E -> tri g (noexcept m) Q E'.
Proof. intros H s Hs. unfold noexcept. specialize (H s Hs). destruct (m s); auto. Qed.

Lemma noexcept_throws {A} (m : M A) s e s' : noexcept m s = RThrow e s' -> False.
Proof. unfold noexcept. destruct (m s); discriminate. Qed.

Lemma types_world b o n (s : world) t : types (World b o n (slots s) t) = types s.
Proof. reflexivity. Qed.

Lemma keeps_malloc a n f : keeps (malloc a n f : M loc).
Proof. intros g s <-. unfold malloc. destruct f; reflexivity. Qed.
Lemma keeps_mfree a l n : keeps (mfree a l n : M unit).
Proof.
  intros g s <-. unfold mfree. destruct l as [[b|i|e]|]; auto. destruct (nth_error (blocks s) b) as [[n' a' []]|]; auto.
  destruct (Nat.eqb n n' && Nat.eqb a a'); auto. destruct (objs s (LHeap b)); auto.
Qed.
Lemma keeps_ctor l t v f : keeps (ctor P l t v f : M unit).
Proof.
  intros g s <-. unfold ctor. destruct (storage_ok P s l (sizeof P t)); auto. destruct (objs s l); auto.
  destruct f; reflexivity.
Qed.
Lemma keeps_use ev t l : keeps (use ev t l : M V).
Proof. intros g s <-. unfold use. destruct l as [l|]; auto. destruct (objs s l) as [o|]; auto. destruct (Nat.eqb (o_ty o) t); auto. Qed.
Lemma keeps_write t l v : keeps (write t l v : M unit).
Proof. intros g s <-. unfold write. destruct l as [l|]; auto. destruct (objs s l) as [o|]; auto. destruct (Nat.eqb (o_ty o) t); auto. Qed.
Lemma keeps_dtor t l : keeps (dtor t l : M unit).
Proof. intros g s <-. unfold dtor. destruct l as [l|]; auto. destruct (objs s l) as [o|]; auto. destruct (Nat.eqb (o_ty o) t); auto. Qed.

Lemma map_upd {A B} (f : A -> B) l i x : map f (upd l i x) = upd (map f l) i (f x).
Proof. revert i. induction l as [|y l IH]; intros [|i]; cbn; auto. now rewrite IH. Qed.
Lemma upd_same_val {A} (l : list A) i x : nth_error l i = Some x -> upd l i x = l.
Proof. revert i. induction l as [|y l IH]; intros [|i]; cbn; intros H; try discriminate H; [congruence|]. now rewrite IH. Qed.

Lemma tri_getw g i : tri g (getw i : M wrapper) (fun w g' => g' = g /\ nth_error g i = Some (Some (option_map fst (vt w)))) (fun g' => g' = g).
Proof.
  intros s <-. unfold getw. destruct (nth_error (slots s) i) as [[w|]|] eqn:E; auto. split; [reflexivity|].
  unfold types. now rewrite nth_error_map, E.
Qed.
Lemma keeps_getw i : keeps (getw i : M wrapper).
Proof. intros g. eapply tri_weaken; [apply tri_getw| |auto]. cbn beta. tauto. Qed.
Lemma tri_setw g i w : tri g (setw i w : M unit) (fun _ g' => g' = upd g i (Some (option_map fst (vt w)))) (fun g' => g' = g).
Proof.
  intros s <-. unfold setw. destruct (nth_error (slots s) i) as [[w0|]|] eqn:E; auto. unfold types; cbn [slots].
  now rewrite map_upd.
Qed.
(** Updates of members other than the vtable. *)
Lemma keeps_member i (f : wrapper -> wrapper) : (forall w, vt (f w) = vt w) -> keeps (w <- getw i ;; setw i (f w)).
Proof.
  intros H g. eapply tri_bind; [apply tri_getw|]. cbn beta. intros w g' [-> E].
  eapply tri_weaken; [apply tri_setw| |auto]. cbn beta. intros _ g' ->. rewrite H. now apply upd_same_val.
Qed.
Lemma keeps_set_self i p : keeps (set_self i p : M unit).
Proof. exact (keeps_member i (fun w => Wr p (size w) (vt w) (al w)) (fun w => eq_refl)). Qed.
Lemma keeps_set_size i z : keeps (set_size i z : M unit).
Proof. exact (keeps_member i (fun w => Wr (self w) z (vt w) (al w)) (fun w => eq_refl)). Qed.
Lemma keeps_set_al i a : keeps (set_al i a : M unit).
Proof. exact (keeps_member i (fun w => Wr (self w) (size w) (vt w) a) (fun w => eq_refl)). Qed.
Lemma tri_set_vt g i x : tri g (set_vt i x : M unit) (fun _ g' => g' = upd g i (Some (option_map fst x))) (fun g' => g' = g).
Proof.
  eapply tri_bind; [apply tri_getw|]. cbn beta. intros w g' [-> _]. eapply tri_weaken; [apply tri_setw| |auto].
  cbn beta. intros _ g' ->. reflexivity.
Qed.
Lemma tri_new_slot g w : tri g (new_slot w : M nat) (fun i g' => i = length g /\ g' = g ++ [Some (option_map fst (vt w))]) (fun _ => False).
Proof. intros s <-. unfold new_slot, types; cbn [slots]. now rewrite map_length, map_app. Qed.
Lemma tri_kill g i : tri g (kill_slot i : M unit) (fun _ g' => g' = upd g i None) (fun _ => False).
Proof.
  intros s <-. unfold kill_slot. destruct (nth_error (slots s) i) as [[w|]|]; auto. destruct (objs s (LSmall i)); auto.
  unfold types; cbn [slots]. now rewrite map_upd.
Qed.

Ltac keep :=
  repeat (first [ apply keeps_ret | apply keeps_throw | apply keeps_ub | apply keeps_terminate | apply keeps_assert
                | apply keeps_malloc | apply keeps_mfree | apply keeps_ctor | apply keeps_use | apply keeps_write | apply keeps_dtor
                | apply keeps_getw | apply keeps_set_self | apply keeps_set_size | apply keeps_set_al
                | apply keeps_on_throw | apply keeps_bind; [|intro] ]).

Lemma keeps_alloc_raw a z f : keeps (alloc_raw a z f : M loc). Proof. destruct z; cbn [alloc_raw]; keep. Qed.
Lemma keeps_dealloc_raw a p z : keeps (dealloc_raw a p z : M unit). Proof. destruct z; cbn [dealloc_raw]; keep. Qed.
Lemma keeps_vt_copy x a b f : keeps (vt_copy P x a b f : M unit). Proof. destruct x as [[t c]|], b; cbn [vt_copy]; keep. Qed.
Lemma keeps_vt_move x a b : keeps (vt_move P x a b : M unit).
Proof. destruct x as [[t []]|], b; cbn [vt_move]; keep. Qed.
Lemma keeps_vt_destroy x a : keeps (vt_destroy x a : M unit).
Proof. destruct x as [[t []]|]; cbn [vt_destroy]; keep. Qed.
Lemma keeps_if {A} (b : bool) (m n : M A) : keeps m -> keeps n -> keeps (if b then m else n).
Proof. destruct b; auto. Qed.
Ltac keep2 := repeat (first [ progress keep | apply keeps_if | apply keeps_alloc_raw | apply keeps_dealloc_raw
                            | apply keeps_vt_copy | apply keeps_vt_move | apply keeps_vt_destroy ]).
Lemma keeps_allocate i z f : keeps (allocate P i z f : M unit). Proof. unfold allocate. keep2. Qed.
Lemma keeps_deallocate i : keeps (deallocate P i : M unit). Proof. unfold deallocate. keep2. Qed.
Lemma keeps_cleanup i : keeps (cleanup P i : M unit). Proof. unfold cleanup. keep2; apply keeps_deallocate. Qed.
Lemma keeps_do_copy_assign c i j f : keeps (do_copy_assign P c i j f : M unit).
Proof. unfold do_copy_assign. keep2; first [apply keeps_allocate|apply keeps_deallocate]. Qed.
Lemma keeps_move_small i j : keeps (move_small P i j : M unit). Proof. unfold move_small. keep2. Qed.
Lemma keeps_steal i j : keeps (steal i j : M unit). Proof. unfold steal. keep2. Qed.

Lemma upd_last {A} (l : list A) x y : upd (l ++ [x]) (length l) y = l ++ [y].
Proof. apply (upd_app_mid l x [] y). Qed.
Lemma nth_app_keep {A} (l k : list A) i x : nth_error l i = Some x -> nth_error (l ++ k) i = Some x.
Proof. intros H. rewrite nth_error_app1; [exact H|]. apply nth_error_Some. congruence. Qed.

Lemma tri_constructing g w body h : (forall i, i = length g -> tri (g ++ [Some (option_map fst (vt w))]) (body i) (fun _ => h) (fun g' => exists x, g' = g ++ [x])) ->
  tri g (constructing w body : M unit) (fun _ => h) (fun g' => g' = g ++ [None]).
Proof.
  intros H. unfold constructing. eapply tri_bind; [eapply tri_weaken; [apply tri_new_slot|intros x g' K; exact K|intros ? []]|].
  cbn beta. intros i g' [-> ->]. eapply tri_on_throw; [apply H; reflexivity|].
  cbn beta. intros g' [x ->]. eapply tri_weaken; [apply tri_kill| |auto]. cbn beta. intros _ g' ->. now rewrite upd_last.
Qed.

Lemma tri_construct_value g i t v f x : i = length g ->
  tri (g ++ [x]) (construct_value P i t v f : M unit) (fun _ g' => g' = g ++ [Some (Some t)]) (fun g' => g' = g ++ [x]).
Proof.
  intros ->. unfold construct_value.
  eapply tri_bind; [apply keeps_tri with (Q := fun _ g' => g' = g ++ [x]); [apply keeps_allocate|reflexivity|reflexivity]|].
  cbn beta. intros _ g' ->. eapply tri_on_throw with (E1 := fun g' => g' = g ++ [x]).
  2:{ cbn beta. intros g' ->. eapply tri_weaken; [apply keeps_deallocate|auto|auto]. }
  eapply tri_bind; [apply keeps_tri with (Q := fun _ g' => g' = g ++ [x]); [apply keeps_getw|reflexivity|reflexivity]|].
  cbn beta. intros me g' ->.
  eapply tri_bind; [apply keeps_tri with (Q := fun _ g' => g' = g ++ [x]); [destruct (self me); keep|reflexivity|reflexivity]|].
  cbn beta. intros _ g' ->. eapply tri_on_throw with (E1 := fun g' => g' = g ++ [x]).
  2:{ cbn beta. intros g' ->. eapply tri_weaken; [apply keeps_dtor|auto|auto]. }
  destruct (vtable_fails f); [intros s Hs; exact Hs|].
  eapply tri_weaken; [apply tri_set_vt| |auto]. cbn beta. intros _ g' ->. cbn [option_map fst]. now rewrite upd_last.
Qed.

Lemma recall_nth g i x : nth_error g i = Some x -> recall g i = x.
Proof. unfold recall. now intros ->. Qed.

(** Ghost and machine in step. *)
Definition fails (r : reply V) : bool := match r with Thrown _ => true | _ => false end.

Lemma tri_ok {A} g (m : M A) Q (E : memory -> Prop) : tri g m (fun _ => Q) E -> tri g (ok m) (fun _ => Q) E.
Proof. intros H. unfold ok. eapply tri_bind; [exact H|]. cbn beta. intros x g' K s <-. exact K. Qed.

Lemma tri_destroy g i : tri g (destroy P i : M unit) (fun _ g' => g' = upd g i None) (fun g' => g' = g).
Proof.
  unfold destroy. eapply tri_bind; [apply keeps_tri with (Q := fun _ g' => g' = g); [apply keeps_cleanup|reflexivity|reflexivity]|].
  cbn beta. intros _ g' ->. eapply tri_weaken; [apply tri_kill|auto|intros ? []].
Qed.

Lemma tri_val g mk a t v f : tri g (construct_by_value P mk a t v f : M unit) (fun _ g' => g' = g ++ [Some (Some t)]) (fun g' => g' = g ++ [None]).
Proof.
  unfold construct_by_value. destruct mk.
  - eapply tri_bind; [eapply tri_weaken; [apply tri_new_slot|intros x g' K; exact K|intros ? []]|].
    cbn beta. intros i g' [-> ->]. eapply tri_on_throw; [apply tri_construct_value; reflexivity|].
    cbn beta. intros g' ->. eapply tri_weaken; [apply tri_destroy| |auto]. cbn beta. intros _ g' ->. now rewrite upd_last.
  - apply tri_constructing. intros i Hi. eapply tri_weaken; [apply tri_construct_value; exact Hi|auto|]. cbn beta. eauto.
Qed.

Lemma tri_ref g a e t c : tri g (construct_by_pointer a e t c : M unit) (fun _ g' => g' = g ++ [Some (Some t)]) (fun g' => g' = g ++ [None]).
Proof.
  unfold construct_by_pointer. apply tri_constructing. intros i ->. cbn [empty_wrapper vt option_map]. unfold construct_ref.
  eapply tri_bind; [apply keeps_tri with (Q := fun _ g' => g' = g ++ [Some None]); [keep|reflexivity|eauto]|].
  cbn beta. intros _ g' ->.
  eapply tri_bind; [eapply tri_weaken; [apply tri_set_vt| |]|].
  - cbn beta. intros x g' K. exact K.
  - cbn beta. eauto.
  - cbn beta. intros _ g' ->. cbn [option_map fst]. rewrite upd_last. apply keeps_tri; [keep|reflexivity|eauto].
Qed.

Lemma tri_copy g j oa f : tri g (copy_construct P j oa f : M unit) (fun _ g' => g' = g ++ [recall g j]) (fun g' => g' = g ++ [None] \/ g' = g /\ recall g j = None).
Proof.
  unfold copy_construct. intros s Hs. unfold mbind. pose proof (tri_getw g j s Hs) as K.
  destruct (getw j s) as [w s1|e s1| | |] eqn:E; auto.
  - destruct K as [K1 K2]. rewrite (recall_nth _ _ _ K2).
    assert (T : tri g (constructing (Wr None SInvalid (vt w) match oa with Some a => a | None => select P (al w) end) (fun i => do_copy_assign P false i j f))
              (fun _ g' => g' = g ++ [Some (option_map fst (vt w))]) (fun g' => g' = g ++ [None])).
    { apply tri_constructing. intros i ->. cbn [vt]. apply keeps_tri; [apply keeps_do_copy_assign|reflexivity|eauto]. }
    specialize (T s1 K1). destruct (constructing _ _ s1); auto.
  - unfold getw in E. destruct (nth_error (slots s) j) as [[w|]|]; discriminate E.
Qed.

Lemma tri_move g j : tri g (move_construct P j : M unit) (fun _ g' => g' = g ++ [recall g j]) (fun _ => False).
Proof.
  unfold move_construct. eapply tri_noexcept with (E := fun _ => True).
  eapply tri_bind; [eapply tri_weaken; [apply tri_getw|intros x g' K; exact K|auto]|]. cbn beta. intros w g' [-> K].
  rewrite (recall_nth _ _ _ K).
  eapply tri_bind; [eapply tri_weaken; [apply tri_new_slot|intros x g' Q; exact Q|auto]|]. cbn beta. intros i g' [-> ->].
  cbn [vt]. apply keeps_tri; [|reflexivity|auto]. keep2; first [apply keeps_steal|apply keeps_move_small].
Qed.
Lemma tri_move_alloc g j a f : tri g (move_construct_alloc P j a f : M unit) (fun _ g' => g' = g ++ [recall g j]) (fun _ => False).
Proof.
  unfold move_construct_alloc. eapply tri_noexcept with (E := fun _ => True).
  eapply tri_bind; [eapply tri_weaken; [apply tri_getw|intros x g' K; exact K|auto]|]. cbn beta. intros w g' [-> K].
  rewrite (recall_nth _ _ _ K).
  eapply tri_bind; [eapply tri_weaken; [apply tri_new_slot|intros x g' Q; exact Q|auto]|]. cbn beta. intros i g' [-> ->].
  cbn [vt]. apply keeps_tri; [|reflexivity|auto]. keep2; first [apply keeps_steal|apply keeps_move_small|apply keeps_deallocate].
Qed.
Lemma tri_copy_assign g i j f : tri g (copy_assign P i j f : M unit)
  (fun _ g' => g' = if Nat.eqb i j then g else upd g i (recall g j))
  (fun g' => g' = g \/ g' = if Nat.eqb i j then g else upd g i (recall g j)).
Proof.
  unfold copy_assign. destruct (Nat.eqb i j); [intros s <-; reflexivity|].
  eapply tri_bind; [apply keeps_tri with (Q := fun _ g' => g' = g); [apply keeps_cleanup|reflexivity|auto]|].
  cbn beta. intros _ g' ->.
  eapply tri_bind; [eapply tri_weaken; [apply tri_getw|intros x g' K; exact K|auto]|]. cbn beta. intros w g' [-> K].
  rewrite (recall_nth _ _ _ K).
  eapply tri_bind; [eapply tri_weaken; [apply tri_set_vt|intros x g' Q; exact Q|auto]|]. cbn beta. intros _ g' ->.
  apply keeps_tri; [apply keeps_do_copy_assign|reflexivity|auto].
Qed.
End Pf.

Section Pf2.
Context {V : Type} (P : settings).
Hypothesis sizeof_pos : forall t, 0 < sizeof P t.
Notation world := (@world V).

(** Move assignment, once it is known whether the source is empty. *)
Lemma move_assign_types NE (s : world) a i j f s' : Good P NE s a -> i <> j ->
  move_assign P i j f s = ROk tt s' -> (exists wi, nth_error (slots s) i = Some (Some wi)) ->
  types s' = match a_get a j with Some (AEmpty, _) => types s | _ => upd (types s) i (recall (types s) j) end.
Proof.
  intros G Nij E [wi Hi]. unfold move_assign, noexcept in E.
  destruct (Nat.eqb_spec i j) as [|_]; [contradiction|].
  destruct (cleanup_ok P NE sizeof_pos s a i wi G Hi) as (s1 & E1 & G1 & H1 & Hk).
  pose proof (keeps_cleanup P i (types s) s eq_refl) as T1. rewrite E1 in T1. cbn beta in T1.
  unfold mbind at 1 in E. rewrite E1 in E.
  unfold mbind at 1 in E. destruct (getw j s1) as [wj s1'| | | |] eqn:Ej; try discriminate E.
  unfold getw in Ej. destruct (nth_error (slots s1) j) as [[wj'|]|] eqn:Hj; try discriminate Ej. injection Ej as -> <-.
  assert (Aj : a_get a j = Some (aview s1 wj, al wj)).
  { pose proof (R_get _ _ _ _ (proj2 G1) Hj) as K. now rewrite a_get_put_other in K by auto. }
  assert (Ej : nth_error (types s1) j = Some (Some (option_map fst (vt wj)))) by (unfold types; now rewrite nth_error_map, Hj).
  assert (Empty : self wj = None <-> aview s1 wj = AEmpty).
  { split; [intros K; unfold aview; now rewrite K|].
    destruct (slot_cases P NE _ _ _ _ G1 Hj) as [Es|Hc]; [auto|].
    intros K. exfalso. unfold aview in K. destruct (self wj) as [[b|k|e]|] eqn:Ew; try discriminate K.
    all: pose proof (inv_slot _ _ _ (proj1 G1) _ _ Hj) as Hok; unfold slot_ok in Hok; rewrite Ew in Hok.
    - destruct Hok as (_ & o & Ho & _). rewrite Ho in K. discriminate K.
    - destruct Hok as (-> & o & Ho & _). rewrite Ho in K. discriminate K.
    - destruct Hc as [Hc|[Hc|Hc]]; decompose [ex and] Hc; congruence. }
  rewrite Aj, <- T1.
  assert (T : @tri V unit (types s1)
    ((if pocma P then set_al i (al wj) else ret tt) ;;
     (if is_null (self wj) then ret tt
      else set_size i (size wj) ;; set_vt i (vt wj) ;; me0 <- getw i ;;
        (if negb (owns (size wj)) then steal i j
         else if gt_sbs P (size wj) then
           if pocma P || Nat.eqb (al me0) (al wj) then steal i j
           else
             p <- alloc_raw (al me0) (size wj) f ;; set_self i (Some p) ;; me <- getw i ;;
             vt_move P (vt me) (self wj) (self me) ;; vt_destroy (vt me) (self wj) ;;
             dealloc_raw (if pocma P then al me else al wj) (self wj) (size me) ;; set_self j None
         else if is_null (self wj) then ret tt
         else move_small P i j) ;;
        set_size j SInvalid))
    (fun _ g' => g' = if is_null (self wj) then types s1 else upd (types s1) i (Some (option_map fst (vt wj)))) (fun _ => True)).
  { eapply tri_bind; [apply keeps_tri with (Q := fun _ g' => g' = types s1); [|reflexivity|auto]|].
    - destruct (pocma P); [apply keeps_set_al|apply keeps_ret].
    - cbn beta. intros _ g' ->. destruct (is_null (self wj)) eqn:Enull; [intros t <-; reflexivity|].
      eapply tri_bind; [apply keeps_tri with (Q := fun _ g' => g' = types s1); [apply keeps_set_size|reflexivity|auto]|].
      cbn beta. intros _ g' ->.
      eapply tri_bind; [eapply tri_weaken; [apply tri_set_vt|intros x g' Q; exact Q|auto]|]. cbn beta. intros _ g' ->.
      apply keeps_tri; [|reflexivity|auto].
      apply keeps_bind; [apply keeps_getw|]. intros me0. apply keeps_bind; [|intros; apply keeps_set_size].
      repeat apply keeps_if; try apply keeps_steal; try apply keeps_ret; try apply keeps_move_small.
      apply keeps_bind; [apply keeps_alloc_raw|]. intros p. apply keeps_bind; [apply keeps_set_self|]. intros _.
      apply keeps_bind; [apply keeps_getw|]. intros me. apply keeps_bind; [apply keeps_vt_move|]. intros _.
      apply keeps_bind; [apply keeps_vt_destroy|]. intros _. apply keeps_bind; [apply keeps_dealloc_raw|]. intros _. apply keeps_set_self. }
  specialize (T s1 eq_refl). cbv beta in T.
  match type of E with match ?m with _ => _ end = _ => change (match m with RThrow _ _ => RTerm | r => r end = ROk tt s') in E;
    match type of T with match ?m' with _ => _ end => change m' with m in T end;
    destruct m as [x s2|e s2| | |]; try discriminate E end.
  injection E as _ <-. rewrite T. destruct (aview s1 wj) eqn:Ea.
  - replace (self wj) with (@None loc) by (symmetry; apply Empty; reflexivity). reflexivity.
  - destruct (self wj) eqn:Ew; [|exfalso; destruct Empty as [Em _]; specialize (Em eq_refl); discriminate Em].
    cbn [is_null]. now rewrite (recall_nth _ _ _ Ej).
  - destruct (self wj) eqn:Ew; [|exfalso; destruct Empty as [Em _]; specialize (Em eq_refl); discriminate Em].
    cbn [is_null]. now rewrite (recall_nth _ _ _ Ej).
Qed.

Lemma copy_assign_types NE (s : world) a i j f : Good P NE s a -> i <> j ->
  (exists wi, nth_error (slots s) i = Some (Some wi)) ->
  match copy_assign P i j f s with
  | ROk _ s' | RThrow _ s' => types s' = upd (types s) i (recall (types s) j)
  | _ => True
  end.
Proof.
  intros G Nij [wi Hi]. unfold copy_assign. destruct (Nat.eqb_spec i j) as [|_]; [contradiction|].
  destruct (cleanup_ok P NE sizeof_pos s a i wi G Hi) as (s1 & E1 & G1 & H1 & Hk).
  pose proof (keeps_cleanup P i (types s) s eq_refl) as T1. rewrite E1 in T1. cbn beta in T1.
  unfold mbind at 1. rewrite E1. unfold mbind at 1. destruct (getw j s1) as [wj s1'|e s1'| | |] eqn:Ej; auto.
  2:{ unfold getw in Ej. destruct (nth_error (slots s1) j) as [[w|]|]; discriminate Ej. }
  unfold getw in Ej. destruct (nth_error (slots s1) j) as [[wj'|]|] eqn:Hj; try discriminate Ej. injection Ej as -> <-.
  assert (Ej : nth_error (types s1) j = Some (Some (option_map fst (vt wj)))) by (unfold types; now rewrite nth_error_map, Hj).
  unfold mbind at 1. unfold set_vt, mbind at 1, getw. unfold at_ in H1. rewrite H1. unfold setw. rewrite H1.
  match goal with |- match do_copy_assign P true i j f ?s2 with _ => _ end =>
    pose proof (keeps_do_copy_assign P true i j f (types s2) s2 eq_refl) as K;
    assert (T2 : types s2 = upd (types s1) i (Some (option_map fst (vt wj))));
    [unfold types; cbn [slots]; now rewrite map_upd|];
    destruct (do_copy_assign P true i j f s2); auto; rewrite K, T2, <- T1; now rewrite (recall_nth _ _ _ Ej) end.
Qed.

Lemma types_get NE (s : world) a i x n : Good P NE s a -> a_get a i = Some (x, n) ->
  exists w, nth_error (slots s) i = Some (Some w) /\ x = aview s w /\ recall (types s) i = Some (option_map fst (vt w)).
Proof.
  intros G H. destruct (R_get_inv _ _ _ _ (proj2 G) H) as (w & Hw & E). injection E as Ex _.
  exists w. split; [exact Hw|]. split; [exact Ex|]. apply recall_nth. unfold types. now rewrite nth_error_map, Hw.
Qed.

Lemma perform_types NE (s : world) a o a' r s' : Good P NE s a -> a_step P a o = Some (a', r) -> perform P s o = Next s' r ->
  types s' = learn a o r (types s).
Proof.
  intros G St Pf. unfold perform in Pf.
  assert (Keep : keeps (step P o) -> types s' = types s).
  { intros K. specialize (K (types s) s eq_refl). destruct (step P o s); try discriminate Pf; injection Pf as <- _; exact K. }
  destruct o; cbn [learn].
  - cbn [step] in Pf. unfold ok, mbind, new_slot, ret in Pf. injection Pf as <- _.
    unfold types; cbn [slots]. now rewrite map_app.
  - pose proof (tri_ok _ _ _ _ (tri_val P (types s) via_make a0 t v f) s eq_refl) as K. cbn [step] in Pf.
    assert (Sh : match ok (construct_by_value P via_make a0 t v f) s with ROk x _ => x = Done | _ => True end).
    { unfold ok, mbind. destruct (construct_by_value P via_make a0 t v f s); cbn; auto. }
    destruct (ok (construct_by_value P via_make a0 t v f) s); try discriminate Pf; injection Pf as <- <-; [|exact K]. subst. exact K.
  - cbn [a_step] in St. destruct (nth_error (a_ext a) e) as [[t v]|] eqn:Ee; [|discriminate St]. injection St as _ <-.
    cbn [step] in Pf. pose proof (proj2 (proj2 G) e) as Re. rewrite Ee in Re.
    destruct (objs s (LExt e)) as [ob|]; [|discriminate Re]. cbn [option_map] in Re. injection Re as Re _. rewrite Re in Pf.
    pose proof (tri_ok _ _ _ _ (tri_ref (types s) a0 e t c) s eq_refl) as K.
    destruct (ok (construct_by_pointer a0 e t c) s); try discriminate Pf. injection Pf as <-. exact K.
  - cbn [a_step] in St. destruct (a_get a j) as [[x n]|] eqn:Ej; [|discriminate St].
    destruct (types_get NE s a j x n G Ej) as (w & Hw & _ & Er).
    pose proof (tri_ok _ _ _ _ (tri_copy P (types s) j oa f) s eq_refl) as K. cbn [step] in Pf.
    assert (Sh : match ok (copy_construct P j oa f) s with ROk x _ => x = Done | _ => True end).
    { unfold ok, mbind. destruct (copy_construct P j oa f s); cbn; auto. }
    destruct (ok (copy_construct P j oa f) s) as [y s1|ex s1| | |]; try discriminate Pf; injection Pf as <- <-.
    + subst y. exact K.
    + destruct K as [K|[_ K]]; [exact K|]. rewrite Er in K. discriminate K.
  - cbn [a_step] in St. destruct (a_get a j) as [[x n]|] eqn:Ej; [|discriminate St]. injection St as _ <-.
    cbn [step] in Pf. destruct oa as [a0|].
    + pose proof (tri_ok _ _ _ _ (tri_move_alloc P (types s) j a0 f) s eq_refl) as K.
      destruct (ok (move_construct_alloc P j a0 f) s); try discriminate Pf. injection Pf as <-. exact K.
    + pose proof (tri_ok _ _ _ _ (tri_move P (types s) j) s eq_refl) as K.
      destruct (ok (move_construct P j) s); try discriminate Pf. injection Pf as <-. exact K.
  - cbn [a_step] in St. destruct (a_get a i) as [[xi ni]|] eqn:Ei; [|discriminate St].
    destruct (types_get NE s a i xi ni G Ei) as (wi & Hi & _).
    cbn [step] in Pf. unfold ok, mbind in Pf. destruct (Nat.eqb_spec i j) as [->|Nij].
    + unfold copy_assign in Pf. rewrite Nat.eqb_refl in Pf. injection Pf as <- _. reflexivity.
    + pose proof (copy_assign_types NE s a i j f G Nij (ex_intro _ wi Hi)) as K.
      destruct (copy_assign P i j f s) as [y s1|ex s1| | |]; try discriminate Pf; injection Pf as <- _; exact K.
  - cbn [a_step] in St. destruct (a_get a i) as [[xi ni]|] eqn:Ei; [|discriminate St].
    destruct (types_get NE s a i xi ni G Ei) as (wi & Hi & _).
    destruct (a_get a j) as [[xj nj]|] eqn:Ej; [|discriminate St].
    cbn [step] in Pf. unfold ok, mbind in Pf. destruct (Nat.eqb_spec i j) as [->|Nij].
    + unfold move_assign, noexcept in Pf. rewrite Nat.eqb_refl in Pf. injection Pf as <- _. reflexivity.
    + destruct (move_assign P i j f s) as [[] s1|ex s1| | |] eqn:Em; try discriminate Pf.
      * injection Pf as <- _. rewrite (move_assign_types NE s a i j f s1 G Nij Em (ex_intro _ wi Hi)). now rewrite Ej.
      * exfalso. unfold move_assign in Em. now apply noexcept_throws in Em.
  - cbn [a_step] in St. destruct (a_get a i) as [[xi ni]|] eqn:Ei; [|discriminate St]. injection St as _ <-.
    cbn [step] in Pf. pose proof (tri_ok _ _ _ _ (tri_destroy P (types s) i) s eq_refl) as K.
    destruct (ok (destroy P i) s); try discriminate Pf. injection Pf as <-. exact K.
  - apply Keep. cbn [step]. unfold as_const. repeat (first [apply keeps_bind; [|intro] | apply keeps_getw | apply keeps_if | apply keeps_throw | apply keeps_ret | apply keeps_use]).
  - apply Keep. cbn [step]. unfold as_mut, ok. repeat (first [apply keeps_bind; [|intro] | apply keeps_getw | apply keeps_if | apply keeps_throw | apply keeps_ret | apply keeps_write]).
  - apply Keep. cbn [step]. unfold as_rvalue. repeat (first [apply keeps_bind; [|intro] | apply keeps_getw | apply keeps_if | apply keeps_throw | apply keeps_ret | apply keeps_use | apply keeps_write]).
  - apply Keep. cbn [step]. unfold call_const, vt_type. repeat (first [apply keeps_bind; [|intro] | apply keeps_getw | apply keeps_assert | apply keeps_ret | apply keeps_use]).
    destruct (vt x) as [[t c]|]; [apply keeps_ret|apply keeps_ub].
  - apply Keep. cbn [step]. unfold call_mut, vt_type, ok. repeat (first [apply keeps_bind; [|intro] | apply keeps_getw | apply keeps_assert | apply keeps_if | apply keeps_throw | apply keeps_ret | apply keeps_write]).
    destruct (vt x) as [[t c]|]; [apply keeps_ret|apply keeps_ub].
Qed.

Lemma run_types NE os : forall (s : world) a rs a' s', Good P NE s a -> a_run P a os rs a' -> Forall moves_get_memory os ->
  run P s os = Some (s', rs) -> types s' = remembered P a os (types s).
Proof.
  induction os as [|o os IH]; intros s a rs a' s' G Hr Hm E; inversion Hr as [|? ? s1 r ? rs0 ? Hst Htl]; subst; cbn [run remembered] in *.
  - injection E as <-. reflexivity.
  - inversion Hm as [|? ? Hm1 Hm2]; subst. rewrite Hst.
    destruct (perform_ok P NE sizeof_pos s a o s1 r G Hst) as [(s2 & E2 & G2)|[_ N]]; [|contradiction].
    rewrite E2 in E. rewrite <- (perform_types NE s a o s1 r s2 G Hst E2).
    destruct (run P s2 os) as [[s3 rs3]|] eqn:E3; [|discriminate E]. injection E as <- <-.
    eapply IH; eauto.
Qed.
End Pf2.

(** C25, exactly. In every reachable state every wrapper remembers a type (or
    none), as the history says, and as<const T>() throws bad_type_erased_type
    unless T is the remembered type. If it is, the result is the wrapped object;
    for an empty wrapper it is a null reference, and reading it is undefined. *)
Theorem C25_exact :
  forall (V : Type) (P : settings) (ext : list (nat * V)) (os : list (op V)) rs s a i x n t,
    (forall t, 0 < sizeof P t) -> reached P ext os rs s a -> a_get a i = Some (x, n) ->
    exists m, nth_error (remembered P (AState [] ext) os []) i = Some (Some m) /\
      (m <> Some t -> as_const i t s = RThrow bad_type_erased_type s) /\
      (m = Some t -> x = AEmpty -> as_const i t s = ROk None s /\ perform P s (OGet i t) = Stuck_ub) /\
      (x <> AEmpty -> option_map fst (a_see a x) = m).
Proof.
  intros V P ext os rs s a i x n t Hp H Ha.
  destruct (reached_inv P Hp _ _ _ _ _ H) as [G _]. destruct H as (Hr & Hm & E).
  assert (Tr : types s = remembered P (AState [] ext) os []).
  { rewrite (run_types P Hp (length ext) os _ _ _ _ _ (Good_init P ext) Hr Hm E). reflexivity. }
  destruct (types_get P (length ext) s a i x n G Ha) as (w & Hw & Ex & Er).
  exists (option_map fst (vt w)). split; [|split; [|split]].
  - rewrite <- Tr. unfold types. now rewrite nth_error_map, Hw.
  - intros N. unfold as_const, mbind, getw. rewrite Hw. unfold type_is. destruct (vt w) as [[t' c]|]; [|reflexivity].
    cbn [option_map fst] in N. destruct (Nat.eqb_spec t t') as [->|]; [now destruct N|reflexivity].
  - intros Em Ee.
    assert (Es : self w = None).
    { rewrite Ee in Ex. destruct (self w) as [l|] eqn:El; [|reflexivity]. exfalso.
      pose proof (inv_slot _ _ _ (proj1 G) _ _ Hw) as Hok. unfold slot_ok in Hok. rewrite El in Hok.
      unfold aview in Ex. rewrite El in Ex. destruct l as [b|k|e].
      - destruct Hok as (_ & o & Ho & _). rewrite Ho in Ex. discriminate Ex.
      - destruct Hok as (-> & o & Ho & _). rewrite Ho in Ex. discriminate Ex.
      - discriminate Ex. }
    assert (A : as_const i t s = ROk None s).
    { unfold as_const, mbind, getw. rewrite Hw. unfold type_is. destruct (vt w) as [[t' c]|]; [|discriminate Em].
      cbn [option_map fst] in Em. injection Em as ->. rewrite Nat.eqb_refl. cbn [negb]. unfold ret. now rewrite Es. }
    split; [exact A|]. unfold perform; cbn [step]. unfold mbind. now rewrite A.
  - intros Ne. rewrite Ex in *. destruct (see_nonempty P (length ext) s a i w G Hw Ne) as (t' & v & Se). rewrite Se. cbn [option_map fst].
    destruct (see_some P (length ext) s a i w t' v G Hw Se) as (l & o & _ & _ & _ & _ & Hv & _). now rewrite Hv.
Qed.
Print Assumptions C25_exact.

(** So every wrapper that is moved from is readable by mistake, whatever it held. *)
Theorem C25_moved_from_refuted :
  forall (V : Type) (P : settings) (ext : list (nat * V)) (os : list (op V)) rs s a i x n t v,
    (forall t, 0 < sizeof P t) -> reached P ext os rs s a -> a_get a i = Some (x, n) -> a_see a x = Some (t, v) ->
    exists s' a', perform P s (OMove i None false) = Next s' Done /\
      reached P ext (os ++ [OMove i None false]) (rs ++ [Done]) s' a' /\ a_get a' i = Some (AEmpty, n) /\
      as_const i t s' = ROk None s' /\ perform P s' (OGet i t) = Stuck_ub.
Proof.
  intros V P ext os rs s a i x n t v Hp H Ha Hs.
  assert (St : a_step P a (OMove i None false) = Some (a_push (a_put a i (Some (AEmpty, n))) (Some (x, n)), Done)) by (cbn [a_step]; now rewrite Ha).
  destruct (te_continue P Hp ext os rs s a _ _ _ H St eq_refl) as (s' & E & H').
  exists s', (a_push (a_put a i (Some (AEmpty, n))) (Some (x, n))). split; [exact E|]. split; [exact H'|].
  assert (Lt : i < length (a_ws a)) by (unfold a_get in Ha; apply nth_error_Some; intros K; rewrite K in Ha; discriminate Ha).
  assert (Ga : a_get (a_push (a_put a i (Some (AEmpty, n))) (Some (x, n))) i = Some (AEmpty, n)).
  { unfold a_get, a_push, a_put; cbn [a_ws]. rewrite nth_error_app1 by (rewrite upd_length; exact Lt). now rewrite upd_same. }
  split; [exact Ga|].
  destruct (C25_exact V P ext os rs s a i x n t Hp H Ha) as (m & Em & _ & _ & Hx).
  destruct (C25_exact V P ext _ _ s' _ i AEmpty n t Hp H' Ga) as (m' & Em' & _ & Hy & _).
  apply Hy; [|reflexivity].
  assert (R : remembered P (AState [] ext) (os ++ [OMove i None false]) [] = remembered P (AState [] ext) os [] ++ [recall (remembered P (AState [] ext) os []) i]).
  { destruct H as (Hr & _ & _). clear - Hr St.
    assert (Gen : forall g a0 rs, a_run P a0 os rs a ->
      remembered P a0 (os ++ [OMove i None false]) g = remembered P a0 os g ++ [recall (remembered P a0 os g) i]).
    { clear Hr. induction os as [|o os IH]; intros g a0 rs0 Hr0; inversion Hr0 as [|? ? s1 r ? rs1 ? Hst Htl]; subst; cbn [app remembered].
      - rewrite St. reflexivity.
      - rewrite Hst. eapply IH; exact Htl. }
    eapply Gen. exact Hr. }
  rewrite R, nth_error_app1 in Em' by (apply nth_error_Some; congruence). rewrite Em in Em'. injection Em' as <-.
  rewrite <- Hx; [now rewrite Hs|]. intros ->. discriminate Hs.
Qed.
Print Assumptions C25_moved_from_refuted.

(** Wrapper 0 held a type-0 object and was moved from; wrapper 1 was assigned an
    empty wrapper and forgets nothing; wrapper 2 was default constructed. *)
Example C25_exact_nonvacuous :
  remembered ex_P (AState [] ex_ext) [OVal false 1 0 7 FNone; OVal false 1 1 8 FNone; ONew 1; OMoveAssign 1 2 false; OMove 0 None false] []
  = [Some (Some 0); Some (Some 1); Some None; Some (Some 0)].
Proof. reflexivity. Qed.
