(** C21-C26: TypeErased. [reached P ext os rs s a] (TypeErased_Obs.v): a program
    with variables [ext] performed the operations [os], getting the replies [rs];
    the machine is in state [s], and the pointer-free value semantics of
    TypeErased_Spec.v is in state [a]. *)
From Verif Require Import Base TypeErased_Spec TypeErased_Model TypeErased_Trace TypeErased_Inv TypeErased_Proofs
  TypeErased_Main TypeErased_Obs TypeErased_Final.

(** A concrete setting: types 0 (4 bytes) and 1 (100 bytes), 16 byte buffer, no
    propagation. The program has a variable 0 of type 0. *)
Definition ex_P : settings := Settings (fun t => match t with 0 => 4 | _ => 100 end) 16 false false (fun a => a).
Lemma ex_pos : forall t, 0 < sizeof ex_P t. Proof. intros [|t]; cbn; lia. Qed.
Definition ex_ext : list (nat * nat) := [(0, 41)].
(** Value constructors (small, large), throwing constructions, references, copies
    (one throwing), moves between unequal allocators, accesses, destructions. *)
Definition ex_os : list (op nat) :=
  [ OVal false 1 0 7 FNone; OVal true 1 1 8 FNone; OVal false 1 1 9 FVtable; ORef 1 0 true; ORef 2 0 false;
    OCopy 1 None FNone; OCopy 1 (Some 2) FAlloc; OMove 1 (Some 2) false; OCopyAssign 0 7 FCtor; OCopyAssign 0 7 FNone;
    OSet 0 1 80; OSet 4 0 42; OSet 3 0 43; OGet 3 0; OTake 7 1 0; OMoveAssign 5 0 false; OCallConst 5; OCall 3 1;
    ODestroy 7 ].

(** ** C21 *)

(** Every history of operations that apply runs to the end in the code with the
    replies of the value semantics; every resource event was allowed when it
    happened ([wf_trace]: nothing is constructed over a living object or outside of
    suitable storage, used or destroyed when not alive, or freed twice, with a
    wrong size, a wrong allocator or a living object inside); every living block
    and object belongs to a wrapper; and no two wrappers share one. *)
Theorem C21_resource_safety :
  forall (V : Type) (P : settings) (ext : list (nat * V)) (os : list (op V)) rs a,
    (forall t, 0 < sizeof P t) ->
    a_run P (AState [] ext) os rs a -> Forall moves_get_memory os ->
    exists s, run P (init ext) os = Some (s, rs) /\
      wf_trace (sizeof P) (sbs P) (trace s) /\ accounted s /\ unshared s.
Proof.
  intros V P ext os rs a Hp Hr Hm. destruct (te_run_exists P Hp ext os rs a Hr Hm) as [s H].
  exists s. split; [apply H|]. destruct (te_resources P Hp _ _ _ _ _ H). destruct (te_shows P Hp _ _ _ _ _ H). auto.
Qed.
Print Assumptions C21_resource_safety.

(** Once no wrapper is left, each block has been freed exactly once with its own
    size by its own allocator, and each object constructed in a wrapper has been
    destroyed exactly once. *)
Theorem C21_all_released :
  forall (V : Type) (P : settings) (ext : list (nat * V)) (os : list (op V)) rs s a,
    (forall t, 0 < sizeof P t) -> reached P ext os rs s a -> (forall i, a_get a i = None) ->
    (forall b n al, In (EAlloc b n al) (trace s) ->
       exists p, nth_error (trace s) p = Some (EFree b n al) /\
                 forall q n' al', nth_error (trace s) q = Some (EFree b n' al') -> q = p) /\
    (forall o l t, In (ECtor o l t) (trace s) -> (forall e, l <> LExt e) ->
       exists p, nth_error (trace s) p = Some (EDtor o) /\
                 forall q, nth_error (trace s) q = Some (EDtor o) -> q = p).
Proof. intros V P ext os rs s a Hp H Hn. exact (te_no_leak P Hp ext os rs s a H Hn). Qed.
Print Assumptions C21_all_released.

(** No operation that applies fails an assertion or is undefined. The only way not
    to complete is std::terminate in a move whose memory allocation fails. *)
Theorem C21_never_stuck :
  forall (V : Type) (P : settings) (ext : list (nat * V)) (os : list (op V)) rs s a o a' r,
    (forall t, 0 < sizeof P t) -> reached P ext os rs s a -> a_step P a o = Some (a', r) ->
    (exists s', perform P s o = Next s' r) \/ (perform P s o = Stuck_terminate /\ ~ moves_get_memory o).
Proof. intros V P ext os rs s a o a' r Hp H. exact (te_safe P Hp ext os rs s a o a' r H). Qed.
Print Assumptions C21_never_stuck.

Ltac run_refl := repeat (eapply a_run_cons; [vm_compute; reflexivity|]); constructor.
(** The code reaches a state for each of the histories below. *)
Lemma ex_reached os rs a : a_run ex_P (AState [] ex_ext) os rs a -> Forall moves_get_memory os ->
  exists s, reached ex_P ex_ext os rs s a.
Proof. exact (te_run_exists ex_P ex_pos ex_ext os rs a). Qed.
Definition ex_trace (os : list (op nat)) : list event :=
  match run ex_P (init ex_ext) os with Some (s, _) => trace s | None => [] end.
Example C21_nonvacuous :
  exists rs s a, reached ex_P ex_ext ex_os rs s a /\
    rs = [Done; Done; Thrown user_exception; Done; Done; Done; Thrown user_exception; Done; Thrown user_exception; Done;
          Done; Done; Thrown bad_type_erased_constness; Value 42; Value 8; Done; Value 80;
          Thrown bad_type_erased_constness; Done] /\
    length (trace s) = 44.
Proof.
  edestruct (ex_reached ex_os) as [s H]; [run_refl|repeat constructor|].
  eexists _, s, _. split; [exact H|]. split; [reflexivity|].
  replace (trace s) with (ex_trace ex_os) by (unfold ex_trace; rewrite (proj2 (proj2 H)); reflexivity).
  vm_compute. reflexivity.
Qed.
(** All wrappers destroyed. *)
Example C21_released_nonvacuous :
  let os := ex_os ++ map ODestroy [0; 1; 3; 4; 5] in
  exists rs s a, reached ex_P ex_ext os rs s a /\ (forall i, a_get a i = None) /\
    In (EAlloc 0 100 1) (trace s) /\ In (EFree 0 100 1) (trace s).
Proof.
  intros os. edestruct (ex_reached os) as [s H]; [run_refl|repeat constructor|].
  eexists _, s, _. split; [exact H|].
  replace (trace s) with (ex_trace os) by (unfold ex_trace; rewrite (proj2 (proj2 H)); reflexivity).
  split; [|split; vm_compute; tauto].
  intros i. do 9 (destruct i as [|i]; [reflexivity|]). reflexivity.
Qed.
(** A trace that frees twice is not acceptable. *)
Example C21_wf_meaningful : ~ wf_trace (sizeof ex_P) 16 [EAlloc 0 4 1; EFree 0 4 1; EFree 0 4 1].
Proof.
  intros H. remember [EAlloc 0 4 1; EFree 0 4 1; EFree 0 4 1] as h0 eqn:E0. destruct H as [|h e W O]; [discriminate|].
  change [EAlloc 0 4 1; EFree 0 4 1; EFree 0 4 1] with ([EAlloc 0 4 1; EFree 0 4 1] ++ [EFree 0 4 1]) in E0.
  apply app_inj_tail in E0. destruct E0 as [-> ->]. cbn in O. destruct O as [[_ N] _]. apply N. exists 4, 1. cbn. tauto.
Qed.
(** A move that needs memory and does not get it terminates. *)
Example C21_terminates :
  perform ex_P (match run ex_P (init ex_ext) [OVal false 1 1 8 FNone] with Some (s, _) => s | None => init ex_ext end)
    (OMove 0 (Some 2) true) = Stuck_terminate.
Proof. vm_compute. reflexivity. Qed.

(** ** C22 *)
(** After every history each wrapper shows exactly the content it has in the value
    semantics (through its public accessors), with its allocator, wrappers that do
    not exist there do not exist, the program's variables have the expected values,
    and owned objects are not shared. *)
Theorem C22_value_semantics :
  forall (V : Type) (P : settings) (ext : list (nat * V)) (os : list (op V)) rs a,
    (forall t, 0 < sizeof P t) ->
    a_run P (AState [] ext) os rs a -> Forall moves_get_memory os ->
    exists s, run P (init ext) os = Some (s, rs) /\ shows_all s a /\ unshared s.
Proof.
  intros V P ext os rs a Hp Hr Hm. destruct (te_run_exists P Hp ext os rs a Hr Hm) as [s H].
  exists s. split; [apply H|]. exact (te_shows P Hp _ _ _ _ _ H).
Qed.
Print Assumptions C22_value_semantics.
Example C22_nonvacuous :
  exists rs a, a_run ex_P (AState [] ex_ext) ex_os rs a /\
    a_ws a = [Some (AEmpty, 1); Some (AEmpty, 1); None; Some (ARef 0 true, 1); Some (ARef 0 false, 2);
              Some (AOwned 1 80, 1); None; None] /\ a_ext a = [(0, 42)].
Proof. eexists _, _. split; [run_refl|]. split; reflexivity. Qed.

(** ** C23 *)
(** A wrapper made from a pointer, and its copies and moves ([ARef e c] in the
    value semantics), point to that variable; no operation in the history has
    copied, moved or destroyed any of the program's variables. *)
Theorem C23_references_never_own :
  forall (V : Type) (P : settings) (ext : list (nat * V)) (os : list (op V)) rs s a,
    (forall t, 0 < sizeof P t) -> reached P ext os rs s a ->
    (forall i e c n, a_get a i = Some (ARef e c, n) -> points_to s i (LExt e)) /\
    (forall e t v, nth_error ext e = Some (t, v) ->
       (exists v', object_at s (LExt e) t v') /\
       ~ In (ECopy e) (trace s) /\ ~ In (EMove e) (trace s) /\ ~ In (EDtor e) (trace s)).
Proof.
  intros V P ext os rs s a Hp H. destruct (te_shows P Hp _ _ _ _ _ H) as [(H1 & _ & _) _]. split.
  - intros i e c n Hi. apply (H1 _ _ _ Hi).
  - intros e t v He. assert (e < length ext) as Hlt by (now apply nth_some_lt in He).
    split; [exact (te_variables_stay P Hp _ _ _ _ _ e t v H He)|exact (te_no_touch P Hp _ _ _ _ _ H e Hlt)].
Qed.
Print Assumptions C23_references_never_own.
Example C23_nonvacuous :
  exists rs s a, reached ex_P ex_ext (ex_os ++ [OCopy 3 None FNone; OMove 4 None false; OCopyAssign 5 8 FNone; ODestroy 3]) rs s a /\
    a_get a 8 = Some (ARef 0 true, 1) /\ a_get a 9 = Some (ARef 0 false, 2) /\ a_get a 5 = Some (ARef 0 true, 1).
Proof.
  edestruct ex_reached as [s H]; [| |eexists _, s, _; split; [exact H|]].
  - run_refl.
  - repeat constructor.
  - repeat split; reflexivity.
Qed.

(** ** C24 *)
(** A wrapper that refers to a const object: non-const accesses throw and change
    nothing, const ones succeed. *)
Theorem C24_const_access :
  forall (V : Type) (P : settings) (ext : list (nat * V)) (os : list (op V)) rs s a i e n,
    (forall t, 0 < sizeof P t) -> reached P ext os rs s a -> a_get a i = Some (ARef e true, n) ->
    exists t v, object_at s (LExt e) t v /\
      get_pointer i s = RThrow bad_type_erased_constness s /\
      get_const_pointer i s = ROk (Some (LExt e)) s /\
      (forall t', as_mut i t' s = RThrow (if Nat.eqb t' t then bad_type_erased_constness else bad_type_erased_type) s) /\
      (forall t', as_rvalue i t' s = RThrow (if Nat.eqb t' t then bad_type_erased_constness else bad_type_erased_type) s) /\
      (forall x, call_mut i x s = RThrow bad_type_erased_constness s) /\
      as_const i t s = ROk (Some (LExt e)) s /\
      (exists s', call_const i s = ROk v s').
Proof.
  intros V P ext os rs s a i e n Hp H Hi.
  destruct (te_shows P Hp _ _ _ _ _ H) as [(H1 & _ & _) _]. destruct (H1 _ _ _ Hi) as [[K1 K2] _].
  assert (Hne : ARef (V := V) e true <> AEmpty) by discriminate.
  destruct (te_as_nonempty P Hp _ _ _ _ _ i _ n 0 H Hi Hne) as (l & t & v & L1 & L2 & L3 & _).
  assert (l = LExt e) as ->. { unfold points_to in *. congruence. }
  exists t, v. split; [exact L2|]. split; [exact K2|]. split; [exact K1|].
  assert (Q : forall t', as_const i t' s = (if Nat.eqb t' t then ROk (Some (LExt e)) s else RThrow bad_type_erased_type s) /\
     as_mut i t' s = RThrow (if Nat.eqb t' t then bad_type_erased_constness else bad_type_erased_type) s /\
     as_rvalue i t' s = as_mut i t' s).
  { intros t'. destruct (te_as_nonempty P Hp _ _ _ _ _ i _ n t' H Hi Hne) as (l' & t2 & v2 & Q1 & Q2 & Q3 & Q4 & Q5 & Q6).
    assert (l' = LExt e) as -> by (unfold points_to in *; congruence).
    assert (t2 = t) as -> by congruence. split; [exact Q4|]. split; [|exact Q6]. rewrite Q5. cbn.
    now destruct (Nat.eqb t' t). }
  split; [intros t'; apply Q|]. split; [intros t'; rewrite (proj2 (proj2 (Q t'))); apply Q|].
  destruct (Q t) as (Q1 & _). rewrite Nat.eqb_refl in Q1.
  apply points_iff in K1. destruct K1 as (w & Hw & Hl).
  assert (Hz : is_const (size w) = true).
  { unfold get_pointer, getw, mbind, ret, throw in K2. rewrite Hw in K2. now destruct (is_const (size w)). }
  split; [|split].
  - intros x. unfold call_mut, getw, mbind. rewrite Hw, Hl. cbn. now rewrite Hz.
  - exact Q1.
  - destruct L2 as (o & Ho & <- & <-). unfold call_const, getw, mbind. rewrite Hw, Hl. cbn.
    unfold as_const, getw, mbind, type_is in Q1. rewrite Hw in Q1. unfold vt_type.
    destruct (vt w) as [[t2 c]|]; [|discriminate]. cbn. rewrite Ho.
    destruct (Nat.eqb_spec (o_ty o) t2) as [<-|N]; [|discriminate]. eexists. reflexivity.
Qed.
Print Assumptions C24_const_access.
(** A variable that was only ever wrapped through pointers to const keeps its
    value, whatever is done with the wrappers, their copies and moves. *)
Theorem C24_const_never_modified :
  forall (V : Type) (P : settings) (ext : list (nat * V)) (os : list (op V)) rs s a e t v,
    (forall t, 0 < sizeof P t) -> reached P ext os rs s a ->
    (forall n c, In (ORef n e c) os -> c = true) ->
    nth_error ext e = Some (t, v) -> object_at s (LExt e) t v.
Proof.
  intros V P ext os rs s a e t v Hp H Hc He. apply (te_const_history P Hp ext os rs s a e t v H); auto.
  apply Forall_forall. intros [] Hin; cbn; auto. intros ->. eauto.
Qed.
Print Assumptions C24_const_never_modified.
Example C24_nonvacuous :
  exists rs s a, reached ex_P ex_ext [ORef 1 0 true; OCopy 0 None FNone; ONew 1; OMoveAssign 2 1 false; OSet 2 0 5; OCall 2 5; OTake 2 0 5] rs s a /\
    a_get a 2 = Some (ARef 0 true, 1) /\ skipn 4 rs = repeat (Thrown bad_type_erased_constness) 3.
Proof.
  edestruct ex_reached as [s H]; [| |eexists _, s, _; split; [exact H|]].
  - run_refl.
  - repeat constructor.
  - repeat split; reflexivity.
Qed.

(** ** C25 *)
(** For a wrapper that holds or refers to something. *)
Theorem C25_as_type_safe_partial :
  forall (V : Type) (P : settings) (ext : list (nat * V)) (os : list (op V)) rs s a i x n t,
    (forall t, 0 < sizeof P t) -> reached P ext os rs s a -> a_get a i = Some (x, n) -> x <> AEmpty ->
    exists l t' v, points_to s i l /\ object_at s l t' v /\ a_see a x = Some (t', v) /\
      as_const i t s = (if Nat.eqb t t' then ROk (Some l) s else RThrow bad_type_erased_type s) /\
      as_mut i t s = (if Nat.eqb t t' then if is_const_ref x then RThrow bad_type_erased_constness s else ROk (Some l) s
                      else RThrow bad_type_erased_type s) /\
      as_rvalue i t s = as_mut i t s.
Proof. intros V P ext os rs s a i x n t Hp H. exact (te_as_nonempty P Hp ext os rs s a i x n t H). Qed.
Print Assumptions C25_as_type_safe_partial.
(** For every wrapper: what as<T>() returns, if not null, is a living object of type T. *)
Theorem C25_as_sound_partial :
  forall (V : Type) (P : settings) (ext : list (nat * V)) (os : list (op V)) rs s a i t l,
    (forall t, 0 < sizeof P t) -> reached P ext os rs s a ->
    as_const i t s = ROk (Some l) s \/ as_mut i t s = ROk (Some l) s \/ as_rvalue i t s = ROk (Some l) s ->
    points_to s i l /\ exists v, object_at s l t v.
Proof. intros V P ext os rs s a i t l Hp H. exact (te_as_sound P Hp ext os rs s a i t l H). Qed.
Print Assumptions C25_as_sound_partial.
(** For default-constructed wrappers. *)
Theorem C25_default_constructed_partial :
  forall (V : Type) (P : settings) (ext : list (nat * V)) (os : list (op V)) rs s a n,
    reached P ext os rs s a ->
    exists s', perform P s (ONew n) = Next s' Done /\
      forall t, as_const (length (slots s)) t s' = RThrow bad_type_erased_type s' /\
        as_mut (length (slots s)) t s' = RThrow bad_type_erased_type s' /\
        as_rvalue (length (slots s)) t s' = RThrow bad_type_erased_type s'.
Proof. intros V P ext os rs s a n H. exact (te_as_default P ext os rs s a n H). Qed.
Print Assumptions C25_default_constructed_partial.

(** The full property: as<T>() on an empty wrapper throws bad_type_erased_type. It
    is false: a moved-from wrapper, a wrapper whose copy assignment threw, and one
    move-assigned from an empty wrapper keep their old vtable, so as<T>() returns
    a null reference, and reading it is undefined behaviour. *)
Definition C25_full_on_empty : Prop :=
  forall (P : settings) (ext : list (nat * nat)) (os : list (op nat)) rs s a i n t,
    (forall t, 0 < sizeof P t) -> reached P ext os rs s a -> a_get a i = Some (AEmpty, n) ->
    as_const i t s = RThrow bad_type_erased_type s.
Definition empty_but_readable (os : list (op nat)) (i t : nat) : Prop :=
  exists rs s a n, reached ex_P ex_ext os rs s a /\ a_get a i = Some (AEmpty, n) /\
    as_const i t s = ROk None s /\ perform ex_P s (OGet i t) = Stuck_ub.
Lemma ex_readable os i t rs a n : a_run ex_P (AState [] ex_ext) os rs a -> Forall moves_get_memory os ->
  a_get a i = Some (AEmpty, n) ->
  match run ex_P (init ex_ext) os with
  | Some (s, _) =>
      match as_const i t s, perform ex_P s (OGet i t) with ROk None _, Stuck_ub => true | _, _ => false end
  | None => false
  end = true ->
  empty_but_readable os i t.
Proof.
  intros H Hm Ha Hc. destruct (ex_reached os rs a H Hm) as [s R]. exists rs, s, a, n. split; [exact R|]. split; [exact Ha|].
  rewrite (proj2 (proj2 R)) in Hc.
  assert (K : match as_const i t s with ROk _ s' => s' = s | _ => True end).
  { unfold as_const, getw, mbind, ret, throw. destruct (nth_error (slots s) i) as [[w|]|]; auto.
    now destruct (negb (type_is w t)). }
  destruct (as_const i t s) as [[l|] s'| | | |]; try discriminate.
  destruct (perform ex_P s (OGet i t)); try discriminate. split; congruence.
Qed.
Theorem C25_empty_refuted :
  ~ C25_full_on_empty /\
  empty_but_readable [OVal false 1 0 7 FNone; OMove 0 None false] 0 0 /\
  empty_but_readable [OVal false 1 0 7 FNone; OVal false 1 1 8 FNone; OCopyAssign 0 1 FCtor] 0 1 /\
  empty_but_readable [OVal false 1 0 7 FNone; ONew 1; OMoveAssign 0 1 false] 0 0.
Proof.
  assert (W : empty_but_readable [OVal false 1 0 7 FNone; OMove 0 None false] 0 0).
  { eapply ex_readable; [run_refl|repeat constructor|reflexivity|vm_compute; reflexivity]. }
  split; [|split; [exact W|split]].
  - intros F. destruct W as (rs & s & a & n & Hr & Ha & K & _).
    specialize (F _ _ _ _ _ _ _ _ 0 ex_pos Hr Ha). rewrite K in F. discriminate.
  - eapply ex_readable; [run_refl|repeat constructor|reflexivity|vm_compute; reflexivity].
  - eapply ex_readable; [run_refl|repeat constructor|reflexivity|vm_compute; reflexivity].
Qed.
Print Assumptions C25_empty_refuted.

(** ** C26 *)
(** The copy fails: the wrapped object's copy constructor throws, or the block for
    a large object cannot be allocated. *)
Definition copy_fails_for (P : settings) (t : nat) (f : fail) : Prop :=
  f = FCtor \/ (f = FAlloc /\ sbs P < sizeof P t).
Lemma copy_fails_throws {V} (P : settings) t (v : V) f :
  copy_fails_for P t f -> copy_throws (sizeof P) (sbs P) (AOwned t v) f = true.
Proof. intros [->|[-> H]]; cbn; [reflexivity|]. now apply Nat.ltb_lt. Qed.

(** Copy assignment: the exception reaches the caller, the target is empty, all
    other wrappers and variables are unchanged, nothing is leaked, and the program
    can go on with any further operation (it is in a [reached] state). *)
Theorem C26_copy_assignment_throws :
  forall (V : Type) (P : settings) (ext : list (nat * V)) (os : list (op V)) rs s a i j xi ai t v aj f,
    (forall t, 0 < sizeof P t) -> reached P ext os rs s a ->
    a_get a i = Some (xi, ai) -> a_get a j = Some (AOwned t v, aj) -> i <> j -> copy_fails_for P t f ->
    exists s' a', perform P s (OCopyAssign i j f) = Next s' (Thrown user_exception) /\
      reached P ext (os ++ [OCopyAssign i j f]) (rs ++ [Thrown user_exception]) s' a' /\
      shows s' i AEmpty /\ shows s' j (AOwned t v) /\
      (forall k x n, k <> i -> a_get a k = Some (x, n) -> shows s' k x /\ allocator_is s' k n) /\
      (forall e t v, object_at s' (LExt e) t v <-> object_at s (LExt e) t v) /\
      wf_trace (sizeof P) (sbs P) (trace s') /\ accounted s'.
Proof.
  intros V P ext os rs s a i j xi ai t v aj f Hp H Hi Hj Hij Hf.
  pose (a' := a_put a i (Some (AEmpty, if pocca P then aj else ai))).
  assert (St : a_step P a (OCopyAssign i j f) = Some (a', Thrown user_exception)).
  { cbn [a_step]. rewrite Hi, Hj. destruct (Nat.eqb_spec i j); [contradiction|]. now rewrite copy_fails_throws. }
  destruct (te_continue P Hp ext os rs s a _ a' _ H St I) as (s' & E & H').
  exists s', a'. split; [exact E|]. split; [exact H'|].
  destruct (te_shows P Hp _ _ _ _ _ H') as [(S1 & _ & S3) _]. destruct (te_resources P Hp _ _ _ _ _ H') as [W A].
  destruct (te_shows P Hp _ _ _ _ _ H) as [(_ & _ & T3) _].
  assert (Hlt : i < length (a_ws a)).
  { unfold a_get in Hi. destruct (nth_error (a_ws a) i) eqn:Q; [|discriminate]. now apply nth_some_lt in Q. }
  assert (Gi : a_get a' i = Some (AEmpty, if pocca P then aj else ai)).
  { unfold a_get, a', a_put. cbn. now rewrite upd_same. }
  assert (Gk : forall k, k <> i -> a_get a' k = a_get a k).
  { intros k Hk. unfold a_get, a', a_put. cbn. now rewrite upd_other by auto. }
  split; [apply (S1 _ _ _ Gi)|]. split; [apply (S1 j _ aj); rewrite Gk by auto; exact Hj|].
  split; [intros k x n Hk Hx; apply S1; now rewrite Gk|].
  split; [intros e t0 v0; rewrite <- S3, <- T3; reflexivity|]. auto.
Qed.
Print Assumptions C26_copy_assignment_throws.
(** Copy construction: the new wrapper does not come into existence. *)
Theorem C26_copy_construction_throws :
  forall (V : Type) (P : settings) (ext : list (nat * V)) (os : list (op V)) rs s a j t v aj oa f,
    (forall t, 0 < sizeof P t) -> reached P ext os rs s a ->
    a_get a j = Some (AOwned t v, aj) -> copy_fails_for P t f ->
    exists s' a', perform P s (OCopy j oa f) = Next s' (Thrown user_exception) /\
      reached P ext (os ++ [OCopy j oa f]) (rs ++ [Thrown user_exception]) s' a' /\
      gone s' (length (slots s)) /\
      (forall k x n, a_get a k = Some (x, n) -> shows s' k x /\ allocator_is s' k n) /\
      (forall e t v, object_at s' (LExt e) t v <-> object_at s (LExt e) t v) /\
      wf_trace (sizeof P) (sbs P) (trace s') /\ accounted s'.
Proof.
  intros V P ext os rs s a j t v aj oa f Hp H Hj Hf.
  pose (a' := a_push a None).
  assert (St : a_step P a (OCopy j oa f) = Some (a', Thrown user_exception)).
  { cbn [a_step]. rewrite Hj. now rewrite copy_fails_throws. }
  destruct (te_continue P Hp ext os rs s a _ a' _ H St I) as (s' & E & H').
  exists s', a'. split; [exact E|]. split; [exact H'|].
  destruct (te_shows P Hp _ _ _ _ _ H') as [(S1 & S2 & S3) _]. destruct (te_resources P Hp _ _ _ _ _ H') as [W A].
  destruct (te_shows P Hp _ _ _ _ _ H) as [(_ & _ & T3) _].
  assert (L : length (slots s) = length (a_ws a)).
  { destruct (reached_inv P Hp _ _ _ _ _ H) as [[_ [R1 _]] _]. rewrite <- R1. unfold absl. now rewrite map_length. }
  split; [|split].
  - apply S2. unfold a_get, a', a_push. cbn. rewrite L, nth_error_app2 by lia. now rewrite Nat.sub_diag.
  - intros k x n Hk. apply S1. unfold a_get, a', a_push in *. cbn.
    destruct (nth_error (a_ws a) k) eqn:Q; [|discriminate]. rewrite nth_error_app1; [now rewrite Q|]. now apply nth_some_lt in Q.
  - split; [|auto]. intros e t0 v0. rewrite <- S3, <- T3. reflexivity.
Qed.
Print Assumptions C26_copy_construction_throws.
(** In the example history both kinds of failure happen, and the program goes on. *)
Example C26_nonvacuous :
  exists rs s a, reached ex_P ex_ext [OVal false 1 0 7 FNone; OVal false 1 1 8 FNone] rs s a /\
    a_get a 0 = Some (AOwned 0 7, 1) /\ a_get a 1 = Some (AOwned 1 8, 1) /\
    copy_fails_for ex_P 1 FAlloc /\ copy_fails_for ex_P 1 FCtor.
Proof.
  edestruct ex_reached as [s H]; [| |eexists _, s, _; split; [exact H|]].
  - run_refl.
  - repeat constructor.
  - split; [reflexivity|]. split; [reflexivity|]. split; [right; split; [reflexivity|cbn; lia]|now left].
Qed.
