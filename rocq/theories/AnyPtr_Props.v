(** C19, C20: any_ptr and shared_any_ptr. *)
From Verif Require Import Base AnyPtr_Model AnyPtr_Proofs.

(** C19. What cast<U> must answer for a pointer [p] of static type [T]. *)
Definition exact_cast (T U : ctype) (p : option nat) (r : outcome (option nat)) : Prop :=
  (p = None -> r = Ok None) /\
  (forall a, p = Some a -> U = T -> r = Ok (Some a)) /\
  (forall a, p = Some a -> U <> T -> r = Throw bad_any_cast).

Theorem C19_any_ptr_cast :
  forall T U p, exact_cast T U p (any_cast U (any_ptr_of T p)).
Proof.
  intros T U p. rewrite any_cast_spec. repeat split.
  - now intros ->.
  - intros a -> E. now rewrite (proj2 (same_type T U) E).
  - intros a -> N. destruct (Nat.eqb (tid U) (tid T) && Bool.eqb (cst U) (cst T))%bool eqn:E; [|reflexivity].
    apply same_type in E. contradiction.
Qed.
Print Assumptions C19_any_ptr_cast.

Theorem C19_any_ptr_empty :
  forall U, any_cast U any_ptr_default = Ok None /\ any_has_value any_ptr_default = false /\ any_type any_ptr_default = tid_void /\
    any_is_immutable any_ptr_default = true.
Proof. now repeat split. Qed.
Print Assumptions C19_any_ptr_empty.

Theorem C19_any_ptr_observers :
  forall T p, any_has_value (any_ptr_of T p) = (match p with Some _ => true | None => false end) /\
    any_type (any_ptr_of T p) = tid T /\ any_is_immutable (any_ptr_of T p) = cst T.
Proof. now intros T [p|]. Qed.
Print Assumptions C19_any_ptr_observers.

(** The same for a shared_any_ptr made from a shared_ptr<T>, default
    constructed, or moved from. *)
Theorem C19_shared_any_ptr_cast :
  forall T U p, exact_cast T U (get p) (shared_cast U (shared_any_of T p)) /\
    shared_cast U (moved_from (shared_any_of T p)) = Ok None /\
    shared_cast U (HAny sptr_null tid_void true) = Ok None.
Proof. intros T U p. split; [apply (C19_any_ptr_cast T U (get p))|split; reflexivity]. Qed.
Print Assumptions C19_shared_any_ptr_cast.

Example C19_nonvacuous :
  any_cast (CType 3 false) (any_ptr_of (CType 3 false) (Some 17)) = Ok (Some 17) /\
  any_cast (CType 3 true) (any_ptr_of (CType 3 false) (Some 17)) = Throw bad_any_cast /\
  any_cast (CType 4 false) (any_ptr_of (CType 3 false) (Some 17)) = Throw bad_any_cast.
Proof. repeat split. Qed.

(** C20. After every history of handle operations, every object ever created
    has been destroyed once if no variable refers to it, and not at all if one
    does. (Every prefix of a history is a history, so destruction happens at
    the operation that removes the last reference.) Nothing is ever released
    twice or used after its block expired (the outcome is Ok, not UB). *)
Theorem C20_shared_lifetime :
  forall os, exists w, run os empty_world = Ok w /\
    forall b k, nth_error (blocks w) b = Some k ->
      (drops k = 0 /\ exists i h, nth_error (vars w) i = Some (Some h) /\ get (sp_of h) = Some b) \/
      (drops k = 1 /\ ~ exists i h, nth_error (vars w) i = Some (Some h) /\ get (sp_of h) = Some b).
Proof. exact shared_lifetime. Qed.
Print Assumptions C20_shared_lifetime.

(** A cast of a live shared_any_ptr never gives a destroyed object or one of
    another type. *)
Theorem C20_cast_never_dangles :
  forall os w i p ty c T a,
    run os empty_world = Ok w ->
    nth_error (vars w) i = Some (Some (HAny p ty c)) ->
    shared_cast T (HAny p ty c) = Ok (Some a) ->
    exists k, nth_error (blocks w) a = Some k /\ drops k = 0 /\ oty k = tid T.
Proof. exact shared_cast_safe. Qed.
Print Assumptions C20_cast_never_dangles.

(** An object outlives the shared_ptr that made it, and dies with the last
    shared_any_ptr. *)
Example C20_nonvacuous :
  let before := [MakeShared 5; AnyCopy 0; Destroy 0; MoveCtor 1; AnyDefault; CopyAssign 3 2; Destroy 2] in
  (exists w h, run before empty_world = Ok w /\ blocks w = [CBlock 1 5 0] /\
     live w 3 = Some h /\ shared_cast (CType 5 false) h = Ok (Some 0)) /\
  (exists w, run (before ++ [Destroy 1; MoveAssign 3 3; Destroy 3]) empty_world = Ok w /\ blocks w = [CBlock 0 5 1]).
Proof. cbn zeta. split; [do 2 eexists; repeat split|eexists; repeat split]. Qed.
