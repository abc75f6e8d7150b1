(** What a user can observe of the wrappers in a state of the machine, in terms
    of the public accessors. *)
From Verif Require Import Base TypeErased_Spec TypeErased_Model.

Section Obs.
Context {V : Type} (P : @settings).
Notation world := (@world V).

(** A program with variables [ext] has performed the operations [os] (catching the
    exceptions it got), its moves got the memory they needed, and it is now in
    state [s]; [a] is what the value semantics says after the same history. *)
Definition reached (ext : list (nat * V)) (os : list (op V)) (rs : list (reply V)) (s : world) (a : astate V) : Prop :=
  a_run P (AState [] ext) os rs a /\ Forall moves_get_memory os /\ run P (init ext) os = Some (s, rs).

(** Wrapper [i] refers to the object at [l] (get_const_pointer). *)
Definition points_to (s : world) (i : nat) (l : loc) : Prop := get_const_pointer i s = ROk (Some l) s.
(** An object of type [t] with value [v] lives at [l]. *)
Definition object_at (s : world) (l : loc) (t : nat) (v : V) : Prop :=
  exists o, objs s l = Some o /\ o_ty o = t /\ o_val o = v.

(** Wrapper [i] shows the content [x]. *)
Definition shows (s : world) (i : nat) (x : aval V) : Prop :=
  match x with
  | AEmpty => get_const_pointer i s = ROk None s
  | AOwned t v =>
      exists l, points_to s i l /\ object_at s l t v /\
        (l = LSmall i \/ exists b, l = LHeap b) /\ get_pointer i s = ROk (Some l) s
  | ARef e c =>
      points_to s i (LExt e) /\
      get_pointer i s = (if c then RThrow bad_type_erased_constness s else ROk (Some (LExt e)) s)
  end.
(** Wrapper [i] does not exist (never constructed, destroyed, or its constructor threw). *)
Definition gone (s : world) (i : nat) : Prop :=
  match nth_error (slots s) i with Some (Some _) => False | _ => True end.
(** get_allocator() *)
Definition allocator_is (s : world) (i a : nat) : Prop :=
  exists w, nth_error (slots s) i = Some (Some w) /\ al w = a.

(** The whole state shows the abstract state [a]. *)
Definition shows_all (s : world) (a : astate V) : Prop :=
  (forall i x n, a_get a i = Some (x, n) -> shows s i x /\ allocator_is s i n) /\
  (forall i, a_get a i = None -> gone s i) /\
  (forall e t v, nth_error (a_ext a) e = Some (t, v) <-> object_at s (LExt e) t v).

(** Nothing is lost: each block and each object that is alive according to the
    trace is referred to by a wrapper, except for the program's own variables. *)
Definition accounted (s : world) : Prop :=
  (forall b n a, block_alive (trace s) b n a -> exists i, points_to s i (LHeap b)) /\
  (forall o l t, obj_alive (trace s) o l t -> (exists e, l = LExt e) \/ exists i, points_to s i l).
(** No two wrappers share an owned object. *)
Definition unshared (s : world) : Prop :=
  forall i j l, points_to s i l -> points_to s j l -> i = j \/ exists e, l = LExt e.
End Obs.
