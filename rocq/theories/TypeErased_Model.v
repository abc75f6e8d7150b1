(** Model of class TypeErased (src/include/guanaqo/type-erasure.hpp).

    Simplifications: allocators are represented by a number, equal numbers being
    equal allocators (moving from an allocator leaves its value, as the standard's
    allocator requirements demand); the VTable is represented by the contained type
    and whether it was built for a const object (BasicVTable, lines 121-145; derived
    VTables only add function pointers); sizes are an exact type instead of size_t
    with three reserved values (239-250), so real objects have sizes other than the
    reserved ones; a small buffer can hold any object that fits by size (alignment
    is not modelled); moved-from objects are destroyed immediately by the class, so
    their value is not represented. Nested wrappers (an object inside a wrapper that
    itself refers to the wrapper) are not modelled. *)
From Verif Require Import Base TypeErased_Spec.

Section Model.
Context {V : Type} (P : @settings).

(** size member: object size, or one of invalid_size, mut_ref_size,
    const_ref_size (lines 239-244). *)
Inductive sz := SObj (n : nat) | SInvalid | SMut | SConst.
(** vtable: typeid(void) and null functions, or (type, built for const T)
    (lines 121-134). *)
Definition vtab := option (nat * bool).

(** type-erasure.hpp:229-256 *)
Record wrapper := Wr { self : option loc; size : sz; vt : vtab; al : nat }.
(** Memory from allocator.allocate (type-erasure.hpp:338, 394, 564) *)
Record block := Blk { b_size : nat; b_alloc : nat; b_live : bool }.
(** An object of a wrapped type (type-erasure.hpp:617-641) *)
Record obj := Obj { o_id : nat; o_ty : nat; o_val : V }.

(** The machine: heap blocks, objects by place, wrappers (None: destroyed) and
    the trace of events so far. For type-erasure.hpp:229-256. *)
Record world := World {
  blocks : list block;
  objs : loc -> option obj;
  next : nat;
  slots : list (option wrapper);
  trace : list event
}.

(** Result of running code. [RAssert]: a failed assert, [RTerm]: std::terminate
    (an exception leaves a noexcept function, or the const branch of lines 103-104,
    112-113), [RUB]: undefined behaviour. *)
Inductive res (A : Type) :=
| ROk (a : A) (s : world)
| RThrow (e : exn) (s : world)
| RAssert
| RTerm
| RUB.
Arguments ROk {A}. Arguments RThrow {A}. Arguments RAssert {A}. Arguments RTerm {A}. Arguments RUB {A}.

(** Not in the code: the effect of the functions of type-erasure.hpp:99-705 on the machine *)
Definition M (A : Type) := world -> res A.
(** Not in the code: see M (type-erasure.hpp:99-705) *)
Definition ret {A} (a : A) : M A := fun s => ROk a s.
(** Sequencing; exceptions and errors end the function (type-erasure.hpp:99-705) *)
Definition mbind {A B} (m : M A) (f : A -> M B) : M B := fun s =>
  match m s with
  | ROk a s' => f a s'
  | RThrow e s' => RThrow e s'
  | RAssert => RAssert | RTerm => RTerm | RUB => RUB
  end.
Notation "x <- m ;; k" := (mbind m (fun x => k)) (at level 61, m at next level, right associativity).
Notation "m ;; k" := (mbind m (fun _ => k)) (at level 61, right associativity).
(** throw, e.g. type-erasure.hpp:497-529 *)
Definition throw {A} (e : exn) : M A := fun s => RThrow e s.
(** Undefined behaviour, e.g. calling a null function pointer (type-erasure.hpp:140-147) *)
Definition ub {A} : M A := fun _ => RUB.
(** std::terminate, type-erasure.hpp:106-120 (noexcept) and 296-412 *)
Definition terminate {A} : M A := fun _ => RTerm.
(** assert, type-erasure.hpp:559-573, 650-663 *)
Definition assert (b : bool) : M unit := if b then ret tt else fun _ => RAssert.
(** A local RAII guard: run [g] when an exception passes, then continue it. type-erasure.hpp:543-552, 629. *)
Definition on_throw {A} (m : M A) (g : M unit) : M A := fun s =>
  match m s with
  | RThrow e s' => match g s' with
                   | ROk _ s'' => RThrow e s''
                   | RThrow _ _ => RTerm
                   | RAssert => RAssert | RTerm => RTerm | RUB => RUB
                   end
  | r => r
  end.
(** noexcept functions. type-erasure.hpp:296, 319, 361. *)
Definition noexcept {A} (m : M A) : M A := fun s =>
  match m s with RThrow _ _ => RTerm | r => r end.

(** Comparison of addresses (type-erasure.hpp:253) *)
Definition loc_eqb (x y : loc) : bool :=
  match x, y with
  | LHeap a, LHeap b => Nat.eqb a b
  | LSmall a, LSmall b => Nat.eqb a b
  | LExt a, LExt b => Nat.eqb a b
  | _, _ => false
  end.
(** Not in the code: objects begin and end at places (type-erasure.hpp:99-120) *)
Definition set_obj (f : loc -> option obj) (l : loc) (x : option obj) : loc -> option obj :=
  fun l' => if loc_eqb l l' then x else f l'.

(** ** The C++ machine (language and allocator rules, not guanaqo code) *)

(** Allocator: allocate / deallocate. type-erasure.hpp:338, 394, 564. *)
Definition malloc (a n : nat) (fails : bool) : M loc := fun s =>
  if fails then RThrow user_exception s
  else let b := length (blocks s) in
       ROk (LHeap b) (World (blocks s ++ [Blk n a true]) (objs s) (next s) (slots s) (trace s ++ [EAlloc b n a])).
(** Needs a live block, the same size and an equal allocator, and no object left
    inside (that would lose the object). type-erasure.hpp:401, 576. *)
Definition mfree (a : nat) (l : option loc) (n : nat) : M unit := fun s =>
  match l with
  | Some (LHeap b) =>
      match nth_error (blocks s) b with
      | Some (Blk n' a' true) =>
          if Nat.eqb n n' && Nat.eqb a a' then
            match objs s (LHeap b) with
            | None => ROk tt (World (upd (blocks s) b (Blk n' a' false)) (objs s) (next s) (slots s)
                                    (trace s ++ [EFree b n a]))
            | Some _ => RUB
            end
          else RUB
      | _ => RUB
      end
  | _ => RUB
  end.
(** Is [l] storage for an object of [n] bytes?. type-erasure.hpp:229, 563-564. *)
Definition storage_ok (s : world) (l : loc) (n : nat) : bool :=
  match l with
  | LHeap b => match nth_error (blocks s) b with Some (Blk m _ true) => Nat.leb n m | _ => false end
  | LSmall i => match nth_error (slots s) i with Some (Some _) => Nat.leb n (sbs P) | _ => false end
  | LExt _ => false
  end.
(** new (l) T(v); [fails]: the constructor throws (after that there is no object). type-erasure.hpp:103, 112, 632-636. *)
Definition ctor (l : loc) (t : nat) (v : V) (fails : bool) : M unit := fun s =>
  if storage_ok s l (sizeof P t) then
    match objs s l with
    | Some _ => RUB
    | None =>
        if fails then RThrow user_exception s
        else ROk tt (World (blocks s) (set_obj (objs s) l (Some (Obj (next s) t v))) (S (next s)) (slots s)
                           (trace s ++ [ECtor (next s) l t]))
    end
  else RUB.
(** Use of the object of type [t] at [l]: it must exist and have that type. type-erasure.hpp:103, 112, 158. *)
Definition use (ev : nat -> event) (t : nat) (l : option loc) : M V := fun s =>
  match l with
  | None => RUB
  | Some l =>
      match objs s l with
      | Some o => if Nat.eqb (o_ty o) t
                  then ROk (o_val o) (World (blocks s) (objs s) (next s) (slots s) (trace s ++ [ev (o_id o)]))
                  else RUB
      | None => RUB
      end
  end.
(** A non-const method of the wrapped object (type-erasure.hpp:660-671) *)
Definition write (t : nat) (l : option loc) (v : V) : M unit := fun s =>
  match l with
  | None => RUB
  | Some l =>
      match objs s l with
      | Some o => if Nat.eqb (o_ty o) t
                  then ROk tt (World (blocks s) (set_obj (objs s) l (Some (Obj (o_id o) t v))) (next s) (slots s)
                                     (trace s ++ [EWrite (o_id o)]))
                  else RUB
      | None => RUB
      end
  end.
(** std::destroy_at. type-erasure.hpp:119. *)
Definition dtor (t : nat) (l : option loc) : M unit := fun s =>
  match l with
  | None => RUB
  | Some l =>
      match objs s l with
      | Some o => if Nat.eqb (o_ty o) t
                  then ROk tt (World (blocks s) (set_obj (objs s) l None) (next s) (slots s)
                                     (trace s ++ [EDtor (o_id o)]))
                  else RUB
      | None => RUB
      end
  end.

(** Storage of a wrapper begins / ends. type-erasure.hpp:259-320. *)
Definition new_slot (w : wrapper) : M nat := fun s =>
  let i := length (slots s) in
  ROk i (World (blocks s) (objs s) (next s) (slots s ++ [Some w]) (trace s ++ [EBegin i])).
(** type-erasure.hpp:417 *)
Definition kill_slot (i : nat) : M unit := fun s =>
  match nth_error (slots s) i with
  | Some (Some _) =>
      match objs s (LSmall i) with
      | None => ROk tt (World (blocks s) (objs s) (next s) (upd (slots s) i None) (trace s ++ [EEnd i]))
      | Some _ => RUB
      end
  | _ => RUB
  end.
(** Members of a wrapper. Using a destroyed wrapper is undefined. type-erasure.hpp:229-256. *)
Definition getw (i : nat) : M wrapper := fun s =>
  match nth_error (slots s) i with Some (Some w) => ROk w s | _ => RUB end.
(** type-erasure.hpp:229-256 *)
Definition setw (i : nat) (w : wrapper) : M unit := fun s =>
  match nth_error (slots s) i with
  | Some (Some _) => ROk tt (World (blocks s) (objs s) (next s) (upd (slots s) i (Some w)) (trace s))
  | _ => RUB
  end.
(** self = ..., e.g. type-erasure.hpp:307 *)
Definition set_self (i : nat) (p : option loc) : M unit :=
  w <- getw i ;; setw i (Wr p (size w) (vt w) (al w)).
(** size = ..., e.g. type-erasure.hpp:316 *)
Definition set_size (i : nat) (z : sz) : M unit :=
  w <- getw i ;; setw i (Wr (self w) z (vt w) (al w)).
(** vtable = ..., e.g. type-erasure.hpp:290 *)
Definition set_vt (i : nat) (x : vtab) : M unit :=
  w <- getw i ;; setw i (Wr (self w) (size w) x (al w)).
(** allocator = ..., type-erasure.hpp:291-293, 365-372 *)
Definition set_al (i : nat) (a : nat) : M unit :=
  w <- getw i ;; setw i (Wr (self w) (size w) (vt w) a).

(** ** VTable functions (lines 97-118, 136-144). A null function pointer is UB. *)
Definition vt_copy (x : vtab) (src dst : option loc) (fails : bool) : M unit :=
  match x, dst with
  | Some (t, _), Some d => v <- use ECopy t src ;; ctor d t v fails
  | _, _ => ub
  end.
(** type-erasure.hpp:106-113, 143-145 *)
Definition vt_move (x : vtab) (src dst : option loc) : M unit :=
  match x, dst with
  | Some (t, c), Some d => if c then terminate else v <- use EMove t src ;; ctor d t v false
  | _, _ => ub
  end.
(** type-erasure.hpp:114-120, 146-148 *)
Definition vt_destroy (x : vtab) (p : option loc) : M unit :=
  match x with
  | Some (t, c) => if c then terminate else dtor t p
  | None => ub
  end.

(** ** TypeErased *)

(** size_indicates_ownership (245-247), owns_referenced_object (474-476) *)
Definition owns (z : sz) : bool := match z with SConst | SMut => false | _ => true end.
(** size_indicates_const (248-250), referenced_object_is_const (479-481) *)
Definition is_const (z : sz) : bool := match z with SConst => true | _ => false end.
(** size > small_buffer_size; the reserved values are larger than any buffer. type-erasure.hpp:330, 383, 575. *)
Definition gt_sbs (z : sz) : bool := match z with SObj n => Nat.ltb (sbs P) n | _ => true end.
(** self == nullptr, type-erasure.hpp:322, 373 *)
Definition is_null (p : option loc) : bool := match p with None => true | Some _ => false end.
(** size != invalid_size && size > 0, type-erasure.hpp:560-562, 571-573 *)
Definition sz_valid (z : sz) : bool := match z with SObj n => Nat.ltb 0 n | _ => false end.

(** allocator.allocate(size) with the size_t value [z]. type-erasure.hpp:338, 394, 564. *)
Definition alloc_raw (a : nat) (z : sz) (fails : bool) : M loc :=
  match z with SObj n => malloc a n fails | _ => ub end.
(** type-erasure.hpp:401, 576 *)
Definition dealloc_raw (a : nat) (p : option loc) (z : sz) : M unit :=
  match z with SObj n => mfree a p n | _ => ub end.

(** allocate (558-567); the guard it returns is [deallocate] in [on_throw] *)
Definition allocate (i : nat) (z : sz) (fails : bool) : M unit :=
  w <- getw i ;;
  assert (is_null (self w)) ;;
  assert (sz_valid z) ;;
  p <- (if gt_sbs z then alloc_raw (al w) z fails else ret (LSmall i)) ;;
  set_self i (Some p) ;;
  set_size i z.
(** deallocate (570-578) *)
Definition deallocate (i : nat) : M unit :=
  w <- getw i ;;
  assert (sz_valid (size w)) ;;
  (if gt_sbs (size w) then dealloc_raw (al w) (self w) (size w) else ret tt) ;;
  set_self i None.
(** cleanup (582-589) *)
Definition cleanup (i : nat) : M unit :=
  w <- getw i ;;
  if negb (owns (size w)) then set_self i None
  else if is_null (self w) then ret tt
  else vt_destroy (vt w) (self w) ;; deallocate i.
(** What the environment does in this call: the copy constructor throws (type-erasure.hpp:609) *)
Definition copy_fails (f : fail) : bool := match f with FCtor => true | _ => false end.
(** What the environment does in this call: the allocation throws (type-erasure.hpp:338, 394, 564) *)
Definition alloc_fails (f : fail) : bool := match f with FAlloc => true | _ => false end.
(** What the environment does in this call: VTable{std::in_place, ...} throws (type-erasure.hpp:623, 638) *)
Definition vtable_fails (f : fail) : bool := match f with FVtable => true | _ => false end.
(** do_copy_assign (592-612) *)
Definition do_copy_assign (copy_allocator : bool) (i j : nat) (f : fail) : M unit :=
  other <- getw j ;;
  (if copy_allocator && pocca P then set_al i (al other) else ret tt) ;;
  if is_null (self other) then ret tt
  else if negb (owns (size other)) then
    set_size i (size other) ;; set_self i (self other)
  else
    allocate i (size other) (alloc_fails f) ;;
    on_throw (me <- getw i ;; vt_copy (vt me) (self other) (self me) (copy_fails f)) (deallocate i).
(** construct_inplace (616-642), object case *)
Definition construct_value (i t : nat) (v : V) (f : fail) : M unit :=
  allocate i (SObj (sizeof P t)) (alloc_fails f) ;;
  on_throw
    (me <- getw i ;;
     match self me with
     | None => ub
     | Some p => ctor p t v (copy_fails f)
     end ;;
     (* destroyer obj_guard (630-637): destroys the object if VTable{...} throws *)
     on_throw (if vtable_fails f then throw user_exception else set_vt i (Some (t, false)))
              (dtor t (self me)))
    (deallocate i).
(** construct_inplace (618-623), pointer case: pointer to variable [e] of type [t] *)
Definition construct_ref (i e t : nat) (c : bool) : M unit :=
  set_size i (if c then SConst else SMut) ;;
  set_vt i (Some (t, c)) ;;
  set_self i (Some (LExt e)).

(** Default constructor (260-264) *)
Definition empty_wrapper (a : nat) : wrapper := Wr None SInvalid None a.

(** Constructors that can throw: if the body throws, the wrapper never exists. type-erasure.hpp:267-280, 420-447. *)
Definition constructing (w : wrapper) (body : nat -> M unit) : M unit :=
  i <- new_slot w ;; on_throw (body i) (kill_slot i).
(** Destructor (417): cleanup, then the storage is gone. *)
Definition destroy (i : nat) : M unit := cleanup i ;; kill_slot i.
(** Constructors by value / in place (422-446) and make (451-466, which runs the
    destructor of the fully constructed [r] when construct_inplace throws). *)
Definition construct_by_value (via_make : bool) (a t : nat) (v : V) (f : fail) : M unit :=
  if via_make then
    r <- new_slot (empty_wrapper a) ;; on_throw (construct_value r t v f) (destroy r)
  else constructing (empty_wrapper a) (fun i => construct_value i t v f).
(** Constructor from a pointer (same constructors, pointer T) type-erasure.hpp:420-447, 620-625. *)
Definition construct_by_pointer (a e t : nat) (c : bool) : M unit :=
  constructing (empty_wrapper a) (fun i => construct_ref i e t c).
(** Copy constructors (267-281) *)
Definition copy_construct (j : nat) (oa : option nat) (f : fail) : M unit :=
  other <- getw j ;;
  constructing (Wr None SInvalid (vt other) (match oa with Some a => a | None => select P (al other) end))
               (fun i => do_copy_assign false i j f).
(** Copy assignment (284-293) *)
Definition copy_assign (i j : nat) (f : fail) : M unit :=
  if Nat.eqb i j then ret tt
  else cleanup i ;; other <- getw j ;; set_vt i (vt other) ;; do_copy_assign true i j f.

(** self = small_buffer.data(); vtable.move(other.self, self);
    vtable.destroy(other.self); other.self = nullptr (309-312, 345-350, 406-409) *)
Definition move_small (i j : nat) : M unit :=
  set_self i (Some (LSmall i)) ;;
  me <- getw i ;;
  other <- getw j ;;
  vt_move (vt me) (self other) (self me) ;;
  vt_destroy (vt me) (self other) ;;
  set_self j None.
(** self = std::exchange(other.self, nullptr) type-erasure.hpp:307, 327, 333, 380, 389. *)
Definition steal (i j : nat) : M unit :=
  other <- getw j ;; set_self j None ;; set_self i (self other).

(** Move constructor (296-317) *)
Definition move_construct (j : nat) : M unit :=
  noexcept (
    other <- getw j ;;
    i <- new_slot (Wr None SInvalid (vt other) (al other)) ;;
    set_size i (size other) ;;
    (if negb (owns (size other)) || gt_sbs (size other) then steal i j
     else if is_null (self other) then ret tt
     else move_small i j) ;;
    set_size j SInvalid).
(** Move constructor with allocator (319-354) *)
Definition move_construct_alloc (j a : nat) (fails : bool) : M unit :=
  noexcept (
    other <- getw j ;;
    i <- new_slot (Wr None SInvalid (vt other) a) ;;
    if is_null (self other) then ret tt
    else
      set_size i (size other) ;;
      (if negb (owns (size other)) then steal i j
       else if gt_sbs (size other) then
         if Nat.eqb a (al other) then steal i j
         else
           p <- alloc_raw a (size other) fails ;;
           set_self i (Some p) ;;
           me <- getw i ;;
           vt_move (vt me) (self other) (self me) ;;
           vt_destroy (vt me) (self other) ;;
           deallocate j
       else if is_null (self other) then ret tt
       else move_small i j) ;;
      set_size j SInvalid).
(** Move assignment (361-414) *)
Definition move_assign (i j : nat) (fails : bool) : M unit :=
  noexcept (
    if Nat.eqb i j then ret tt
    else
      cleanup i ;;
      other <- getw j ;;
      (if pocma P then set_al i (al other) else ret tt) ;;
      if is_null (self other) then ret tt
      else
        set_size i (size other) ;;
        set_vt i (vt other) ;;
        me0 <- getw i ;;
        (if negb (owns (size other)) then steal i j
         else if gt_sbs (size other) then
           if pocma P || Nat.eqb (al me0) (al other) then steal i j
           else
             p <- alloc_raw (al me0) (size other) fails ;;
             set_self i (Some p) ;;
             me <- getw i ;;
             vt_move (vt me) (self other) (self me) ;;
             vt_destroy (vt me) (self other) ;;
             dealloc_raw (if pocma P then al me else al other) (self other) (size me) ;;
             set_self j None
         else if is_null (self other) then ret tt
         else move_small i j) ;;
        set_size j SInvalid).

(** type() (487-489) as compared by as<T>(): typeid(T) != type() *)
Definition type_is (w : wrapper) (t : nat) : bool :=
  match vt w with Some (t', _) => Nat.eqb t t' | None => false end.
(** as<T>() & for non-const T (494-502) *)
Definition as_mut (i t : nat) : M (option loc) :=
  w <- getw i ;;
  if negb (type_is w t) then throw bad_type_erased_type
  else if is_const (size w) then throw bad_type_erased_constness
  else ret (self w).
(** as<const T>() const & (504-510) *)
Definition as_const (i t : nat) : M (option loc) :=
  w <- getw i ;; if negb (type_is w t) then throw bad_type_erased_type else ret (self w).
(** as<T>() && (512-520), non-const T *)
Definition as_rvalue (i t : nat) : M (option loc) :=
  w <- getw i ;;
  if negb (type_is w t) then throw bad_type_erased_type
  else if is_const (size w) then throw bad_type_erased_constness
  else ret (self w).
(** get_pointer (526-530) and get_const_pointer (532) *)
Definition get_pointer (i : nat) : M (option loc) :=
  w <- getw i ;; if is_const (size w) then throw bad_type_erased_constness else ret (self w).
(** type-erasure.hpp:532 *)
Definition get_const_pointer (i : nat) : M (option loc) :=
  w <- getw i ;; ret (self w).
(** call (647-705): the function pointers come from the vtable, so they are made
    for the vtable's type. [call_const] models the overloads for const methods
    with a method that reads the object, [call_mut] the others with a method that
    assigns to it. *)
Definition vt_type (w : wrapper) : M nat := match vt w with Some (t, _) => ret t | None => ub end.
(** type-erasure.hpp:648-657 *)
Definition call_const (i : nat) : M V :=
  w <- getw i ;; assert (negb (is_null (self w))) ;; t <- vt_type w ;; use ERead t (self w).
(** type-erasure.hpp:660-671 *)
Definition call_mut (i : nat) (v : V) : M unit :=
  w <- getw i ;; assert (negb (is_null (self w))) ;;
  if is_const (size w) then throw bad_type_erased_constness
  else t <- vt_type w ;; write t (self w) v.

(** ** One user operation. Not in the code: an operation without result (type-erasure.hpp:259-705). *)
Definition ok {A} (m : M A) : M (reply V) := m ;; ret Done.
(** What users do (type-erasure.hpp:259-705) *)
Definition step (o : op V) : M (reply V) :=
  match o with
  | ONew a => ok (new_slot (empty_wrapper a))
  | OVal mk a t v f => ok (construct_by_value mk a t v f)
  | ORef a e c => fun s =>
      match objs s (LExt e) with
      | Some ob => ok (construct_by_pointer a e (o_ty ob) c) s
      | None => RUB
      end
  | OCopy j oa f => ok (copy_construct j oa f)
  | OMove j None _ => ok (move_construct j)
  | OMove j (Some a) f => ok (move_construct_alloc j a f)
  | OCopyAssign i j f => ok (copy_assign i j f)
  | OMoveAssign i j f => ok (move_assign i j f)
  | ODestroy i => ok (destroy i)
  | OGet i t => p <- as_const i t ;; v <- use ERead t p ;; ret (Value v)
  | OSet i t v => p <- as_mut i t ;; ok (write t p v)
  | OTake i t v => p <- as_rvalue i t ;; v0 <- use ERead t p ;; write t p v ;; ret (Value v0)
  | OCallConst i => v <- call_const i ;; ret (Value v)
  | OCall i v => ok (call_mut i v)
  end.

(** The program catches every exception and goes on. type-erasure.hpp:259-705. *)
Inductive outcome := Next (s : world) (r : reply V) | Stuck_assert | Stuck_terminate | Stuck_ub.
(** type-erasure.hpp:259-705 *)
Definition perform (s : world) (o : op V) : outcome :=
  match step o s with
  | ROk r s' => Next s' r
  | RThrow e s' => Next s' (Thrown e)
  | RAssert => Stuck_assert
  | RTerm => Stuck_terminate
  | RUB => Stuck_ub
  end.
(** A history (type-erasure.hpp:259-705) *)
Fixpoint run (s : world) (os : list (op V)) : option (world * list (reply V)) :=
  match os with
  | [] => Some (s, [])
  | o :: os' =>
      match perform s o with
      | Next s' r => match run s' os' with Some (s'', rs) => Some (s'', r :: rs) | None => None end
      | _ => None
      end
  end.

(** Initially: the program's variables (objects 0, 1, ...), no wrappers, no blocks. *)
Fixpoint ctor_events (k : nat) (ext : list (nat * V)) : list event :=
  match ext with [] => [] | (t, _) :: ext' => ECtor k (LExt k) t :: ctor_events (S k) ext' end.
(** Before the first wrapper; [ext]: the objects that are wrapped by reference (type-erasure.hpp:620-625) *)
Definition init (ext : list (nat * V)) : world :=
  World [] (fun l => match l with
                     | LExt e => match nth_error ext e with Some (t, v) => Some (Obj e t v) | None => None end
                     | _ => None end)
        (length ext) [] (ctor_events 0 ext).
End Model.
Arguments ROk {V A}. Arguments RThrow {V A}. Arguments RAssert {V A}. Arguments RTerm {V A}. Arguments RUB {V A}.
Arguments Next {V}. Arguments Stuck_assert {V}. Arguments Stuck_terminate {V}. Arguments Stuck_ub {V}.
