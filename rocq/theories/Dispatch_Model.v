(** Calling methods through a TypeErased wrapper: required-method.hpp, the function
    pointers made by Launderer (type-erasure.hpp:150-190) and call (647-705).

    Simplifications: allocators and the sizes of storage are in TypeErased_Model; here
    every owned object lives in a numbered place, and [small] says which classes fit in
    the small buffer (their objects are moved to a new place when the wrapper is moved;
    the others stay where they are). Copying or moving an object copies its state.
    Nothing throws except member functions. Member functions are not overloaded, and
    defaults of optional methods call required methods only. *)
From Verif Require Import Base Dispatch_Spec.

Section Model.
Context {St A R : Type} (classes : nat -> class St A R) (slots : nat -> slot A R) (small : nat -> bool).

(** Places of objects: variables of the program, storage of wrappers (type-erasure.hpp:229, 253). *)
Inductive loc := LVar (e : nat) | LObj (k : nat).
(** Objects by place: class and state (type-erasure.hpp:617-641). *)
Definition memory := loc -> option (nat * St).
(** Comparison of places (type-erasure.hpp:253). *)
Definition loc_eqb (x y : loc) : bool :=
  match x, y with LVar a, LVar b => Nat.eqb a b | LObj a, LObj b => Nat.eqb a b | _, _ => false end.
(** An object begins, changes or ends (type-erasure.hpp:99-120). *)
Definition set_mem (m : memory) (l : loc) (x : option (nat * St)) : memory :=
  fun l' => if loc_eqb l l' then x else m l'.

(** A function pointer in a VTable: null, the laundering invoker of member function [n]
    of class [c] (type-erasure.hpp:154-158), the function that throws (171-174), or the
    default implementation of an optional method. *)
Inductive fptr := PNull | PMethod (c n : nat) | PThrow | PDefault (n : nat).
(** BasicVTable (type-erasure.hpp:126-149) with the functions a derived VTable adds:
    the class (null functions: None), const-qualified or not, and the pointers. *)
Record vtable := VT { v_class : option (nat * bool); v_fn : nat -> fptr }.

(** type_erased_wrapped<Class, Method> (type-erasure.hpp:150-196): for a const class and a
    non-const method the function that throws. *)
Definition wrapped (c : nat) (cst : bool) (n : nat) : fptr :=
  match meth (classes c) n with
  | Some (CMethod _) => PMethod c n
  | Some (MMethod _) => if cst then PThrow else PMethod c n
  | None => PNull (* does not compile *)
  end.
(** GUANAQO_TE_REQUIRED_METHOD (required-method.hpp:6-13). *)
Definition required_method (c : nat) (cst : bool) (n : nat) : fptr := wrapped c cst n.
(** GUANAQO_TE_OPTIONAL_METHOD (required-method.hpp:14-30); [old]: the member's initial
    value, the default. *)
Definition optional_method (c : nat) (cst : bool) (n : nat) (instance : St) (old : fptr) : fptr :=
  match meth (classes c) n with
  | None => old
  | Some _ =>
      match provides (classes c) n with
      | Some p => if p instance then wrapped c cst n else old
      | None => wrapped c cst n
      end
  end.
(** A VTable constructor VTable(std::in_place_t, T &t) as users write it: BasicVTable's
    (type-erasure.hpp:134-138), then one of the macros for every member. *)
Definition make_vtable (c : nat) (cst : bool) (instance : St) : vtable :=
  VT (Some (c, cst)) (fun n => match slots n with
                               | Required _ => required_method c cst n
                               | Optional _ _ => optional_method c cst n instance (PDefault n)
                               end).
(** A default-constructed VTable (type-erasure.hpp:128-132). *)
Definition empty_vtable : vtable :=
  VT None (fun n => match slots n with Required _ => PNull | Optional _ _ => PDefault n end).

(** do_invoke (type-erasure.hpp:154-158): the object at [self], laundered as class [c]. *)
Definition do_invoke (c n : nat) (self : loc) (a : A) (m : memory) : memory * outcome R :=
  match m self with
  | Some (c', st) =>
      if Nat.eqb c c' then
        match meth (classes c) n with
        | Some (CMethod f) => (m, f st a)
        | Some (MMethod f) => let (st', o) := f st a in (set_mem m self (Some (c, st')), o)
        | None => (m, UB)
        end
      else (m, UB)
  | None => (m, UB)
  end.
(** A call of a pointer to a required method (type-erasure.hpp:154-174). *)
Definition run_required (p : fptr) (self : loc) (a : A) (m : memory) : memory * outcome R :=
  match p with
  | PMethod c n => do_invoke c n self a m
  | PThrow => (m, Throw bad_type_erased_constness)
  | _ => (m, UB)
  end.
(** A default implementation: it gets self and the VTable (type-erasure.hpp:62-88, 657). *)
Fixpoint run_body (v : vtable) (self : loc) (b : body A R) (m : memory) : memory * outcome R :=
  match b with
  | BRet o => (m, o)
  | BCall n a k => let (m', o) := run_required (v_fn v n) self a m in run_body v self (k o) m'
  end.
(** f(self, args...) and f(self, args..., vtable) (type-erasure.hpp:655-658, 668-671, 680-705). *)
Definition run_fptr (v : vtable) (p : fptr) (self : loc) (a : A) (m : memory) : memory * outcome R :=
  match p with
  | PDefault n => match slots n with
                  | Optional _ dflt => run_body v self dflt m
                  | Required _ => (m, UB)
                  end
  | _ => run_required p self a m
  end.

(** size: owned, mut_ref_size or const_ref_size (type-erasure.hpp:239-250). *)
Inductive kind := KOwned | KMut | KConst.
(** type-erasure.hpp:229-256 *)
Record wrapper := Wr { self : option loc; size : kind; vt : vtable }.
(** The machine. [next]: number of the next new place (type-erasure.hpp:229-256). *)
Record world := World { mem : memory; next : nat; ws : list (option wrapper) }.

(** call (type-erasure.hpp:647-705), const and non-const overloads. *)
Definition call (w : wrapper) (n : nat) (a : A) (m : memory) : memory * outcome R :=
  match v_fn (vt w) n with
  | PNull => (m, Abort)
  | p =>
      match self w with
      | None => (m, Abort)
      | Some l =>
          if slot_const slots n then run_fptr (vt w) p l a m
          else match size w with
               | KConst => (m, Throw bad_type_erased_constness)
               | _ => run_fptr (vt w) p l a m
               end
      end
  end.

(** vtable.copy / vtable.move into a new place (type-erasure.hpp:99-113); [None]: undefined. *)
Definition vt_copy (v : vtable) (src : loc) (m : memory) (k : nat) : option memory :=
  match v_class v, m src with
  | Some (c, _), Some (c', st) => if Nat.eqb c c' then Some (set_mem m (LObj k) (Some (c, st))) else None
  | _, _ => None
  end.
(** vtable.destroy (type-erasure.hpp:114-120): terminates for a const class. *)
Definition vt_destroy (v : vtable) (l : loc) (m : memory) : option memory :=
  match v_class v, m l with
  | Some (c, false), Some (c', _) => if Nat.eqb c c' then Some (set_mem m l None) else None
  | _, _ => None
  end.
(** cleanup (type-erasure.hpp:582-589). *)
Definition cleanup (w : wrapper) (m : memory) : option memory :=
  match size w, self w with
  | KOwned, Some l => vt_destroy (vt w) l m
  | _, _ => Some m
  end.
(** do_copy_assign (type-erasure.hpp:592-612) with [vtable = other.vtable] (274, 289): the
    new content, the memory and the next place. *)
Definition copy_from (other : wrapper) (m : memory) (k : nat) : option (wrapper * memory * nat) :=
  match self other with
  | None => Some (Wr None KOwned (vt other), m, k)
  | Some l =>
      match size other with
      | KOwned => match vt_copy (vt other) l m k with
                  | Some m' => Some (Wr (Some (LObj k)) KOwned (vt other), m', S k)
                  | None => None
                  end
      | s => Some (Wr (Some l) s (vt other), m, k)
      end
  end.
(** The class of a vtable fits in the small buffer (type-erasure.hpp:305, 330, 383). *)
Definition fits (v : vtable) : bool := match v_class v with Some (c, _) => small c | None => false end.
(** Moving (type-erasure.hpp:296-317, 373-412): the new content; the other becomes empty. *)
Definition move_from (other : wrapper) (m : memory) (k : nat) : option (wrapper * memory * nat) :=
  match self other with
  | None => Some (Wr None KOwned (vt other), m, k)
  | Some l =>
      match size other with
      | KOwned =>
          if fits (vt other) then
            match vt_copy (vt other) l m k with
            | Some m' => match vt_destroy (vt other) l m' with
                         | Some m'' => Some (Wr (Some (LObj k)) KOwned (vt other), m'', S k)
                         | None => None
                         end
            | None => None
            end
          else Some (Wr (Some l) KOwned (vt other), m, k)
      | s => Some (Wr (Some l) s (vt other), m, k)
      end
  end.
(** A moved-from wrapper keeps its vtable (type-erasure.hpp:299, 312-316). *)
Definition moved_from (w : wrapper) : wrapper := Wr None KOwned (vt w).

(** What users do (type-erasure.hpp:259-705). [None]: undefined behaviour or
    termination. *)
Definition step (s : world) (o : op St A) : option (world * reply R) :=
  let get i := match nth_error (ws s) i with Some (Some w) => Some w | _ => None end in
  match o with
  | OVal c st => (* construct_inplace, object case (627-641) *)
      Some (World (set_mem (mem s) (LObj (next s)) (Some (c, st))) (S (next s))
                  (ws s ++ [Some (Wr (Some (LObj (next s))) KOwned (make_vtable c false st))]), Done)
  | ORef e cst => (* construct_inplace, pointer case (620-625) *)
      match mem s (LVar e) with
      | Some (c, st) => Some (World (mem s) (next s)
          (ws s ++ [Some (Wr (Some (LVar e)) (if cst then KConst else KMut) (make_vtable c cst st))]), Done)
      | None => None
      end
  | OCopy j =>
      match get j with
      | Some other => match copy_from other (mem s) (next s) with
                      | Some (w, m, k) => Some (World m k (ws s ++ [Some w]), Done)
                      | None => None
                      end
      | None => None
      end
  | OMove j =>
      match get j with
      | Some other => match move_from other (mem s) (next s) with
                      | Some (w, m, k) => Some (World m k (upd (ws s) j (Some (moved_from other)) ++ [Some w]), Done)
                      | None => None
                      end
      | None => None
      end
  | OCopyAssign i j =>
      match get i, get j with
      | Some w, Some other =>
          if Nat.eqb i j then Some (s, Done)
          else match cleanup w (mem s) with
               | Some m => match copy_from other m (next s) with
                           | Some (w', m', k) => Some (World m' k (upd (ws s) i (Some w')), Done)
                           | None => None
                           end
               | None => None
               end
      | _, _ => None
      end
  | OMoveAssign i j =>
      match get i, get j with
      | Some w, Some other =>
          if Nat.eqb i j then Some (s, Done)
          else match cleanup w (mem s) with
               | Some m => match self other with
                           | None => (* 373-374: the vtable stays *)
                               Some (World m (next s) (upd (ws s) i (Some (Wr None (size w) (vt w)))), Done)
                           | Some _ =>
                               match move_from other m (next s) with
                               | Some (w', m', k) => Some (World m' k (upd (upd (ws s) j (Some (moved_from other))) i (Some w')), Done)
                               | None => None
                               end
                           end
               | None => None
               end
      | _, _ => None
      end
  | ODestroy i =>
      match get i with
      | Some w => match cleanup w (mem s) with
                  | Some m => Some (World m (next s) (upd (ws s) i None), Done)
                  | None => None
                  end
      | None => None
      end
  | OCall i n a =>
      match get i with
      | Some w => let (m, o) := call w n a (mem s) in Some (World m (next s) (ws s), Result o)
      | None => None
      end
  | OVar e st =>
      match mem s (LVar e) with
      | Some (c, _) => Some (World (set_mem (mem s) (LVar e) (Some (c, st))) (next s) (ws s), Done)
      | None => None
      end
  end.
(** A history (type-erasure.hpp:259-705). *)
Fixpoint run (s : world) (os : list (op St A)) : option (world * list (reply R)) :=
  match os with
  | [] => Some (s, [])
  | o :: os' => match step s o with
                | Some (s', r) => match run s' os' with Some (s'', rs) => Some (s'', r :: rs) | None => None end
                | None => None
                end
  end.
(** Before the first wrapper: the program's variables (type-erasure.hpp:620-625). *)
Definition init (vs : list (nat * St)) : world :=
  World (fun l => match l with LVar e => nth_error vs e | LObj _ => None end) 0 [].
End Model.
