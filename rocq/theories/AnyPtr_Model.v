(** any-ptr.hpp: any_ptr and shared_any_ptr.
    Simplifications: a type is a number (the identity of its std::type_info,
    which ignores const) plus a const flag; volatile types do not compile and
    are left out; std::shared_ptr is modelled by its documented reference
    counting (trusted), over a heap of control blocks. *)
From Verif Require Import Base.
Local Open Scope outcome_scope.

(** The static type of a pointee: typeid(T) and std::is_const_v<T>. any-ptr.hpp:17, 50 (what the constructors record). *)
Record ctype := CType { tid : nat; cst : bool }.
(** typeid(void) any-ptr.hpp:38, 75. *)
Definition tid_void : nat := 0.

(** any-ptr.hpp 37-39, the data members and their defaults. *)
Record any_ptr := AnyPtr { ap_ptr : option nat; ap_type : nat; ap_const : bool }.
(** any-ptr.hpp 13: any_ptr() = default *)
Definition any_ptr_default : any_ptr := AnyPtr None tid_void true.
(** any-ptr.hpp 14-17: any_ptr(T *ptr) *)
Definition any_ptr_of (T : ctype) (p : option nat) : any_ptr := AnyPtr p (tid T) (cst T).
(** any-ptr.hpp 19-28: cast<T>() *)
Definition any_cast (T : ctype) (a : any_ptr) : outcome (option nat) :=
  match ap_ptr a with
  | None => Ok None
  | Some p =>
      if negb (Nat.eqb (tid T) (ap_type a)) then Throw bad_any_cast
      else if negb (Bool.eqb (cst T) (ap_const a)) then Throw bad_any_cast
      else Ok (Some p)
  end.
(** any-ptr.hpp 30-34 *)
Definition any_has_value (a : any_ptr) : bool := match ap_ptr a with Some _ => true | None => false end.
(** any-ptr.hpp:31 *)
Definition any_is_immutable (a : any_ptr) : bool := ap_const a.
(** any-ptr.hpp:32-34 *)
Definition any_type (a : any_ptr) : nat := ap_type a.

(** std::shared_ptr<T>: the control block it shares and the pointer it stores. used at any-ptr.hpp:47-50, 74. *)
Record sptr := SPtr { ctrl : option nat; get : option nat }.
(** Default-constructed shared_ptr (any-ptr.hpp:74) *)
Definition sptr_null : sptr := SPtr None None.

(** A control block with the object it manages. [drops] counts how often the
    managed object was destroyed. std::shared_ptr, used at any-ptr.hpp:74. *)
Record cblock := CBlock { refs : nat; oty : nat; drops : nat }.

(** A variable of the program: a shared_ptr<T> or a shared_any_ptr
    (any-ptr.hpp 73-76: its members are a shared_ptr<void>, a type, a flag). *)
Inductive handle :=
| HShared (T : ctype) (p : sptr)
| HAny (p : sptr) (ty : nat) (c : bool).

(** Heap of control blocks (object [i] belongs to block [i]; the address of
    object [i] is [i]) and the program's variables; [None] is a destroyed one. For histories of the operations of any-ptr.hpp:43-76. *)
Record world := World { blocks : list cblock; vars : list (option handle) }.

(** Increment the use count of the block of [p]. Copies: any-ptr.hpp:51, 53. *)
Definition acquire (p : sptr) (bs : list cblock) : outcome (list cblock) :=
  match ctrl p with
  | None => Ok bs
  | Some b => match nth_error bs b with
              | Some (CBlock (S n) t d) => Ok (upd bs b (CBlock (S (S n)) t d))
              | _ => UB   (* use count read after the block expired *)
              end
  end.
(** Decrement; the last owner destroys the object. Destruction and assignment: any-ptr.hpp:53-54, 74. *)
Definition release (p : sptr) (bs : list cblock) : outcome (list cblock) :=
  match ctrl p with
  | None => Ok bs
  | Some b => match nth_error bs b with
              | Some (CBlock 1 t d) => Ok (upd bs b (CBlock 0 t (S d)))
              | Some (CBlock (S (S n)) t d) => Ok (upd bs b (CBlock (S n) t d))
              | _ => UB
              end
  end.

(** The member ptr (any-ptr.hpp:74) or the shared_ptr itself *)
Definition sp_of (h : handle) : sptr := match h with HShared _ p => p | HAny p _ _ => p end.

(** shared_any_ptr(std::shared_ptr<T> ptr), any-ptr.hpp 46-50: the argument was
    copied or moved into the parameter [p]; the member takes over its control
    block and stores its pointer (aliasing constructor, C++20 rvalue overload). *)
Definition shared_any_of (T : ctype) (p : sptr) : handle := HAny (SPtr (ctrl p) (get p)) (tid T) (cst T).

(** A moved-from variable: the shared_ptr member is null, the other members of
    a shared_any_ptr are trivially copied (any-ptr.hpp 52, 54: = default). *)
Definition moved_from (h : handle) : handle :=
  match h with
  | HShared T _ => HShared T sptr_null
  | HAny _ ty c => HAny sptr_null ty c
  end.

(** Same static kind of variable (needed for assignment to compile). any-ptr.hpp:53-54. *)
Definition same_kind (h k : handle) : bool :=
  match h, k with
  | HShared T _, HShared U _ => Nat.eqb (tid T) (tid U) && Bool.eqb (cst T) (cst U)
  | HAny _ _ _, HAny _ _ _ => true
  | _, _ => false
  end.

(** What a program does with shared_ptrs and shared_any_ptrs (any-ptr.hpp:45-54) *)
Inductive op :=
| MakeShared (T : nat)            (* auto x = std::make_shared<T>(...) *)
| NullShared (T : ctype)          (* std::shared_ptr<T> x; *)
| ToConst (i : nat)               (* std::shared_ptr<const T> x = vars[i]; *)
| AnyDefault                      (* shared_any_ptr x; *)
| AnyCopy (i : nat)               (* shared_any_ptr x{vars[i]};  (shared_ptr) *)
| AnyMove (i : nat)               (* shared_any_ptr x{std::move(vars[i])}; *)
| CopyCtor (i : nat)              (* auto x = vars[i]; *)
| MoveCtor (i : nat)              (* auto x = std::move(vars[i]); *)
| CopyAssign (i j : nat)          (* vars[i] = vars[j]; *)
| MoveAssign (i j : nat)          (* vars[i] = std::move(vars[j]); *)
| Destroy (i : nat).              (* vars[i] goes out of scope *)

(** Operations that would not compile or name a dead variable are ignored. Not in the code: lookup for the histories over any-ptr.hpp:45-54. *)
Definition live (w : world) (i : nat) : option handle :=
  match nth_error (vars w) i with Some (Some h) => Some h | _ => None end.

(** A new variable (any-ptr.hpp:45-52) *)
Definition push (w : world) (bs : list cblock) (h : handle) : world :=
  World bs (vars w ++ [Some h]).

(** One operation (any-ptr.hpp:45-54; the lines are at the cases) *)
Definition step (o : op) (w : world) : outcome world :=
  match o with
  | MakeShared T =>
      let b := length (blocks w) in
      Ok (push w (blocks w ++ [CBlock 1 T 0]) (HShared (CType T false) (SPtr (Some b) (Some b))))
  | NullShared T => Ok (push w (blocks w) (HShared T sptr_null))
  | ToConst i =>
      match live w i with
      | Some (HShared T p) => bs <- acquire p (blocks w) ;; Ok (push w bs (HShared (CType (tid T) true) p))
      | _ => Ok w
      end
  | AnyDefault => Ok (push w (blocks w) (HAny sptr_null tid_void true))
  | AnyCopy i =>
      match live w i with
      | Some (HShared T p) => bs <- acquire p (blocks w) ;; Ok (push w bs (shared_any_of T p))
      | _ => Ok w
      end
  | AnyMove i =>
      match live w i with
      | Some (HShared T p) =>
          Ok (World (blocks w) (upd (vars w) i (Some (HShared T sptr_null)) ++ [Some (shared_any_of T p)]))
      | _ => Ok w
      end
  | CopyCtor i =>
      match live w i with
      | Some h => bs <- acquire (sp_of h) (blocks w) ;; Ok (push w bs h)
      | None => Ok w
      end
  | MoveCtor i =>
      match live w i with
      | Some h => Ok (World (blocks w) (upd (vars w) i (Some (moved_from h)) ++ [Some h]))
      | None => Ok w
      end
  | CopyAssign i j =>
      match live w i, live w j with
      | Some h, Some k =>
          if same_kind h k then
            bs <- acquire (sp_of k) (blocks w) ;;
            bs' <- release (sp_of h) bs ;;
            Ok (World bs' (upd (vars w) i (Some k)))
          else Ok w
      | _, _ => Ok w
      end
  | MoveAssign i j =>
      match live w i, live w j with
      | Some h, Some k =>
          if same_kind h k then
            if Nat.eqb i j then Ok w   (* shared_ptr(std::move(r)).swap( *this): unchanged *)
            else bs' <- release (sp_of h) (blocks w) ;;
                 Ok (World bs' (upd (upd (vars w) j (Some (moved_from k))) i (Some k)))
          else Ok w
      | _, _ => Ok w
      end
  | Destroy i =>
      match live w i with
      | Some h => bs <- release (sp_of h) (blocks w) ;; Ok (World bs (upd (vars w) i None))
      | None => Ok w
      end
  end.

(** A history of operations of any-ptr.hpp:45-54 *)
Fixpoint run (os : list op) (w : world) : outcome world :=
  match os with
  | [] => Ok w
  | o :: os' => w' <- step o w ;; run os' w'
  end.
(** Before the first operation (any-ptr.hpp:45-54) *)
Definition empty_world : world := World [] [].

(** any-ptr.hpp 56-65: shared_any_ptr::cast<T>() *)
Definition shared_cast (T : ctype) (h : handle) : outcome (option nat) :=
  match h with
  | HAny p ty c => any_cast T (AnyPtr (get p) ty c)
  | HShared _ _ => UB
  end.
