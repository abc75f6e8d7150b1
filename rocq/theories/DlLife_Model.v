(** Lifetimes of dynamically loaded libraries, /repo/src/src/dl.cpp (both branches) and
    dl-flags.cpp: programs that load libraries, copy and drop the shared_ptrs they get, and
    look up functions.

    Simplifications: the loader is its documented reference counting (dlopen/LoadLibrary
    count up, dlclose/FreeLibrary down, unmapped at zero unless RTLD_NODELETE was given
    once); std::shared_ptr is its documented reference counting; a library is a number and
    always has the same handle; dependencies between libraries are not modelled; the loader
    leaves an error exactly if it returns a null pointer. *)
From Verif Require Import Base Dl_Model.
Local Open Scope outcome_scope.

(** The loader: reference counts, libraries that are never unmapped, and how often each
    library has been unmapped (functions of an earlier mapping are gone). Used by dl.cpp:28-65. *)
Record loader := Loader { refs : nat -> nat; pinned : nat -> bool; unmaps : nat -> nat }.
(** A library is in memory. Used by dl.cpp:28-65. *)
Definition mapped (ld : loader) (l : nat) : bool := Nat.ltb 0 (refs ld l) || pinned ld l.
(** Function update, for the tables of [loader]. Used by dl.cpp:28-65. *)
Definition put {A} (f : nat -> A) (k : nat) (x : A) : nat -> A := fun i => if Nat.eqb i k then x else f i.
(** dlopen (dl.cpp:52) and LoadLibraryW (dl.cpp:31), successful. [fl] is the second argument
    of dlopen. *)
Definition open_lib (fl : Z) (l : nat) (ld : loader) : loader :=
  Loader (put (refs ld) l (S (refs ld l))) (put (pinned ld) l (pinned ld l || negb (Z.land fl RTLD_NODELETE =? 0)%Z)) (unmaps ld).
(** dlclose (dl.cpp:55), FreeLibrary (dl.cpp:36). *)
Definition close_lib (l : nat) (ld : loader) : outcome loader :=
  match refs ld l with
  | O => UB
  | S n => Ok (Loader (put (refs ld) l n) (pinned ld)
                      (if Nat.eqb n 0 && negb (pinned ld l) then put (unmaps ld) l (S (unmaps ld l)) else unmaps ld))
  end.

(** A control block of std::shared_ptr<void>: the handle for its deleter and the use count;
    None: destroyed. dl.cpp:35-36, 55 *)
Definition block := option (nat * nat).
(** The program: loader, control blocks, its variables of type shared_ptr<void> (None: empty)
    and function pointers (library and the number of unmaps when it was looked up). dl.cpp:28-65 *)
Record world := World { ld : loader; blocks : list block; vars : list (option nat); fps : list (option (nat * nat)) }.

(** shared_ptr: one owner less; the last one calls the deleter, dl.cpp:36, 55. *)
Definition release (c : option nat) (w : world) : outcome world :=
  match c with
  | None => Ok w
  | Some c =>
      match nth_error (blocks w) c with
      | Some (Some (l, S O)) => ld' <- close_lib l (ld w) ;; Ok (World ld' (upd (blocks w) c None) (vars w) (fps w))
      | Some (Some (l, S (S n))) => Ok (World (ld w) (upd (blocks w) c (Some (l, S n))) (vars w) (fps w))
      | _ => UB
      end
  end.
(** Assignment of a shared_ptr that has been acquired: the old value is released. dl.cpp:35, 55 *)
Definition assign (x : nat) (new : option nat) (w : world) : outcome world :=
  match nth_error (vars w) x with
  | Some old => release old (World (ld w) (blocks w) (upd (vars w) x new) (fps w))
  | None => UB
  end.

(** load_lib: on POSIX by [Dl_Model.load_lib] (dl.cpp:48-56), on Windows by the null check
    (dl.cpp:28-37; the flags are not used). The handle of library l is l. *)
Definition load (windows : bool) (l : nat) (found : bool) (f : flags) (w : world) : outcome (world * nat) :=
  let reply := if found then Reply (Some l) None else Reply None (Some l) in
  h <- (if windows then match handle reply with None => Throw dynamic_load_error | Some h => Ok (Some h) end
        else fst (fst (load_lib false reply None))) ;;
  match h with
  | Some l => Ok (World (open_lib (if windows then 0%Z else flags_to_int f) l (ld w)) (blocks w ++ [Some (l, 1)]) (vars w) (fps w), length (blocks w))
  | None => UB
  end.

(** What a program does. [x = load_lib(l, f)], [x = y], [x.reset()] (and leaving a scope),
    [p = load_func(x.get(), name)]. dl.cpp:28-65 *)
Inductive op :=
| Load (x l : nat) (found : bool) (f : flags)
| Copy (x y : nat)
| Reset (x : nat)
| Func (p x : nat) (found : bool).

(** One operation, exceptions caught by the program. dl.cpp:28-37, 39-46, 48-66 *)
Definition step (windows : bool) (o : op) (w : world) : outcome world :=
  match o with
  | Load x l found f =>
      match load windows l found f w with
      | Ok (w', c) => assign x (Some c) w'
      | Throw _ => Ok w
      | Abort => Abort
      | UB => UB
      end
  | Copy x y =>
      match nth_error (vars w) y with
      | Some None => assign x None w
      | Some (Some c) =>
          match nth_error (blocks w) c with
          | Some (Some (l, n)) => assign x (Some c) (World (ld w) (upd (blocks w) c (Some (l, S n))) (vars w) (fps w))
          | _ => UB
          end
      | None => UB
      end
  | Reset x => assign x None w
  | Func p x found =>
      match nth_error (vars w) x with
      | Some None => Abort
      | Some (Some c) =>
          match nth_error (blocks w) c with
          | Some (Some (l, _)) =>
              if negb found then Ok w
              else if mapped (ld w) l then Ok (World (ld w) (blocks w) (vars w) (upd (fps w) p (Some (l, unmaps (ld w) l))))
              else UB
          | _ => UB
          end
      | None => UB
      end
  end.
(** A history. dl.cpp:28-66 *)
Fixpoint run (windows : bool) (os : list op) (w : world) : outcome world :=
  match os with [] => Ok w | o :: os => w <- step windows o w ;; run windows os w end.
(** The program starts with nv empty variables; ext l is how often library l has been loaded
    by others. dl.cpp:28-66 *)
Definition initial (ext : nat -> nat) (nv nf : nat) : world :=
  World (Loader ext (fun _ => false) (fun _ => 0)) [] (repeat None nv) (repeat None nf).
