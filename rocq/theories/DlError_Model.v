(** Errors of the dynamic loader: /repo/src/src/dl.cpp, both branches, with the texts of the
    exceptions, the memory of the messages, and failing allocations.

    Simplifications: the operating system is a set of arbitrary replies (record [env]);
    the message buffers of FormatMessage are numbered cells that hold a text or have been
    freed; std::shared_ptr is its documented behaviour (a failing allocation of the control
    block calls the deleter); assertions are left out (C63). *)
From Verif Require Import Base Bytes Dl_Model.
Local Open Scope Z_scope.

(** The places of dl.cpp where memory is allocated: control blocks of shared_ptr (dl.cpp:22,
    25; 35, 55), concatenations left of the message and with it (dl.cpp:33-34, 43-44, 63-64),
    the text of the exception object (dl.cpp:33, 43, 54, 63). *)
Inductive point := MessageBlock | HandleBlock | Concat | LastConcat | ExceptionText.
(** What is thrown: dynamic_load_error with its text, std::bad_alloc, or the error of
    path::string() (dl.cpp:33). *)
Inductive thrown := LoadError (text : list Z) | NoMemory | BadName.
(** How a call ends. [Misuse]: a freed message is read or freed again, or a library released
    that is not loaded. dl.cpp:14-66 *)
Inductive result (A : Type) := Val (a : A) | Exc (e : thrown) | Misuse.
Arguments Val {A} a.
Arguments Exc {A} e.
Arguments Misuse {A}.

(** State of the process: GetLastError (dl.cpp:19), the pending error of dlerror (dl.cpp:51-53,
    60-62), the buffers made by FormatMessage (None: freed; dl.cpp:16-22), and the reference
    count of each library (dl.cpp:31, 36, 52, 55). *)
Record machine := Machine { code : Z; pending : option (list Z); heap : list (option (list Z)); refs : nat -> nat }.
(** Code that changes the machine and may throw. dl.cpp:14-66 *)
Definition M (A : Type) := machine -> result A * machine.
(** Used by dl.cpp:14-66. *)
Definition ret {A} (a : A) : M A := fun s => (Val a, s).
(** Used by dl.cpp:14-66. *)
Definition throw {A} (e : thrown) : M A := fun s => (Exc e, s).
(** Sequencing, dl.cpp:14-66. *)
Definition andthen {A B} (m : M A) (k : A -> M B) : M B := fun s =>
  match m s with (Val a, s) => k a s | (Exc e, s) => (Exc e, s) | (Misuse, s) => (Misuse, s) end.
(** Destruction of a temporary at the end of a full expression, exceptions or not. dl.cpp:33-34, 43-44 *)
Definition finally {A} (m : M A) (d : M unit) : M A := fun s =>
  let '(r, s) := m s in match d s with (Val _, s) => (r, s) | (_, s) => (Misuse, s) end.

(** Replies of the operating system. [sysmsg]: FormatMessage (dl.cpp:19-20; None: it returns
    0). [narrow], [narrow_code]: path::string() (dl.cpp:33; None: it throws) and the last
    error after it. [fails]: the allocation throws std::bad_alloc. *)
Record env := Env {
  sysmsg : Z -> option (list Z); narrow : list Z -> option (list Z); narrow_code : Z -> Z; fails : point -> bool }.

(** A C string: up to the terminating null, dl.cpp:31, 41, 52, 61. *)
Fixpoint cstr (s : list Z) : list Z :=
  match s with [] => [] | c :: s => if c =? 0 then [] else c :: cstr s end.

Section Calls.
Context (E : env).

(** An allocation. dl.cpp:22, 25, 33-35, 43-44, 54-55, 63-64 *)
Definition allocate {A} (p : point) (a : A) : M A := if fails E p then throw NoMemory else ret a.
(** LocalFree, dl.cpp:22. *)
Definition local_free (i : nat) : M unit := fun s =>
  match nth_error (heap s) i with
  | Some (Some _) => (Val tt, Machine (code s) (pending s) (upd (heap s) i None) (refs s))
  | _ => (Misuse, s)
  end.
(** The shared_ptr<char> of dl.cpp:22 and 25. *)
Inductive message := Buffer (i : nat) | Static.
(** dl.cpp:14-27 *)
Definition get_last_error_msg : M message := fun s =>
  match sysmsg E (code s) with
  | Some t =>
      let i := length (heap s) in
      let s := Machine (code s) (pending s) (heap s ++ [Some t]) (refs s) in
      if fails E MessageBlock then andthen (local_free i) (fun _ => throw NoMemory) s else (Val (Buffer i), s)
  | None => allocate MessageBlock Static s
  end.
(** get_last_error_msg().get() read as a C string, dl.cpp:34, 44; the static text dl.cpp:24. *)
Definition read (m : message) : M (list Z) := fun s =>
  match m with
  | Static => (Val (bytes "(failed to get error message)"), s)
  | Buffer i => match nth_error (heap s) i with Some (Some t) => (Val (cstr t), s) | _ => (Misuse, s) end
  end.
(** The destructor of the shared_ptr<char>, dl.cpp:22, 25. *)
Definition drop (m : message) : M unit := match m with Buffer i => local_free i | Static => ret tt end.

(** throw dynamic_load_error(left + get_last_error_msg().get()), dl.cpp:33-34, 43-44. The
    operands of + are evaluated in either order. *)
Definition throw_described (left_first : bool) (left : M (list Z)) : M nat :=
  let build (l : list Z) (m : message) : M nat :=
    andthen (read m) (fun t =>
    andthen (allocate LastConcat (l ++ t)) (fun text =>
    andthen (allocate ExceptionText text) (fun text => throw (LoadError text)))) in
  if left_first
  then andthen left (fun l => andthen get_last_error_msg (fun m => finally (build l m) (drop m)))
  else andthen get_last_error_msg (fun m => finally (andthen left (fun l => build l m)) (drop m)).
(** so_filename.string() and the concatenations with the fixed texts, dl.cpp:33-34. *)
Definition name_of_library (name : list Z) : M (list Z) := fun s =>
  let s := Machine (narrow_code E (code s)) (pending s) (heap s) (refs s) in
  match narrow E name with
  | None => (Exc BadName, s)
  | Some n => allocate Concat (bytes "Unable to load """ ++ n ++ bytes """: ") s
  end.
(** "Unable to load function '" + name + "': ", dl.cpp:43-44, 63-64. *)
Definition name_of_function (name : list Z) : M (list Z) :=
  allocate Concat (bytes "Unable to load function '" ++ name ++ bytes "': ").

(** A library is loaded once more, or once less: LoadLibraryW, FreeLibrary, dlopen, dlclose.
    dl.cpp:31, 36, 52, 55 *)
Definition acquire (l : nat) (s : machine) : machine :=
  Machine (code s) (pending s) (heap s) (fun k => if Nat.eqb k l then S (refs s k) else refs s k).
(** dl.cpp:36, 55 *)
Definition release (l : nat) : M unit := fun s =>
  match refs s l with
  | O => (Misuse, s)
  | S n => (Val tt, Machine (code s) (pending s) (heap s) (fun k => if Nat.eqb k l then n else refs s k))
  end.
(** The shared_ptr<void> of dl.cpp:35-36 and 55. *)
Definition own (l : nat) : M nat :=
  if fails E HandleBlock then andthen (release l) (fun _ => throw NoMemory) else ret l.

(** The reply of LoadLibraryW and GetProcAddress: a handle or address, or the error code they
    set. dl.cpp:31, 41 *)
Inductive win_reply := Found (h : nat) | Error (c : Z).
(** dl.cpp:28-37. [dll] is what LoadLibraryW finds under a (null terminated) name. *)
Definition load_lib_windows (left_first : bool) (dll : list Z -> win_reply) (name : list Z) : M nat := fun s =>
  match dll (cstr name) with
  | Found h => own h (acquire h s)
  | Error c => throw_described left_first (name_of_library name) (Machine c (pending s) (heap s) (refs s))
  end.
(** dl.cpp:39-46 *)
Definition load_func_windows (left_first : bool) (sym : list Z -> win_reply) (name : list Z) : M nat := fun s =>
  match sym (cstr name) with
  | Found h => (Val h, s)
  | Error c => throw_described left_first (name_of_function name) (Machine c (pending s) (heap s) (refs s))
  end.

(** The reply of dlopen and dlsym: a handle or address and perhaps an error that initializers
    of the library left, or a failure with its text. dl.cpp:52, 61 *)
Inductive posix_reply := Opened (h : nat) (left : option (list Z)) | Failed (text : list Z).
(** dlerror(), dl.cpp:51, 53, 60, 62: the pending error, which is cleared. *)
Definition dlerror : M (option (list Z)) := fun s => (Val (pending s), Machine (code s) None (heap s) (refs s)).
(** The pending error after a call, dl.cpp:52, 61. *)
Definition leave (e : option (list Z)) (s : machine) : machine :=
  match e with Some t => Machine (code s) (Some t) (heap s) (refs s) | None => s end.
(** dl.cpp:48-56 *)
Definition load_lib_posix (so : list Z -> posix_reply) (name : list Z) : M nat :=
  andthen dlerror (fun _ s =>
  let '(h, s) := match so (cstr name) with
                 | Opened h e => (Some h, leave e (acquire h s))
                 | Failed t => (None, leave (Some t) s)
                 end in
  andthen dlerror (fun err =>
  match err, h with
  | Some t, _ => andthen (allocate ExceptionText (cstr t)) (fun text => throw (LoadError text))
  | None, Some h => own h
  | None, None => fun s => (Misuse, s)
  end) s).
(** dl.cpp:58-66 *)
Definition load_func_posix (sym : list Z -> posix_reply) (name : list Z) : M nat :=
  andthen dlerror (fun _ s =>
  let '(h, s) := match sym (cstr name) with
                 | Opened h e => (Some h, leave e s)
                 | Failed t => (None, leave (Some t) s)
                 end in
  andthen dlerror (fun err =>
  match err, h with
  | Some t, _ =>
      andthen (name_of_function name) (fun l =>
      andthen (allocate LastConcat (l ++ cstr t)) (fun text =>
      andthen (allocate ExceptionText text) (fun text => throw (LoadError text))))
  | None, Some h => ret h
  | None, None => fun s => (Misuse, s)
  end) s).
End Calls.
