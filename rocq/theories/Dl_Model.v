(** dl-flags.{hpp,cpp} and dl.cpp (the POSIX branch; the Windows branch is not
    modelled). *)
From Verif Require Import Base.
Local Open Scope Z_scope.

(** Values on Linux/glibc (dlfcn.h). used at src/src/dl-flags.cpp:9-21. *)
Definition RTLD_LOCAL := 0.
(** src/src/dl-flags.cpp:9-21 *)
Definition RTLD_LAZY := 1.
(** src/src/dl-flags.cpp:9-21 *)
Definition RTLD_NOW := 2.
(** src/src/dl-flags.cpp:9-21 *)
Definition RTLD_DEEPBIND := 8.
(** src/src/dl-flags.cpp:9-21 *)
Definition RTLD_GLOBAL := 256.
(** src/src/dl-flags.cpp:9-21 *)
Definition RTLD_NODELETE := 4096.

(** dl-flags.hpp: DynamicLoadFlags. dl-flags.hpp:8-17. *)
Record flags := Flags { global : bool; lazy : bool; nodelete : bool; deepbind : bool }.

(** dl-flags.cpp 9-21 (RTLD_DEEPBIND defined, as on Linux) *)
Definition flags_to_int (f : flags) : Z :=
  Z.lor (if global f then RTLD_GLOBAL else RTLD_LOCAL)
 (Z.lor (if lazy f then RTLD_LAZY else RTLD_NOW)
 (Z.lor (if nodelete f then RTLD_NODELETE else 0)
 (Z.lor (if deepbind f then RTLD_DEEPBIND else 0) 0))).

Local Open Scope outcome_scope.

(** The loader: per thread, a pending error message (dlerror state). What
    dlopen/dlsym do is an arbitrary oracle [reply]: the pointer they return and
    the error they leave, if any (otherwise the pending error is unchanged). used at src/src/dl.cpp:48-80. *)
Definition pending := option nat.
(** What dlopen or dlsym return and the error they leave (src/src/dl.cpp:48-80) *)
Record reply := Reply { handle : option nat; error : option nat }.

(** dlerror(): return the pending error and clear it. used at src/src/dl.cpp:48-80. *)
Definition dlerror (s : pending) : option nat * pending := (s, None).
(** A call of dlopen or dlsym (src/src/dl.cpp:48-80) *)
Definition call (r : reply) (s : pending) : option nat * pending :=
  (handle r, match error r with Some e => Some e | None => s end).

(** dl.cpp 48-56: load_lib. [name_empty]: the assertion on line 50. The
    message carried by the exception is returned beside it. *)
Definition load_lib (name_empty : bool) (r : reply) (s : pending) : outcome (option nat) * option nat * pending :=
  if name_empty then (Abort, None, s) else
  let '(_, s) := dlerror s in
  let '(h, s) := call r s in
  let '(err, s) := dlerror s in
  match err with
  | Some e => (Throw dynamic_load_error, Some e, s)
  | None => (Ok h, None, s)
  end.
(** dl.cpp 58-66: load_func *)
Definition load_func (handle_null : bool) (r : reply) (s : pending) : outcome (option nat) * option nat * pending :=
  if handle_null then (Abort, None, s) else
  let '(_, s) := dlerror s in
  let '(h, s) := call r s in
  let '(err, s) := dlerror s in
  match err with
  | Some e => (Throw dynamic_load_error, Some e, s)
  | None => (Ok h, None, s)
  end.
