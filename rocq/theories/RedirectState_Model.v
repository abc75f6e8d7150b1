(** scoped_ostream_redirect (callback-streambuf.hpp:104-123) on streams in any state: error bits set before or during
    the redirect, streams and redirects without a buffer. Simplifications: failbit and badbit are one flag; the
    exception mask of the streams is the default one (no exceptions); the buffers themselves do not fail. *)
From Verif Require Import Base.

(** An output stream: its buffer (None: a null pointer) and whether an error bit is set. For callback-streambuf.hpp:121-122. *)
Record stream := Stream { rdbuf : option nat; err : bool }.
(** What a buffer is asked to do (callback-streambuf.hpp:114 and the program's output) *)
Inductive event := Char (c : Z) | Sync.
(** The streams, and what the buffers were asked to do (for callback-streambuf.hpp:104-123) *)
Record world := World { streams : nat -> stream; log : list (nat * event) }.
(** A map with one value replaced (for callback-streambuf.hpp:111, 115) *)
Definition set {A} (f : nat -> A) (i : nat) (x : A) : nat -> A := fun j => if Nat.eqb j i then x else f j.

(** std::ios::rdbuf(sb): replaces the buffer and calls clear(), which sets badbit if there is no buffer and clears all
    error bits otherwise ([basic.ios.members], [iostate.flags]). callback-streambuf.hpp:111, 115. *)
Definition set_rdbuf (os : nat) (sb : option nat) (w : world) : world :=
  World (set (streams w) os (Stream sb (match sb with None => true | _ => false end))) (log w).
(** An operation on the buffer of a stream: only if the stream has one and no error bit is set (put, and flush in 114;
    flush as in the current standard, LWG 581: older libraries flush the buffer in any state) *)
Definition request (os : nat) (e : event) (w : world) : world :=
  match streams w os with
  | Stream (Some b) false => World (streams w) (log w ++ [(b, e)])
  | _ => w
  end.
(** setstate(failbit) and clear(). Not in the code: what programs do while redirects (callback-streambuf.hpp:104-123) exist. *)
Definition set_err (os : nat) (e : bool) (w : world) : world :=
  World (set (streams w) os (Stream (rdbuf (streams w os)) (e || match rdbuf (streams w os) with None => true | _ => false end))) (log w).

(** Programs that use redirects as scoped objects: { scoped_ostream_redirect r{os, sb}; body } (callback-streambuf.hpp:110-116) *)
Inductive prog :=
| Skip | Out (os : nat) (c : Z) | Flush (os : nat) | Fail (os : nat) | Clear (os : nat) | Raise
| Seq (p q : prog) | Scope (os : nat) (sb : option nat) (body : prog).

(** Runs a program; true: it left with an exception, destructors have run. Scope: the constructor keeps the old buffer
    and installs the new one (110-111), the destructor flushes the stream and installs the old one (113-116). *)
Fixpoint exec (p : prog) (w : world) : world * bool :=
  match p with
  | Skip => (w, false)
  | Out os c => (request os (Char c) w, false)
  | Flush os => (request os Sync w, false)
  | Fail os => (set_err os true w, false)
  | Clear os => (set_err os false w, false)
  | Raise => (w, true)
  | Seq p q => let '(w, raised) := exec p w in if raised then (w, true) else exec q w
  | Scope os sb body =>
      let old := rdbuf (streams w os) in
      let w := set_rdbuf os sb w in
      let '(w, raised) := exec body w in
      (set_rdbuf os old (request os Sync w), raised)
  end.
