(** Model of scoped_ostream_redirect, callback-streambuf.hpp:102-123 (path
    relative to /repo/src/include/guanaqo). *)
From Verif Require Import Base.

(** A std::ostream, as far as it matters here: which stream buffer it writes to
    and whether it is in a good state. Streams and stream buffers are numbered. The member os, callback-streambuf.hpp:106. *)
Record stream := Stream { rdbuf : nat; ok : bool }.

(** What a stream buffer is told: a character, or to sync. [log] lists it for all
    buffers in chronological order. [objs] are the redirect objects ever made. callback-streambuf.hpp:114 and output of the program. *)
Inductive event := Char (c : Z) | Sync.
(** callback-streambuf.hpp:106-107 *)
Record redirect := Redirect { r_os : nat; r_old : nat }.
(** The streams of a program and its redirects (callback-streambuf.hpp:104-123) *)
Record world := World { streams : nat -> stream; objs : list redirect; log : list (nat * event) }.

(** Not in the code: update of the map of streams that callback-streambuf.hpp:111, 115 change *)
Definition set (f : nat -> stream) (k : nat) (s : stream) : nat -> stream :=
  fun i => if Nat.eqb i k then s else f i.

(** std::ios::rdbuf(sb): replaces the buffer and clears the error state. callback-streambuf.hpp:111, 115. *)
Definition set_rdbuf (os sb : nat) (w : world) : world :=
  World (set (streams w) os (Stream sb true)) (objs w) (log w).

(** ostream::put: no effect unless the stream is good. Not in the code: what a program does while a redirect (callback-streambuf.hpp:104-123) exists. *)
Definition put (os : nat) (c : Z) (w : world) : world :=
  if ok (streams w os) then World (streams w) (objs w) (log w ++ [(rdbuf (streams w os), Char c)]) else w.

(** ostream::flush: syncs the current buffer, if the stream is good. callback-streambuf.hpp:114. *)
Definition flush (os : nat) (w : world) : world :=
  if ok (streams w os) then World (streams w) (objs w) (log w ++ [(rdbuf (streams w os), Sync)]) else w.

(** callback-streambuf.hpp:110-111: constructor. The new object is number
    [length (objs w)]. *)
Definition construct (os sb : nat) (w : world) : world :=
  let old := rdbuf (streams w os) in
  let w := set_rdbuf os sb w in
  World (streams w) (objs w ++ [Redirect os old]) (log w).

(** callback-streambuf.hpp:113-116: destructor of object [r]. *)
Definition destruct_ (r : redirect) (w : world) : world := set_rdbuf (r_os r) (r_old r) (flush (r_os r) w).

(** callback-streambuf.hpp:119: the defaulted move constructor copies the
    reference and the pointer and leaves the source as it is. *)
Definition move (r : redirect) (w : world) : world := World (streams w) (objs w ++ [r]) (log w).

(** Programs that use redirects as scoped objects: { scoped_ostream_redirect r{os, sb}; body }.
    [Raise] throws; nothing after it runs, but destructors do. With callback-streambuf.hpp:110-116. *)
Inductive prog :=
| Out (os : nat) (c : Z)
| FlushOs (os : nat)
| Raise
| Scope (os sb : nat) (body : list prog).

(** Returns whether the program left with an exception. With callback-streambuf.hpp:110-116. *)
Fixpoint exec1 (p : prog) (w : world) : world * bool :=
  let exec := fix exec (ps : list prog) (w : world) : world * bool :=
    match ps with
    | [] => (w, false)
    | p :: ps => let '(w, raised) := exec1 p w in if raised then (w, true) else exec ps w
    end in
  match p with
  | Out os c => (put os c w, false)
  | FlushOs os => (flush os w, false)
  | Raise => (w, true)
  | Scope os sb body =>
    let r := Redirect os (rdbuf (streams w os)) in
    let w := construct os sb w in
    let '(w, raised) := exec body w in
    (destruct_ r w, raised)
  end.

(** A sequence of statements (with callback-streambuf.hpp:110-116) *)
Fixpoint exec (ps : list prog) (w : world) : world * bool :=
  match ps with
  | [] => (w, false)
  | p :: ps => let '(w, raised) := exec1 p w in if raised then (w, true) else exec ps w
  end.
