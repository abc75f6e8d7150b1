(** callback-streambuf.hpp with a callback that may throw (paths relative to
    /repo/src/include/guanaqo). The stream buffer itself is that of
    Streambuf_Model.v. *)
From Verif Require Import Base Streambuf_Model.
Local Open Scope outcome_scope.

(** The behaviour of write_func: does its i-th call throw? An arbitrary function
    stands for an arbitrary callback. [log] lists the calls made so far: the span
    passed, and whether the call threw. callback-streambuf.hpp:98. *)
Definition calls := list (list Z * bool).
(** callback-streambuf.hpp:98-99 and the calls so far *)
Definition state := (sb * calls)%type.

(** callback-streambuf.hpp:60-66: the span _sync passes to write_func, if it calls it. *)
Definition to_deliver (s : sb) : option (list Z) :=
  if Nat.eqb (pp s) 0 then None
  else
    let remainder := utf8_remainder (rev (firstn (pp s) (mem s))) in
    if Nat.ltb remainder (pp s) then Some (firstn (pp s - remainder) (mem s)) else None.

(** callback-streambuf.hpp:58-74. When write_func throws (line 66), lines 68-72
    are not executed. The first component of the result says whether the
    exception leaves the function. *)
Definition sync_t (throws : nat -> bool) (x : state) : bool * state :=
  let (s, log) := x in
  match to_deliver s with
  | None => (false, (sync_ s, log))
  | Some span =>
    let t := throws (length log) in
    (t, (if t then s else sync_ s, log ++ [(span, t)]))
  end.

(** callback-streambuf.hpp:78-85. *)
Definition overflow_t (throws : nat -> bool) (c : Z) (x : state) : outcome (bool * state) :=
  let (s, log) := x in s <- store1 c s;; Ok (sync_t throws (s, log)).

(** std::streambuf::sputc. with overflow, callback-streambuf.hpp:78-85. *)
Definition sputc_t (throws : nat -> bool) (c : Z) (x : state) : outcome (bool * state) :=
  let (s, log) := x in
  if Nat.ltb (pp s) (cap s) then s <- store1 c s;; Ok (false, (s, log)) else overflow_t throws c x.

(** std::streambuf::xsputn: an exception from overflow leaves the loop. with overflow, callback-streambuf.hpp:78-85. *)
Fixpoint xsputn_t (throws : nat -> bool) (fuel : nat) (data : list Z) (x : state) : outcome (bool * state) :=
  match data, fuel with
  | [], _ => Ok (false, x)
  | _, O => Ok (false, x)
  | _, S fuel =>
    let (s, log) := x in
    if Nat.ltb (cap s) (pp s) then UB
    else
      let len := Nat.min (cap s - pp s) (length data) in
      s <- store_n (firstn len data) s;;
      match skipn len data with
      | [] => Ok (false, (s, log))
      | c :: rest =>
        r <- overflow_t throws c (s, log);;
        let (t, x) := r : bool * state in
        if t then Ok (true, x) else xsputn_t throws fuel rest x
      end
  end.

(** One operation (callback-streambuf.hpp:76-85) *)
Definition step_t (throws : nat -> bool) (o : op) (x : state) : outcome (bool * state) :=
  match o with
  | Put c => sputc_t throws c x
  | Write data => xsputn_t throws (length data) data x
  | Flush => Ok (sync_t throws x)
  end.

(** A history in which the caller catches the exceptions and goes on. The list
    says which operations threw. callback-streambuf.hpp:76-85. *)
Fixpoint run_t (throws : nat -> bool) (ops : list op) (x : state) : outcome (list bool * state) :=
  match ops with
  | [] => Ok ([], x)
  | o :: ops =>
    r <- step_t throws o x;;
    let (t, x) := r : bool * state in
    r <- run_t throws ops x;;
    let (ts, x) := r : list bool * state in Ok (t :: ts, x)
  end.

(** The same operations through a std::ostream whose exceptions() mask is clear
    (the default): an exception from the stream buffer sets badbit, and while
    badbit is set the output functions, flush() included, do nothing. [bad] is
    badbit. callback-streambuf.hpp:76-85. *)
Fixpoint run_os (throws : nat -> bool) (ops : list op) (bad : bool) (x : state) : outcome (bool * state) :=
  match ops with
  | [] => Ok (bad, x)
  | o :: ops =>
    if bad then run_os throws ops true x
    else r <- step_t throws o x;; let (t, x) := r : bool * state in run_os throws ops t x
  end.

(** callback-streambuf.hpp:95: the destructor is noexcept (implicitly), so an
    exception from _sync calls std::terminate. *)
Definition destroy_t (throws : nat -> bool) (x : state) : outcome state :=
  let (t, x) := sync_t throws x in if t then Abort else Ok x.

(** The constructor, callback-streambuf.hpp:87-92 *)
Definition start (N slack : nat) : state := (create N slack, []).
