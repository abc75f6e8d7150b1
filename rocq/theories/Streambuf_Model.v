(** Model of callback-streambuf.hpp (paths relative to /repo/src/include/guanaqo). *)
From Verif Require Import Base.
Local Open Scope outcome_scope.

(** callback-streambuf.hpp:17-100, class callback_streambuf. Bytes are integers
    0..255. [mem] is the storage reachable from buffer.data(): the buffer_size
    elements of the vector, followed by however many further bytes happen to be
    accessible ([slack] below; a memory-checked build has none). [pp] and [cap]
    are pptr() and epptr() relative to pbase() == buffer.data(). [out] is the
    list of the spans passed to write_func, oldest first.
    Not modelled: a write_func that throws or that writes to the same stream. *)
Record sb := Sb { mem : list Z; cap : nat; pp : nat; out : list (list Z) }.

(** callback-streambuf.hpp:88-92 (the contents beyond the vector are arbitrary;
    they are never read before they are written). *)
Definition create (buffer_size slack : nat) : sb :=
  Sb (repeat 0%Z (buffer_size + slack)) buffer_size 0 [].

(** callback-streambuf.hpp:29-32. *)
Definition is_ascii (c : Z) : bool := Z.eqb (Z.land c 128) 0.
(** callback-streambuf.hpp:30 *)
Definition is_leading (c : Z) : bool := Z.eqb (Z.land c 192) 192.
(** callback-streambuf.hpp:31 *)
Definition is_leading_2b (c : Z) : bool := Z.leb c 223.
(** callback-streambuf.hpp:32 *)
Definition is_leading_3b (c : Z) : bool := Z.leb c 239.

(** std::find_if: position of the first element satisfying [f], or the length. callback-streambuf.hpp:39. *)
Fixpoint find_if (f : Z -> bool) (l : list Z) : nat :=
  match l with [] => 0 | x :: l' => if f x then 0 else S (find_if f l') end.

(** callback-streambuf.hpp:25-55. [r] is the range [rpptr, rbase): the buffered
    bytes, last one first. Precondition (line 24): not empty. *)
Definition utf8_remainder (r : list Z) : nat :=
  if is_ascii (nth 0 r 0%Z) then 0
  else
    let leading := find_if is_leading (firstn 3 r) in (* 38-39 *)
    if Nat.eqb leading (length r) then 0 (* 40 *)
    else if Nat.eqb leading 0 then 1
    else if Nat.eqb leading 1 then (if is_leading_2b (nth leading r 0%Z) then 0 else leading + 1)
    else if Nat.eqb leading 2 then (if is_leading_3b (nth leading r 0%Z) then 0 else leading + 1)
    else 0.

(** callback-streambuf.hpp:58-74. *)
Definition sync_ (s : sb) : sb :=
  if Nat.eqb (pp s) 0 then s
  else
    let size := pp s in
    let remainder := utf8_remainder (rev (firstn size (mem s))) in
    let out' := if Nat.ltb remainder size then out s ++ [firstn (size - remainder) (mem s)] else out s in
    let mem' := firstn remainder (skipn (size - remainder) (mem s)) ++ skipn remainder (mem s) in (* 69 *)
    Sb mem' (cap s) remainder out'.

(** A store through pptr(), and pbump(1). *)
Definition store1 (c : Z) (s : sb) : outcome sb :=
  if Nat.ltb (pp s) (length (mem s)) then Ok (Sb (upd (mem s) (pp s) c) (cap s) (S (pp s)) (out s))
  else UB.

(** callback-streambuf.hpp:78-85, for a c that is not eof. *)
Definition overflow (c : Z) (s : sb) : outcome sb := s <- store1 c s;; Ok (sync_ s).

(** std::streambuf::sputc: store if pptr() < epptr(), else overflow. with overflow, callback-streambuf.hpp:78-85. *)
Definition sputc (c : Z) (s : sb) : outcome sb :=
  if Nat.ltb (pp s) (cap s) then store1 c s else overflow c s.

(** traits_type::copy(pptr(), data, n); pbump(n). part of xsputn; writes into the buffer of callback-streambuf.hpp:99. *)
Definition store_n (data : list Z) (s : sb) : outcome sb :=
  if Nat.leb (pp s + length data) (length (mem s)) then
    Ok (Sb (firstn (pp s) (mem s) ++ data ++ skipn (pp s + length data) (mem s)) (cap s) (pp s + length data) (out s))
  else UB.

(** std::streambuf::xsputn, which callback_streambuf inherits (libstdc++: copy
    what fits, then overflow with the next character, until all is written; a
    negative epptr() - pptr() becomes a huge size). Every round but the last
    consumes a character, so [length data] rounds suffice. with overflow, callback-streambuf.hpp:78-85. *)
Fixpoint xsputn (fuel : nat) (data : list Z) (s : sb) : outcome sb :=
  match data, fuel with
  | [], _ => Ok s
  | _, O => Ok s
  | _, S fuel =>
    if Nat.ltb (cap s) (pp s) then UB
    else
      let len := Nat.min (cap s - pp s) (length data) in
      s <- store_n (firstn len data) s;;
      match skipn len data with
      | [] => Ok s
      | c :: rest => s <- overflow c s;; xsputn fuel rest s
      end
  end.

(** What a user does with the stream buffer: sputc, sputn, pubsync. callback-streambuf.hpp:76-85. *)
Inductive op := Put (c : Z) | Write (data : list Z) | Flush.

(** One operation (callback-streambuf.hpp:76-85) *)
Definition step (o : op) (s : sb) : outcome sb :=
  match o with
  | Put c => sputc c s
  | Write data => xsputn (length data) data s
  | Flush => Ok (sync_ s) (* callback-streambuf.hpp:76 *)
  end.

(** A history (callback-streambuf.hpp:76-85) *)
Fixpoint run (ops : list op) (s : sb) : outcome sb :=
  match ops with [] => Ok s | o :: ops => s <- step o s;; run ops s end.

(** callback-streambuf.hpp:95. *)
Definition destroy (s : sb) : sb := sync_ s.

(** The bytes between pbase() and pptr(). callback-streambuf.hpp:59-61. *)
Definition buffered (s : sb) : list Z := firstn (pp s) (mem s).

(** The bytes the history writes. Not in the code: the input of callback-streambuf.hpp:76-85. *)
Definition written1 (o : op) : list Z := match o with Put c => [c] | Write d => d | Flush => [] end.
(** Not in the code: the input of callback-streambuf.hpp:76-85 *)
Definition written (ops : list op) : list Z := concat (map written1 ops).
