(** Model of src/include/guanaqo/ringbuffer.hpp: circular index iterators.
    Simplification: the index type is unbounded [nat]; every value the code
    computes is at most [max], so no wrap-around of a fixed-width index type
    that can hold [max] is hidden. Subtraction below zero never happens in
    [dec] (guarded by the assertion and the test for zero). *)
From Verif Require Import Base.
Local Open Scope outcome_scope.

(** CircularIndices, ringbuffer.hpp:9-15. *)
Record indices := CI { zerobased : nat; circular : nat }.
(** CircularIndexIterator, ringbuffer.hpp:30-38. *)
Record iter := It { ind : indices; imax : nat }.

(** operator* ringbuffer.hpp:46 *)
Definition deref (it : iter) : indices := ind it.

(** operator++ ringbuffer.hpp:47-52 *)
Definition inc (it : iter) : outcome iter :=
  if zerobased (ind it) <? imax it then
    Ok (It (CI (S (zerobased (ind it)))
               (if circular (ind it) + 1 =? imax it then 0 else circular (ind it) + 1))
           (imax it))
  else Abort.

(** operator-- ringbuffer.hpp:53-58 *)
Definition dec (it : iter) : outcome iter :=
  if 0 <? zerobased (ind it) then
    Ok (It (CI (zerobased (ind it) - 1)
               (if circular (ind it) =? 0 then imax it - 1 else circular (ind it) - 1))
           (imax it))
  else Abort.

(** operator== ringbuffer.hpp:18-21 and 73-78 *)
Definition eq_iter (a b : iter) : outcome bool :=
  if imax a =? imax b then Ok (zerobased (ind a) =? zerobased (ind b)) else Abort.

(** ReverseCircularIndexIterator wraps a forward iterator, ringbuffer.hpp:88-128:
    operator* (106-109), operator++ (110-113), operator-- (114-117), == (132-136). *)
Definition rderef (it : iter) : outcome indices := t <- dec it ;; Ok (deref t).
(** ReverseCircularIndexIterator operator++, ringbuffer.hpp:110-113 *)
Definition rinc (it : iter) : outcome iter := dec it.
(** ReverseCircularIndexIterator operator--, ringbuffer.hpp:114-117 *)
Definition rdec (it : iter) : outcome iter := inc it.

(** CircularRange, ringbuffer.hpp:146-178. *)
Record range := Range { rsize : nat; idx1 : nat; idx2 : nat; rmax : nat }.
(** ringbuffer.hpp:160 *)
Definition rg_begin (r : range) : iter := It (CI 0 (idx1 r)) (rmax r).         (* 160 *)
Definition rg_end (r : range) : iter := It (CI (rsize r) (idx2 r)) (rmax r).   (* 161 *)
Definition rg_rbegin (r : range) : iter := rg_end r.                           (* 165 *)
Definition rg_rend (r : range) : iter := rg_begin r.                           (* 166 *)

(** A range-based for loop: for (it = b; it != e; ++it) visit( *it ).
    [Ok None]: not finished after [fuel] iterations. with ringbuffer.hpp:46-84 and 106-142. *)
Fixpoint for_loop (get : iter -> outcome indices) (next : iter -> outcome iter)
         (fuel : nat) (it e : iter) : outcome (option (list indices)) :=
  stop <- eq_iter it e ;;
  if stop : bool then Ok (Some []) else
  match fuel with
  | 0 => Ok None
  | S fuel' =>
      x <- get it ;;
      it' <- next it ;;
      rest <- for_loop get next fuel' it' e ;;
      Ok (option_map (cons x) rest)
  end.

(** for (auto x : range) ringbuffer.hpp:160-161. *)
Definition for_range (fuel : nat) (r : range) :=
  for_loop (fun it => Ok (deref it)) inc fuel (rg_begin r) (rg_end r).
(** for (it = range.rbegin(); it != range.rend(); ++it), and also
    for (auto x : ReverseCircularRange(range)) (ringbuffer.hpp:198-199). *)
Definition for_range_rev (fuel : nat) (r : range) :=
  for_loop rderef rinc fuel (rg_rbegin r) (rg_rend r).
(** for (it = rrange.rbegin(); ...) over a ReverseCircularRange, ringbuffer.hpp:203-204. *)
Definition for_reverse_range_rev (fuel : nat) (r : range) :=
  for_loop (fun it => Ok (deref it)) inc fuel (rg_begin r) (rg_end r).
