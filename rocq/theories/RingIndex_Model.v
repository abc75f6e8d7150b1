(** src/include/guanaqo/ringbuffer.hpp for every integer index type, in builds
    with ([dbg = true]) and without assertions. Ringbuffer_Model has unbounded
    indices and assertions. *)
From Verif Require Import Base.
Local Open Scope outcome_scope.
Local Open Scope Z_scope.

(** What arithmetic on the template parameter IndexT (ringbuffer.hpp:8, 30) does when the
    result does not fit: unsigned types wrap around, signed types are
    undefined, types narrower than int are promoted to int first. *)
Inductive overflow := Wraps | Undefined | Promoted.
(** IndexT (ringbuffer.hpp:8, 30): its smallest and largest value *)
Record itype := IType { tmin : Z; tmax : Z; onover : overflow }.

Section Ring.
Variable T : itype.
(** Conversion of a number to IndexT (C++20: modulo 2^N), the assignments of
    ringbuffer.hpp:49-50 and 55-56 *)
Definition conv (x : Z) : Z := (x - tmin T) mod (tmax T - tmin T + 1) + tmin T.
(** The value of a sum or difference of two IndexT (ringbuffer.hpp:50, 56) *)
Definition arith (x : Z) : outcome Z :=
  match onover T with
  | Wraps => Ok (conv x)
  | Undefined => if (tmin T <=? x) && (x <=? tmax T) then Ok x else UB
  | Promoted => Ok x
  end.

(** CircularIndices and CircularIndexIterator, ringbuffer.hpp:9-15, 30-38 *)
Record it := Iter { zb : Z; circ : Z; mx : Z }.

(** operator++, ringbuffer.hpp:47-52 *)
Definition inc_ix (dbg : bool) (i : it) : outcome it :=
  if dbg && negb (zb i <? mx i) then Abort else          (* 48 *)
  z <- arith (zb i + 1) ;;                                (* 49 *)
  c <- arith (circ i + 1) ;;
  Ok (Iter (conv z) (if c =? mx i then 0 else conv c) (mx i)).   (* 50 *)
(** operator--, ringbuffer.hpp:53-58 *)
Definition dec_ix (dbg : bool) (i : it) : outcome it :=
  if dbg && negb (0 <? zb i) then Abort else              (* 54 *)
  z <- arith (zb i - 1) ;;                                (* 55 *)
  c <- (if circ i =? 0 then arith (mx i - 1) else arith (circ i - 1)) ;;
  Ok (Iter (conv z) (conv c) (mx i)).                     (* 56 *)
(** operator==, ringbuffer.hpp:18-21, 73-78 *)
Definition eq_ix (dbg : bool) (a b : it) : outcome bool :=
  if dbg && negb (mx a =? mx b) then Abort else Ok (zb a =? zb b).

(** CircularRange: begin and end, ringbuffer.hpp:151-161 *)
Definition begin_ix (size idx1 idx2 max : Z) : it := Iter 0 idx1 max.
(** ringbuffer.hpp:161 *)
Definition end_ix (size idx1 idx2 max : Z) : it := Iter size idx2 max.

(** for (; it != e; ++it) visit( *it ), with ringbuffer.hpp:46-84 for a forward
    iterator and ringbuffer.hpp:106-142 for a reverse iterator. [Ok None]: not
    finished after [fuel] iterations. *)
Fixpoint walk_ix (dbg fwd : bool) (fuel : nat) (i e : it) : outcome (option (list (Z * Z))) :=
  stop <- eq_ix dbg i e ;;
  if stop : bool then Ok (Some []) else
  match fuel with
  | O => Ok None
  | S fuel' =>
      x <- (if fwd then Ok i else dec_ix dbg i) ;;                        (* 46; 106-109 *)
      i' <- (if fwd then inc_ix dbg i else dec_ix dbg i) ;;               (* 47; 110-113 *)
      rest <- walk_ix dbg fwd fuel' i' e ;;
      Ok (option_map (cons (zb x, circ x)) rest)
  end.
(** for (auto x : CircularRange(size, idx1, idx2, max)), ringbuffer.hpp:160-161 *)
Definition range_ix (dbg : bool) (fuel : nat) (size idx1 idx2 max : Z) :=
  walk_ix dbg true fuel (begin_ix size idx1 idx2 max) (end_ix size idx1 idx2 max).
(** for (auto x : ReverseCircularRange(size, idx1, idx2, max)), ringbuffer.hpp:165-166, 198-199 *)
Definition reverse_range_ix (dbg : bool) (fuel : nat) (size idx1 idx2 max : Z) :=
  walk_ix dbg false fuel (end_ix size idx1 idx2 max) (begin_ix size idx1 idx2 max).

(** A sequence of ++ ([true]) and -- ([false]) on an iterator, ringbuffer.hpp:47-58 *)
Fixpoint moves_ix (dbg : bool) (l : list bool) (i : it) : outcome it :=
  match l with
  | [] => Ok i
  | b :: l' => i' <- (if b then inc_ix dbg i else dec_ix dbg i) ;; moves_ix dbg l' i'
  end.
End Ring.
