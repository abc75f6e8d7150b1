(** Model of src/include/guanaqo/set-intersection.hpp.
    The two ranges are lists; an iterator is a position in each. Dereferencing
    a position outside its range is [UB]. Keys: the projections map elements
    to a common key type on which [comp] acts. *)
From Verif Require Import Base.
Local Open Scope outcome_scope.

Section SetIntersection.
Context {A B K : Type} (comp : K -> K -> bool) (proj1 : A -> K) (proj2 : B -> K).
Variables (range1 : list A) (range2 : list B).

(** *first1, set-intersection.hpp:73-80 *)
Definition deref1 (i : nat) : outcome A :=
  match nth_error range1 i with Some a => Ok a | None => UB end.
(** *first2, set-intersection.hpp:73-80 *)
Definition deref2 (j : nat) : outcome B :=
  match nth_error range2 j with Some b => Ok b | None => UB end.

(** iter_t::operator!=(sentinel_t), set-intersection.hpp:55-57 *)
Definition not_end (it : nat * nat) : bool :=
  negb (fst it =? length range1) && negb (snd it =? length range2).

(** iter_t::advance, set-intersection.hpp:74-85. [None]: out of fuel. *)
Fixpoint advance (fuel : nat) (it : nat * nat) : outcome (option (nat * nat)) :=
  if not_end it then
    a <- deref1 (fst it) ;;
    b <- deref2 (snd it) ;;
    if comp (proj1 a) (proj2 b) then
      match fuel with 0 => Ok None | S f => advance f (S (fst it), snd it) end
    else if comp (proj2 b) (proj1 a) then
      match fuel with 0 => Ok None | S f => advance f (fst it, S (snd it)) end
    else Ok (Some it)
  else Ok (Some it).

(** operator* set-intersection.hpp:73 *)
Definition deref (it : nat * nat) : outcome (A * B) :=
  a <- deref1 (fst it) ;; b <- deref2 (snd it) ;; Ok (a, b).

(** operator++ set-intersection.hpp:63-67 *)
Definition incr (fuel : nat) (it : nat * nat) : outcome (option (nat * nat)) :=
  advance fuel (S (fst it), S (snd it)).

(** begin() set-intersection.hpp:96-101 *)
Definition begin (fuel : nat) : outcome (option (nat * nat)) := advance fuel (0, 0).

(** for (auto &&[a, b] : iter_set_intersection(range1, range2, ...)) : the list
    of (position in range 1, position in range 2, element, element) visited. *)
Fixpoint loop (fuel : nat) (it : nat * nat) : outcome (option (list (nat * nat * (A * B)))) :=
  if not_end it then
    match fuel with
    | 0 => Ok None
    | S f =>
        x <- deref it ;;
        n <- incr fuel it ;;
        match n with
        | None => Ok None
        | Some it' =>
            rest <- loop f it' ;;
            Ok (option_map (cons (it, x)) rest)
        end
    end
  else Ok (Some []).

(** A range-based for loop: begin (set-intersection.hpp:96-100), then the loop *)
Definition for_each (fuel : nat) : outcome (option (list (nat * nat * (A * B)))) :=
  b <- begin fuel ;;
  match b with None => Ok None | Some it => loop fuel it end.
End SetIntersection.
