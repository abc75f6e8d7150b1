(** Models of enumerate.hpp and iter-adapter.hpp. *)
From Verif Require Import Base.
Local Open Scope outcome_scope.

Section Enumerate.
Context {A : Type} (rng : list A).

(** enumerate_t::iter_t, enumerate.hpp:23-53: an index and an underlying
    iterator (here: a position in the list). *)
Record eiter := EIt { eindex : nat; epos : nat }.

(** begin()/end() enumerate.hpp:55-62; iter_t(begin_t&&) leaves index{} = 0 (26-29) *)
Definition ebegin : eiter := EIt 0 0.
(** std::ranges::end(rng), enumerate.hpp:58-62 *)
Definition eend : nat := length rng.
(** operator!= enumerate.hpp:35 *)
Definition enot_end (it : eiter) : bool := negb (eend =? epos it).
(** operator++ enumerate.hpp:41-45 *)
Definition einc (it : eiter) : eiter := EIt (S (eindex it)) (S (epos it)).
(** operator* enumerate.hpp:52 *)
Definition ederef (it : eiter) : outcome (nat * A) :=
  match nth_error rng (epos it) with Some a => Ok (eindex it, a) | None => UB end.

(** for (auto [i, x] : enumerate(rng)) with enumerate.hpp:35-52. *)
Fixpoint eloop (fuel : nat) (it : eiter) : outcome (option (list (nat * A))) :=
  if enot_end it then
    match fuel with
    | 0 => Ok None
    | S f => x <- ederef it ;; r <- eloop f (einc it) ;; Ok (option_map (cons x) r)
    end
  else Ok (Some []).
(** enumerate.hpp:55-57, 66-68, in a range-based for loop *)
Definition enumerate (fuel : nat) := eloop fuel ebegin.
End Enumerate.

Section IterAdapter.
(** The wrapped iterator-like object: a state, its operator++ and its
    conversion to bool. iter_t derives from it (iter-adapter.hpp:20-44):
    != sentinel is the conversion to bool (25), operator++ is the base's (31-34),
    operator* is the object itself (39). begin() copies/moves the object (46-51). *)
Context {St : Type} (next : St -> St) (ok : St -> bool).

(** A range-based for loop over iter-adapter.hpp:20-54 *)
Fixpoint adapter_loop (fuel : nat) (s : St) : option (list St) :=
  if ok s then
    match fuel with
    | 0 => None
    | S f => option_map (cons s) (adapter_loop f (next s))
    end
  else Some [].

(** The states visited in the first [fuel] iterations, finished or not. iter-adapter.hpp:20-54. *)
Fixpoint adapter_prefix (fuel : nat) (s : St) : list St :=
  match fuel with
  | 0 => []
  | S f => if ok s then s :: adapter_prefix f (next s) else []
  end.
End IterAdapter.
