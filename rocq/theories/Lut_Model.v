(** lut.hpp. The packs Rs..., Cs..., Ns... are lists; the functions are total
    (compile-time evaluation); std::common_type_t is the type [E] with a
    conversion [conv i] from the type returned for index i. *)
From Verif Require Import Base.

(** std::make_integer_sequence<I, N> = 0, 1, ..., N-1 *)
Fixpoint integer_sequence (n : nat) : list nat :=
  match n with 0 => [] | S m => integer_sequence m ++ [m] end.

Section Lut.
Context {E : Type}.

(** lut.hpp 80-87: std::array<elem_t, N>{f(Ns)...} *)
Definition make_1d_lut {R : nat -> Type} (conv : forall i, R i -> E) (N : nat) (f : forall i, R i) : list E :=
  map (fun i => conv i (f i)) (integer_sequence N).

(** lut.hpp 54-61: make_row(Rr) = std::array<elem_t, C>{f(Rr, Cs)...} *)
Definition make_row {T : nat -> nat -> Type} (conv : forall r c, T r c -> E) (C : nat) (f : forall r c, T r c) (r : nat) : list E :=
  map (fun c => conv r c (f r c)) (integer_sequence C).
(** lut.hpp 51-70: std::array<row_t, R>{make_row(Rs)...} *)
Definition make_2d_lut {T : nat -> nat -> Type} (conv : forall r c, T r c -> E) (R C : nat) (f : forall r c, T r c) : list (list E) :=
  map (make_row conv C f) (integer_sequence R).
End Lut.
