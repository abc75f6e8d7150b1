(** How many multiplications a matrix operation takes, counted position by position. *)
From Coq Require Import List ZArith Bool Arith.
Import ListNotations.

(** The number of triples (i, j, k) with i < M, j < N, k < K that satisfy [P]. *)
Definition triples (M N K : nat) (P : nat -> nat -> nat -> bool) : Z :=
  Z.of_nat (length (filter (fun p => P (fst (fst p)) (snd (fst p)) (snd p))
    (list_prod (list_prod (seq 0 M) (seq 0 N)) (seq 0 K)))).
(** The number of pairs (i, j) with i < M, j < N that satisfy [P]. *)
Definition pairs (M N : nat) (P : nat -> nat -> bool) : Z :=
  Z.of_nat (length (filter (fun p => P (fst p) (snd p)) (list_prod (seq 0 M) (seq 0 N)))).

(** One multiplication (with an addition) for every entry (i, j) of an M x N product and
    every k < K: sum_k a_ik b_kj. *)
Definition general_product (M N K : nat) : Z := triples M N K (fun _ _ _ => true).
(** The same when only the entries of the lower triangle of the n x n result are computed. *)
Definition lower_product (n K : nat) : Z := triples n n K (fun i j _ => Nat.leb j i).
(** L X with L n x n lower triangular and X n x N: only a_ik with k <= i take part. *)
Definition lower_times (n N : nat) : Z := triples n N n (fun i _ k => Nat.leb k i).
(** L^T X: (L^T)_ik = l_ki with k >= i. *)
Definition lower_trans_times (n N : nat) : Z := triples n N n (fun i _ k => Nat.leb i k).
(** X L with X M x n: l_kj with j <= k. *)
Definition times_lower (M n : nat) : Z := triples M n n (fun _ j k => Nat.leb j k).
(** X L^T: (L^T)_kj = l_jk with k <= j. *)
Definition times_lower_trans (M n : nat) : Z := triples M n n (fun _ j k => Nat.leb k j).

(** Substitution. L X = B: x_ij = (b_ij - sum_{k<i} l_ik x_kj) / l_ii. *)
Definition solve_lower (n N : nat) : Z :=
  (triples n N n (fun i _ k => Nat.ltb k i) + pairs n N (fun _ _ => true))%Z.
(** L^T X = B: x_ij = (b_ij - sum_{k>i} l_ki x_kj) / l_ii. *)
Definition solve_lower_trans (n N : nat) : Z :=
  (triples n N n (fun i _ k => Nat.ltb i k) + pairs n N (fun _ _ => true))%Z.
(** X L = B (X is M x n): x_ij = (b_ij - sum_{k>j} x_ik l_kj) / l_jj. *)
Definition solve_times_lower (M n : nat) : Z :=
  (triples M n n (fun _ j k => Nat.ltb j k) + pairs M n (fun _ _ => true))%Z.
(** X L^T = B: x_ij = (b_ij - sum_{k<j} x_ik l_jk) / l_jj. *)
Definition solve_times_lower_trans (M n : nat) : Z :=
  (triples M n n (fun _ j k => Nat.ltb k j) + pairs M n (fun _ _ => true))%Z.

(** Cholesky: l_ij = (a_ij - sum_{k<j} l_ik l_jk) / l_jj for j < i,
    l_jj = sqrt(a_jj - sum_{k<j} l_jk^2); a square root and a reciprocal per pivot. *)
Definition cholesky_count (n : nat) : Z :=
  (triples n n n (fun i j k => Nat.leb j i && Nat.ltb k j) + pairs n n (fun i j => Nat.ltb j i) +
   2 * Z.of_nat n)%Z.
(** Inverse of a lower triangular matrix: x_jj = 1 / l_jj,
    x_ij = -(sum_{j<=k<i} l_ik x_kj) x_ii for j < i. *)
Definition inverse_count (n : nat) : Z :=
  (triples n n n (fun i j k => Nat.leb j k && Nat.ltb k i) + pairs n n (fun i j => Nat.ltb j i) +
   Z.of_nat n)%Z.
(** Lower triangle of L^T L: sum_{k>=i} l_ki l_kj for j <= i. *)
Definition lauum_count (n : nat) : Z := triples n n n (fun i j k => Nat.leb j i && Nat.leb i k).

From Verif Require Import Base.
From Coq Require Import String.
Local Open Scope Z_scope.
(** The call is logged under [name] with [count] operations, unless a product as large as
    [largest] does not fit in the index type, whose largest value is [imax]: then computing
    the count is undefined behaviour. *)
Definition logged_as (imax : Z) (args : string * outcome Z) (name : string) (largest count : Z) : Prop :=
  args = (name, if largest <=? imax then Ok count else UB).
