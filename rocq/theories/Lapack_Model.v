(** xpotrf_L, xtrtri_LN and xlauum_L of hl-blas-interface.hpp on top of a
    reference LAPACK, in exact arithmetic. *)
From Verif Require Import Base MatView_Model HlBlas_Model.
Local Open Scope Z_scope.

Section Lapack.
Context {V : Type} (zero one : V) (add mul sub div : V -> V -> V).
(** [positive d]: d > 0; [sqrt]: used on positive values only; [is_zero]. *)
Context (positive : V -> bool) (sqrt : V -> V) (is_zero : V -> bool).
Local Notation mem := (@MatView_Model.mem V).

(** ** The reference LAPACK (netlib semantics, lower triangle; not part of the
    repository). A routine returns the memory and info; [badld] is the info for
    an illegal leading dimension. On info > 0 the part of the matrix that was
    already overwritten is not modelled (the wrappers throw). *)
Definition lapack_routine (badld : Z) (o : operand) (f : mem -> (Z -> Z -> V) * Z) (m : mem) : outcome (mem * Z) :=
  if nrows o <? 0 then Ok (m, -2)
  else if legal o then
    if present m o then
      let '(x, info) := f m in Ok (if info =? 0 then write o x m else m, info)
    else UB
  else Ok (m, badld).

(** Element (r, c) of a matrix given by its rows, each up to the diagonal. Not in the code: LAPACK as called at hl-blas-interface.hpp:332-356. *)
Definition entry (rows : list (list V)) (r c : Z) : V := nth (Z.to_nat c) (nth (Z.to_nat r) rows []) zero.
(** xPOTRF, uplo = L: Cholesky factorization row by row; info = i + 1 if row i
    has no positive pivot. *)
Fixpoint cholesky (A : Z -> Z -> V) (n : nat) : list (list V) * Z :=
  match n with
  | O => ([], 0)
  | S k =>
      let '(rows, info) := cholesky A k in
      if info =? 0 then
        let i := Z.of_nat k in
        let x := substitute zero add mul sub div (entry rows) (fun j => A i j) k in
        let d := sub (A i i) (total zero add i (fun j => mul (nth (Z.to_nat j) x zero) (nth (Z.to_nat j) x zero))) in
        if positive d then (rows ++ [x ++ [sqrt d]], 0) else (rows, i + 1)
      else (rows, info)
  end.
(** As called at hl-blas-interface.hpp:332 *)
Definition potrf_L (n pA lda : Z) : mem -> outcome (mem * Z) :=
  let a := Operand ColMajor pA lda n n (triangle Lower_ NonUnit) in
  lapack_routine (-4) a (fun m =>
    let '(rows, info) := cholesky (value zero m a) (Z.to_nat n) in (entry rows, info)).
(** xTRTRI, uplo = L, diag = N: info = i + 1 for the first zero on the diagonal,
    otherwise column j of the inverse is the solution of L x = e_j. *)
Fixpoint first_zero (A : Z -> Z -> V) (i : Z) (n : nat) : Z :=
  match n with
  | O => 0
  | S k => if is_zero (A i i) then i + 1 else first_zero A (i + 1) k
  end.
(** xTRTRI as called at hl-blas-interface.hpp:356 *)
Definition trtri_LN (n pA lda : Z) : mem -> outcome (mem * Z) :=
  let a := Operand ColMajor pA lda n n (triangle Lower_ NonUnit) in
  lapack_routine (-5) a (fun m =>
    (fun i j => solve zero add mul sub div false (tri zero one m a NonUnit)
                  (fun k => if k =? j then one else zero) n i,
     first_zero (value zero m a) 0 (Z.to_nat n))).
(** xLAUUM, uplo = L: the lower triangle of L^T L. As called at hl-blas-interface.hpp:344. *)
Definition lauum_L (n pA lda : Z) : mem -> outcome (mem * Z) :=
  let a := Operand ColMajor pA lda n n (triangle Lower_ NonUnit) in
  lapack_routine (-4) a (fun m =>
    (fun i j => total zero add n (fun k => mul (tri zero one m a NonUnit k i) (tri zero one m a NonUnit k j)), 0)).

(** ** The wrappers *)
Context (chk : bool).
(** lapack_throw_on_err, lapack.hpp 30-34 *)
Definition lapack_throw_on_err (r : mem * Z) : outcome mem :=
  if snd r =? 0 then Ok (fst r) else Throw lapack_error.
(** hl-blas-interface.hpp 326-334 *)
Definition xpotrf_L (A : view) (m : mem) : outcome mem :=
  assume chk (rows A =? cols A)
    (bind (potrf_L (rows A) (data A) (outer_stride A) m) lapack_throw_on_err).
(** hl-blas-interface.hpp 338-346 *)
Definition xlauum_L (A : view) (m : mem) : outcome mem :=
  assume chk (rows A =? cols A)
    (bind (lauum_L (rows A) (data A) (outer_stride A) m) lapack_throw_on_err).
(** hl-blas-interface.hpp 350-358 *)
Definition xtrtri_LN (A : view) (m : mem) : outcome mem :=
  assume chk (rows A =? cols A)
    (bind (trtri_LN (rows A) (data A) (outer_stride A) m) lapack_throw_on_err).
End Lapack.
