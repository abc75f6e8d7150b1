(** blas-interface.cpp: the strided batch operations of builds without OpenMP or
    with one thread (the pointers that xgemm, xsyrk and xtrsm_batch_strided share
    between OpenMP threads are the subject of Batch_Model), applied to memory by
    the reference BLAS of HlBlas_Model, and the versions of builds with MKL. *)
From Verif Require Import Base MatView_Model HlBlas_Model Lapack_Model.
Local Open Scope outcome_scope.
Local Open Scope Z_scope.

Section Batch.
Context {V : Type} (zero one : V) (add mul sub div : V -> V -> V).
Local Notation mem := (@MatView_Model.mem V).

(** blas-interface.cpp 262-269: [n] iterations from the current pointers. *)
Fixpoint xgemm_loop (Layout : layout) (TransA TransB : transpose) (M N K : Z) (alpha : V)
    (lda stridea ldb strideb : Z) (beta : V) (ldc stridec : Z) (n : nat) (A B C : Z) (m : mem)
    : outcome mem :=
  match n with
  | O => Ok m
  | S n' =>
      m' <- cblas_gemm zero add mul Layout TransA TransB M N K alpha A lda B ldb beta C ldc m ;;
      xgemm_loop Layout TransA TransB M N K alpha lda stridea ldb strideb beta ldc stridec n'
        (A + stridea) (B + strideb) (C + stridec) m'
  end.
(** blas-interface.cpp 255-270 *)
Definition xgemm_batch_strided Layout TransA TransB M N K alpha A lda stridea B ldb strideb beta C ldc stridec
    (batch_size : Z) : mem -> outcome mem :=
  xgemm_loop Layout TransA TransB M N K alpha lda stridea ldb strideb beta ldc stridec
    (Z.to_nat batch_size) A B C.
(** blas-interface.cpp 272-298 (MKL): cblas_xgemm_batch_strided, by its
    documentation, performs the same loop. *)
Definition xgemm_batch_strided_mkl Layout TransA TransB M N K alpha A lda stridea B ldb strideb beta C ldc stridec
    (batch_size : Z) (m : mem) : outcome mem :=
  if (M =? 0) || (N =? 0) || (K =? 0) then Ok m else
  xgemm_loop Layout TransA TransB M N K alpha lda stridea ldb strideb beta ldc stridec
    (Z.to_nat batch_size) A B C m.

(** blas-interface.cpp 313-317 *)
Fixpoint xsyrk_loop (Layout : layout) (Uplo : uplo) (Trans : transpose) (N K : Z) (alpha : V)
    (lda stridea : Z) (beta : V) (ldc stridec : Z) (n : nat) (A C : Z) (m : mem) : outcome mem :=
  match n with
  | O => Ok m
  | S n' =>
      m' <- cblas_syrk zero add mul Layout Uplo Trans N K alpha A lda beta C ldc m ;;
      xsyrk_loop Layout Uplo Trans N K alpha lda stridea beta ldc stridec n' (A + stridea) (C + stridec) m'
  end.
(** blas-interface.cpp 307-318 (and 320-337, MKL, by its documentation the same) *)
Definition xsyrk_batch_strided Layout Uplo Trans N K alpha A lda stridea beta C ldc stridec (batch_size : Z)
    : mem -> outcome mem :=
  xsyrk_loop Layout Uplo Trans N K alpha lda stridea beta ldc stridec (Z.to_nat batch_size) A C.

(** blas-interface.cpp 351-356 *)
Fixpoint xtrsm_loop (Layout : layout) (Side : side) (Uplo : uplo) (TransA : transpose) (Diag : diag)
    (M N : Z) (alpha : V) (lda stridea ldb strideb : Z) (n : nat) (A B : Z) (m : mem) : outcome mem :=
  match n with
  | O => Ok m
  | S n' =>
      m' <- cblas_trsm zero one add mul sub div Layout Side Uplo TransA Diag M N alpha A lda B ldb m ;;
      xtrsm_loop Layout Side Uplo TransA Diag M N alpha lda stridea ldb strideb n' (A + stridea) (B + strideb) m'
  end.
(** blas-interface.cpp 345-357 (and 359-379, MKL, by its documentation the same) *)
Definition xtrsm_batch_strided Layout Side Uplo TransA Diag M N alpha A lda stridea B ldb strideb (batch_size : Z)
    : mem -> outcome mem :=
  xtrsm_loop Layout Side Uplo TransA Diag M N alpha lda stridea ldb strideb (Z.to_nat batch_size) A B.

(** blas-interface.cpp 205-219: the iterations in the order in which the OpenMP
    threads run them (each as a whole: the operands of different iterations are
    required to be disjoint). *)
Fixpoint xgemv_batch_strided (layout : layout) (trans : transpose) (rows cols : Z) (alpha : V)
    (a lda stridea x incx stridex : Z) (beta : V) (y incy stridey : Z) (order : list Z) (m : mem)
    : outcome mem :=
  match order with
  | [] => Ok m
  | i :: order' =>
      let offset_a := i * stridea in
      let offset_x := i * stridex in
      let offset_y := i * stridey in
      m' <- cblas_gemv zero add mul layout trans rows cols alpha (a + offset_a) lda (x + offset_x) incx
              beta (y + offset_y) incy m ;;
      xgemv_batch_strided layout trans rows cols alpha a lda stridea x incx stridex beta y incy stridey order' m'
  end.
(** blas-interface.cpp 221-247 (MKL) *)
Definition xgemv_batch_strided_mkl layout trans (rows cols : Z) alpha a lda stridea x incx stridex beta y incy
    stridey (order : list Z) (m : mem) : outcome mem :=
  if (rows =? 0) || (cols =? 0) then Ok m else
  xgemv_batch_strided layout trans rows cols alpha a lda stridea x incx stridex beta y incy stridey order m.

(** xPOTRF (LAPACK, not part of the repository), uplo = L, as in Lapack_Model, but
    a failed factorization leaves anything ([junk]) in the lower triangle. *)
Context (positive : V -> bool) (sqrt : V -> V) (junk : mem -> Z -> Z -> V).
(** xPOTRF as called at src/blas/src/blas-interface.cpp:174-183 *)
Definition potrf (n pA lda : Z) (m : mem) : outcome (mem * Z) :=
  let a := Operand ColMajor pA lda n n (triangle Lower_ NonUnit) in
  if n <? 0 then Ok (m, -2)
  else if legal a then
    if present m a then
      let '(rows, info) := cholesky zero add mul sub div positive sqrt (value zero m a) (Z.to_nat n) in
      Ok (write a (if info =? 0 then entry zero rows else junk m) m, info)
    else UB
  else Ok (m, -4).
(** blas-interface.cpp 392-400: the iterations of xpotrf_batch_strided (Uplo =
    "L"), in any order; the infos are added up. *)
Fixpoint xpotrf_loop (N A lda stridea : Z) (order : list Z) (info_all : Z) (m : mem) : outcome (mem * Z) :=
  match order with
  | [] => Ok (m, info_all)
  | i :: order' =>
      let offset := i * stridea in
      r <- potrf N (A + offset) lda m ;;
      let '(m', info) := r in
      let info := if 0 <? info then 0 else info in
      xpotrf_loop N A lda stridea order' (info_all + info) m'
  end.
(** blas-interface.cpp 388-403 *)
Definition xpotrf_batch_strided N A lda stridea (order : list Z) (m : mem) : outcome mem :=
  r <- xpotrf_loop N A lda stridea order 0 m ;;
  lapack_throw_on_err r.
End Batch.
