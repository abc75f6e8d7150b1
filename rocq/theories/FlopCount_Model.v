(** hl-blas-interface.hpp: the arguments of GUANAQO_TRACE_HL_BLAS(name, 0, flop_count)
    (GUANAQO_WITH_HL_BLAS_TRACING, lines 15-19). The macro comes after the GUANAQO_ASSUMEs
    and before the call of BLAS; what TraceLogger::trace does with its arguments is in
    Trace_Model. The count is computed in the index type [I] of the views (signed, not
    narrower than int: overflow is [UB]) and then converted to int64_t, which holds all
    values of I (trace.hpp:148). *)
From Coq Require Import String.
From Verif Require Import Base MatView_Model MatViewIndex_Model.
Local Open Scope outcome_scope.
Local Open Scope Z_scope.

Section Flops.
Variable I : index_type.

(** a * b (hl-blas-interface.hpp:31) *)
Definition times2 (a b : Z) : outcome Z := ix I (a * b).
(** a * b * c (hl-blas-interface.hpp:56) *)
Definition times3 (a b c : Z) : outcome Z := p <- ix I (a * b) ;; ix I (p * c).
(** n * (n + 1) / 2 (hl-blas-interface.hpp:163) *)
Definition half2 (n : Z) : outcome Z :=
  s <- ix I (n + 1) ;; p <- ix I (n * s) ;; ix I (Z.quot p 2).
(** n * (n + 1) * k / 2 (hl-blas-interface.hpp:109) *)
Definition half3 (n k : Z) : outcome Z :=
  s <- ix I (n + 1) ;; p <- ix I (n * s) ;; q <- ix I (p * k) ;; ix I (Z.quot q 2).
(** n * (n + 1) * k / 2 + n (hl-blas-interface.hpp:271) *)
Definition half3_plus (n k : Z) : outcome Z :=
  h <- half3 n k ;; ix I (h + n).

(** What is passed to trace(): the name and the flop_count (trace.hpp:147-148) *)
Definition trace_args := (string * outcome Z)%type.

(** hl-blas-interface.hpp:31 *)
Definition trace_xgemv_N (A x y : view) : trace_args := ("gemv"%string, times2 (rows A) (cols A)).
(** hl-blas-interface.hpp:44 *)
Definition trace_xgemv_T (A x y : view) : trace_args := ("gemv"%string, times2 (rows A) (cols A)).
(** hl-blas-interface.hpp:56 *)
Definition trace_xgemm_NN (A B C : view) : trace_args := ("gemm"%string, times3 (rows C) (cols C) (cols A)).
(** hl-blas-interface.hpp:69 *)
Definition trace_xgemm_TN (A B C : view) : trace_args := ("gemm"%string, times3 (rows C) (cols C) (rows A)).
(** hl-blas-interface.hpp:82 *)
Definition trace_xgemm_TT (A B C : view) : trace_args := ("gemm"%string, times3 (rows C) (cols C) (rows A)).
(** hl-blas-interface.hpp:95 *)
Definition trace_xgemm_NT (A B C : view) : trace_args := ("gemm"%string, times3 (rows C) (cols C) (cols A)).
(** hl-blas-interface.hpp:109 *)
Definition trace_xgemmt_LNN (A B C : view) : trace_args := ("gemmt"%string, half3 (rows C) (cols A)).
(** hl-blas-interface.hpp:123 *)
Definition trace_xgemmt_LTN (A B C : view) : trace_args := ("gemmt"%string, half3 (rows C) (rows A)).
(** hl-blas-interface.hpp:137 *)
Definition trace_xgemmt_LTT (A B C : view) : trace_args := ("gemmt"%string, half3 (rows C) (rows A)).
(** hl-blas-interface.hpp:151 *)
Definition trace_xgemmt_LNT (A B C : view) : trace_args := ("gemmt"%string, half3 (rows C) (cols A)).
(** hl-blas-interface.hpp:163 *)
Definition trace_xtrmv_LNN (A x : view) : trace_args := ("trmv"%string, half2 (rows A)).
(** hl-blas-interface.hpp:174 *)
Definition trace_xtrmv_LTN (A x : view) : trace_args := ("trmv"%string, half2 (rows A)).
(** hl-blas-interface.hpp:185 *)
Definition trace_xtrsv_LNN (A x : view) : trace_args := ("trsv"%string, half2 (rows A)).
(** hl-blas-interface.hpp:196 *)
Definition trace_xtrsv_LTN (A x : view) : trace_args := ("trsv"%string, half2 (rows A)).
(** hl-blas-interface.hpp:206 *)
Definition trace_xtrmm_LLNN (A B : view) : trace_args := ("trmm"%string, half3 (rows A) (cols B)).
(** hl-blas-interface.hpp:217 *)
Definition trace_xtrmm_LLTN (A B : view) : trace_args := ("trmm"%string, half3 (rows A) (cols B)).
(** hl-blas-interface.hpp:228 *)
Definition trace_xtrmm_RLNN (A B : view) : trace_args := ("trmm"%string, half3 (rows A) (rows B)).
(** hl-blas-interface.hpp:239 *)
Definition trace_xtrmm_RLTN (A B : view) : trace_args := ("trmm"%string, half3 (rows A) (rows B)).
(** hl-blas-interface.hpp:250 *)
Definition trace_xsyrk_LN (A C : view) : trace_args := ("syrk"%string, half3 (rows C) (cols A)).
(** hl-blas-interface.hpp:260 *)
Definition trace_xsyrk_LT (A C : view) : trace_args := ("syrk"%string, half3 (rows C) (rows A)).
(** hl-blas-interface.hpp:270-271 *)
Definition trace_xtrsm_LLNN (A B : view) : trace_args := ("trsm"%string, half3_plus (rows A) (cols B)).
(** hl-blas-interface.hpp:282-283 *)
Definition trace_xtrsm_LLTN (A B : view) : trace_args := ("trsm"%string, half3_plus (rows A) (cols B)).
(** hl-blas-interface.hpp:294-295 *)
Definition trace_xtrsm_RLNN (A B : view) : trace_args := ("trsm"%string, half3_plus (rows A) (rows B)).
(** hl-blas-interface.hpp:306-307 *)
Definition trace_xtrsm_RLTN (A B : view) : trace_args := ("trsm"%string, half3_plus (rows A) (rows B)).

(** hl-blas-interface.hpp:328-330: (n - 1) * n * (n + 1) / 6 + (n - 1) * n / 2 + 2 * n *)
Definition trace_xpotrf_L (A : view) : trace_args :=
  let n := rows A in
  ("potrf"%string,
   d <- ix I (n - 1) ;; p <- ix I (d * n) ;; s <- ix I (n + 1) ;; q <- ix I (p * s) ;;
   t <- ix I (Z.quot q 6) ;;
   h <- ix I (Z.quot p 2) ;; u <- ix I (t + h) ;;
   w <- ix I (2 * n) ;; ix I (u + w)).
(** hl-blas-interface.hpp:340-342, in xlauum_L:
    (n - 2) * (n - 1) * n / 6 + (n - 1) * (n + 2) / 2 + n *)
Definition trace_xlauum_L (A : view) : trace_args :=
  let n := rows A in
  ("trtri"%string,
   e <- ix I (n - 2) ;; d <- ix I (n - 1) ;; p <- ix I (e * d) ;; q <- ix I (p * n) ;;
   t <- ix I (Z.quot q 6) ;;
   s <- ix I (n + 2) ;; r <- ix I (d * s) ;; h <- ix I (Z.quot r 2) ;;
   u <- ix I (t + h) ;; ix I (u + n)).
(** hl-blas-interface.hpp:352-354, in xtrtri_LN:
    (n - 2) * (n - 1) * n / 6 + (n - 1) * n / 2 + n *)
Definition trace_xtrtri_LN (A : view) : trace_args :=
  let n := rows A in
  ("trtri"%string,
   e <- ix I (n - 2) ;; d <- ix I (n - 1) ;; p <- ix I (e * d) ;; q <- ix I (p * n) ;;
   t <- ix I (Z.quot q 6) ;;
   r <- ix I (d * n) ;; h <- ix I (Z.quot r 2) ;;
   u <- ix I (t + h) ;; ix I (u + n)).
End Flops.
