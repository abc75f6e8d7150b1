(** Model of src/blas/include/guanaqo/blas/hl-blas-interface.hpp on top of a
    reference BLAS/LAPACK.

    The elements are an arbitrary type with arithmetic operations; the theorems
    take them to be an (exact) field. Rounding and the order of summation of a
    real BLAS are not modelled. Memory is that of MatView_Model. GUANAQO_TRACE
    (off by default, no effect on the operands) is left out. *)
From Verif Require Import Base MatView_Model.
Local Open Scope outcome_scope.
Local Open Scope Z_scope.

(** CBLAS_LAYOUT, used at hl-blas-interface.hpp:24-310 *)
Inductive layout := ColMajor | RowMajor.
(** CBLAS_UPLO, used at hl-blas-interface.hpp:102-310 *)
Inductive uplo := Upper_ | Lower_.
(** CBLAS_TRANSPOSE, used at hl-blas-interface.hpp:24-310 *)
Inductive transpose := NoTrans | Trans.
(** CBLAS_DIAG, used at hl-blas-interface.hpp:158-310 *)
Inductive diag := NonUnit | Unit.
(** CBLAS_SIDE, used at hl-blas-interface.hpp:202-310 *)
Inductive side := Left_ | Right_.

Section Blas.
Context {V : Type} (zero one : V) (add mul sub div : V -> V -> V).
Local Notation mem := (@MatView_Model.mem V).

(** ** The reference BLAS (netlib semantics; not part of the repository).
    Every routine checks its arguments as netlib does (an illegal leading
    dimension or size ends in cblas_xerbla, which prints a message and exits:
    [Abort]); [UB] if an operand is not allocated or if the output overlaps an
    input, which the standard forbids. Only the triangle selected by [uplo] of a
    triangular or symmetric operand is accessed. The quick returns that skip
    reading an input (alpha = 0, ...) are left out. *)

(** The positions (i, j) of an m x n matrix that satisfy [sel]. Not in the code: the reference BLAS behind src/blas/src/blas-interface.cpp:8-172. *)
Definition range (n : Z) : list Z := map Z.of_nat (seq 0 (Z.to_nat n)).
(** The reference BLAS behind src/blas/src/blas-interface.cpp:8-172 *)
Definition cells (m n : Z) (sel : Z -> Z -> bool) : list (Z * Z) :=
  filter (fun p => sel (fst p) (snd p)) (list_prod (range m) (range n)).
(** The reference BLAS behind src/blas/src/blas-interface.cpp:8-172: a general matrix *)
Definition everywhere (_ _ : Z) : bool := true.
(** The triangle selected by [uplo], with or without diagonal. The reference BLAS behind src/blas/src/blas-interface.cpp:8-172. *)
Definition triangle (u : uplo) (d : diag) (i j : Z) : bool :=
  match u, d with
  | Lower_, NonUnit => j <=? i
  | Lower_, Unit => j <? i
  | Upper_, NonUnit => i <=? j
  | Upper_, Unit => i <? j
  end.

(** A matrix argument: pointer, leading dimension, size and the accessed part. As passed at src/blas/src/blas-interface.cpp:8-172. *)
Record operand := Operand { lay : layout; ptr : Z; ld : Z; nrows : Z; ncols : Z; sel : Z -> Z -> bool }.
(** The reference BLAS behind src/blas/src/blas-interface.cpp:8-172 *)
Definition address (o : operand) (i j : Z) : Z :=
  match lay o with ColMajor => ptr o + i + j * ld o | RowMajor => ptr o + i * ld o + j end.
(** The reference BLAS behind src/blas/src/blas-interface.cpp:8-172: what it may access *)
Definition addresses (o : operand) : list Z :=
  map (fun p => address o (fst p) (snd p)) (cells (nrows o) (ncols o) (sel o)).
(** LD >= max(1, rows) (columns for row-major), sizes non-negative. *)
Definition legal (o : operand) : bool :=
  (0 <=? nrows o) && (0 <=? ncols o) &&
  (Z.max 1 (match lay o with ColMajor => nrows o | RowMajor => ncols o end) <=? ld o).
(** All of them are elements of arrays (blas-interface.cpp:8-172) *)
Definition present (m : mem) (o : operand) : bool :=
  forallb (fun a => match m a with Some _ => true | None => false end) (addresses o).
(** The reference BLAS behind src/blas/src/blas-interface.cpp:8-172 *)
Definition overlap (o o' : operand) : bool :=
  existsb (fun a => existsb (Z.eqb a) (addresses o')) (addresses o).
(** The reference BLAS behind src/blas/src/blas-interface.cpp:8-172 *)
Definition value (m : mem) (o : operand) (i j : Z) : V :=
  match m (address o i j) with Some x => x | None => zero end.
(** Store [f i j] at every accessed position of [o]. The reference BLAS behind src/blas/src/blas-interface.cpp:8-172. *)
Definition write (o : operand) (f : Z -> Z -> V) (m : mem) : mem :=
  fun a => match find (fun p => address o (fst p) (snd p) =? a) (cells (nrows o) (ncols o) (sel o)) with
           | Some p => Some (f (fst p) (snd p))
           | None => m a
           end.
(** A routine that reads [inputs] and overwrites [output]. The reference BLAS behind src/blas/src/blas-interface.cpp:8-172. *)
Definition routine (inputs : list operand) (output : operand) (f : mem -> Z -> Z -> V) (m : mem)
    : outcome mem :=
  if forallb legal (output :: inputs) then
    if forallb (present m) (output :: inputs) && negb (existsb (overlap output) inputs)
    then Ok (write output (f m) m) else UB
  else Abort.

(** A sum (reference BLAS, blas-interface.cpp:8-172) *)
Definition total (n : Z) (f : Z -> V) : V := fold_right add zero (map f (range n)).
(** op(X) (reference BLAS, blas-interface.cpp:8-172) *)
Definition op (t : transpose) (f : Z -> Z -> V) (i j : Z) : V :=
  match t with NoTrans => f i j | Trans => f j i end.
(** Size of the stored matrix X when op(X) is m x n. Reference BLAS, blas-interface.cpp:8-172. *)
Definition stored (l : layout) (t : transpose) (p ld m n : Z) : operand :=
  match t with NoTrans => Operand l p ld m n everywhere | Trans => Operand l p ld n m everywhere end.
(** The triangular matrix that the stored triangle of [o] stands for. Reference BLAS, blas-interface.cpp:8-172. *)
Definition tri (m : mem) (o : operand) (d : diag) (i j : Z) : V :=
  if sel o i j then value m o i j else
  match d with Unit => if i =? j then one else zero | NonUnit => zero end.

(** cblas_xgemm: C <- alpha op(A) op(B) + beta C. Called through blas-interface.cpp:8-172. *)
Definition cblas_gemm l ta tb M N K alpha pA lda pB ldb beta pC ldc : mem -> outcome mem :=
  let a := stored l ta pA lda M K in
  let b := stored l tb pB ldb K N in
  let c := Operand l pC ldc M N everywhere in
  routine [a; b] c (fun m i j =>
    add (mul alpha (total K (fun k => mul (op ta (value m a) i k) (op tb (value m b) k j))))
        (mul beta (value m c i j))).
(** cblas_xgemmt: the same for one triangle of a square C. Called through blas-interface.cpp:8-172. *)
Definition cblas_gemmt l u ta tb N K alpha pA lda pB ldb beta pC ldc : mem -> outcome mem :=
  let a := stored l ta pA lda N K in
  let b := stored l tb pB ldb K N in
  let c := Operand l pC ldc N N (triangle u NonUnit) in
  routine [a; b] c (fun m i j =>
    add (mul alpha (total K (fun k => mul (op ta (value m a) i k) (op tb (value m b) k j))))
        (mul beta (value m c i j))).
(** cblas_xsyrk: one triangle of C <- alpha op(A) op(A)^T + beta C; op(A) is N x K. Called through blas-interface.cpp:8-172. *)
Definition cblas_syrk l u t N K alpha pA lda beta pC ldc : mem -> outcome mem :=
  let a := stored l t pA lda N K in
  let c := Operand l pC ldc N N (triangle u NonUnit) in
  routine [a] c (fun m i j =>
    add (mul alpha (total K (fun k => mul (op t (value m a) i k) (op t (value m a) j k))))
        (mul beta (value m c i j))).
(** A vector of n elements with increment [inc] > 0, as a 1 x n column-major
    matrix (negative increments, which no wrapper uses, are rejected). *)
Definition vector (p inc n : Z) : operand := Operand ColMajor p inc 1 n everywhere.
(** cblas_xgemv: y <- alpha op(A) x + beta y; A is M x N. Called through blas-interface.cpp:8-172. *)
Definition cblas_gemv l t M N alpha pA lda pX incX beta pY incY : mem -> outcome mem :=
  let a := Operand l pA lda M N everywhere in
  let nx := match t with NoTrans => N | Trans => M end in
  let ny := match t with NoTrans => M | Trans => N end in
  let x := vector pX incX nx in
  let y := vector pY incY ny in
  routine [a; x] y (fun m _ i =>
    add (mul alpha (total nx (fun k => mul (op t (value m a) i k) (value m x 0 k))))
        (mul beta (value m y 0 i))).
(** cblas_xtrmm: B <- alpha op(A) B (left) or alpha B op(A) (right); B is M x N. Called through blas-interface.cpp:8-172. *)
Definition cblas_trmm l s u t d M N alpha pA lda pB ldb : mem -> outcome mem :=
  let na := match s with Left_ => M | Right_ => N end in
  let a := Operand l pA lda na na (triangle u d) in
  let b := Operand l pB ldb M N everywhere in
  routine [a] b (fun m i j =>
    mul alpha (match s with
               | Left_ => total M (fun k => mul (op t (tri m a d) i k) (value m b k j))
               | Right_ => total N (fun k => mul (value m b i k) (op t (tri m a d) k j))
               end)).
(** cblas_xtrmv: x <- op(A) x. Called through blas-interface.cpp:8-172. *)
Definition cblas_trmv l u t d N pA lda pX incX : mem -> outcome mem :=
  let a := Operand l pA lda N N (triangle u d) in
  let x := vector pX incX N in
  routine [a] x (fun m _ i => total N (fun k => mul (op t (tri m a d) i k) (value m x 0 k))).

(** Substitution: the first [n] entries of the solution x of the lower
    triangular system T x = b. Reference BLAS, blas-interface.cpp:8-172. *)
Fixpoint substitute (T : Z -> Z -> V) (b : Z -> V) (n : nat) : list V :=
  match n with
  | O => []
  | S k =>
      let xs := substitute T b k in
      let i := Z.of_nat k in
      xs ++ [div (sub (b i) (total i (fun j => mul (T i j) (nth (Z.to_nat j) xs zero)))) (T i i)]
  end.
(** The solution of the n x n system T x = b, forwards if T is lower triangular,
    backwards (by renumbering the unknowns) if it is upper triangular. Reference BLAS, blas-interface.cpp:8-172. *)
Definition solve (upper : bool) (T : Z -> Z -> V) (b : Z -> V) (n : Z) (i : Z) : V :=
  if upper then
    let rev k := n - 1 - k in
    nth (Z.to_nat (rev i)) (substitute (fun r c => T (rev r) (rev c)) (fun r => b (rev r)) (Z.to_nat n)) zero
  else nth (Z.to_nat i) (substitute T b (Z.to_nat n)) zero.
(** op(A) is upper triangular. Reference BLAS, blas-interface.cpp:8-172. *)
Definition op_upper (u : uplo) (t : transpose) : bool :=
  match u, t with Lower_, NoTrans | Upper_, Trans => false | _, _ => true end.
(** cblas_xtrsm: B <- alpha op(A)^-1 B (left) or alpha B op(A)^-1 (right). *)
Definition cblas_trsm l s u t d M N alpha pA lda pB ldb : mem -> outcome mem :=
  let na := match s with Left_ => M | Right_ => N end in
  let a := Operand l pA lda na na (triangle u d) in
  let b := Operand l pB ldb M N everywhere in
  routine [a] b (fun m i j =>
    match s with
    | Left_ => solve (op_upper u t) (op t (tri m a d)) (fun k => mul alpha (value m b k j)) M i
    | Right_ => solve (negb (op_upper u t)) (fun r c => op t (tri m a d) c r)
                  (fun k => mul alpha (value m b i k)) N j
    end).
(** cblas_xtrsv: x <- op(A)^-1 x. *)
Definition cblas_trsv l u t d N pA lda pX incX : mem -> outcome mem :=
  let a := Operand l pA lda N N (triangle u d) in
  let x := vector pX incX N in
  routine [a] x (fun m _ i => solve (op_upper u t) (op t (tri m a d)) (fun k => value m x 0 k) N i).

(** ** The wrappers *)

(** GUANAQO_ASSUME, assume.hpp 10-46: std::logic_error when assumptions are
    verified ([chk]: NDEBUG not defined or GUANAQO_VERIFY_ASSUMPTIONS), undefined
    behaviour otherwise. *)
Context (chk : bool).
(** GUANAQO_ASSUME, assume.hpp:10-44; [chk]: the debug version *)
Definition assume {A} (c : bool) (k : outcome A) : outcome A :=
  if c then k else if chk then Throw logic_error else UB.

(** hl-blas-interface.hpp 24-34 *)
Definition xgemv_N (alpha : V) (A x : view) (beta : V) (y : view) (m : mem) : outcome mem :=
  assume (rows A =? rows y) (assume (cols A =? rows x) (assume (cols x =? 1) (assume (cols y =? 1)
  (cblas_gemv ColMajor NoTrans (rows A) (cols A) alpha (data A) (outer_stride A)
     (data x) 1 beta (data y) 1 m)))).
(** hl-blas-interface.hpp 37-47 *)
Definition xgemv_T (alpha : V) (A x : view) (beta : V) (y : view) (m : mem) : outcome mem :=
  assume (cols A =? rows y) (assume (rows A =? rows x) (assume (cols x =? 1) (assume (cols y =? 1)
  (cblas_gemv ColMajor Trans (rows A) (cols A) alpha (data A) (outer_stride A)
     (data x) 1 beta (data y) 1 m)))).

(** hl-blas-interface.hpp 50-60 *)
Definition xgemm_NN (alpha : V) (A B : view) (beta : V) (C : view) (m : mem) : outcome mem :=
  assume (rows A =? rows C) (assume (cols A =? rows B) (assume (cols B =? cols C)
  (cblas_gemm ColMajor NoTrans NoTrans (rows C) (cols C) (cols A) alpha
     (data A) (outer_stride A) (data B) (outer_stride B) beta (data C) (outer_stride C) m))).
(** hl-blas-interface.hpp 63-73 *)
Definition xgemm_TN (alpha : V) (A B : view) (beta : V) (C : view) (m : mem) : outcome mem :=
  assume (cols A =? rows C) (assume (rows A =? rows B) (assume (cols B =? cols C)
  (cblas_gemm ColMajor Trans NoTrans (rows C) (cols C) (rows A) alpha
     (data A) (outer_stride A) (data B) (outer_stride B) beta (data C) (outer_stride C) m))).
(** hl-blas-interface.hpp 76-86 *)
Definition xgemm_TT (alpha : V) (A B : view) (beta : V) (C : view) (m : mem) : outcome mem :=
  assume (cols A =? rows C) (assume (rows A =? cols B) (assume (rows B =? cols C)
  (cblas_gemm ColMajor Trans Trans (rows C) (cols C) (rows A) alpha
     (data A) (outer_stride A) (data B) (outer_stride B) beta (data C) (outer_stride C) m))).
(** hl-blas-interface.hpp 89-99 *)
Definition xgemm_NT (alpha : V) (A B : view) (beta : V) (C : view) (m : mem) : outcome mem :=
  assume (rows A =? rows C) (assume (cols A =? cols B) (assume (rows B =? cols C)
  (cblas_gemm ColMajor NoTrans Trans (rows C) (cols C) (cols A) alpha
     (data A) (outer_stride A) (data B) (outer_stride B) beta (data C) (outer_stride C) m))).

(** hl-blas-interface.hpp 102-113 *)
Definition xgemmt_LNN (alpha : V) (A B : view) (beta : V) (C : view) (m : mem) : outcome mem :=
  assume (rows A =? rows C) (assume (cols A =? rows B) (assume (cols B =? cols C)
  (assume (rows C =? cols C)
  (cblas_gemmt ColMajor Lower_ NoTrans NoTrans (rows C) (cols A) alpha
     (data A) (outer_stride A) (data B) (outer_stride B) beta (data C) (outer_stride C) m)))).
(** hl-blas-interface.hpp 116-127 *)
Definition xgemmt_LTN (alpha : V) (A B : view) (beta : V) (C : view) (m : mem) : outcome mem :=
  assume (cols A =? rows C) (assume (rows A =? rows B) (assume (cols B =? cols C)
  (assume (rows C =? cols C)
  (cblas_gemmt ColMajor Lower_ Trans NoTrans (rows C) (rows A) alpha
     (data A) (outer_stride A) (data B) (outer_stride B) beta (data C) (outer_stride C) m)))).
(** hl-blas-interface.hpp 130-141 *)
Definition xgemmt_LTT (alpha : V) (A B : view) (beta : V) (C : view) (m : mem) : outcome mem :=
  assume (cols A =? rows C) (assume (rows A =? cols B) (assume (rows B =? cols C)
  (assume (rows C =? cols C)
  (cblas_gemmt ColMajor Lower_ Trans Trans (rows C) (rows A) alpha
     (data A) (outer_stride A) (data B) (outer_stride B) beta (data C) (outer_stride C) m)))).
(** hl-blas-interface.hpp 144-155 *)
Definition xgemmt_LNT (alpha : V) (A B : view) (beta : V) (C : view) (m : mem) : outcome mem :=
  assume (rows A =? rows C) (assume (cols A =? cols B) (assume (rows B =? cols C)
  (assume (rows C =? cols C)
  (cblas_gemmt ColMajor Lower_ NoTrans Trans (rows C) (cols A) alpha
     (data A) (outer_stride A) (data B) (outer_stride B) beta (data C) (outer_stride C) m)))).

(** hl-blas-interface.hpp 158-166 *)
Definition xtrmv_LNN (A x : view) (m : mem) : outcome mem :=
  assume (rows A =? cols A) (assume (cols A =? rows x) (assume (cols x =? 1)
  (cblas_trmv ColMajor Lower_ NoTrans NonUnit (rows A) (data A) (outer_stride A) (data x) 1 m))).
(** hl-blas-interface.hpp 169-177 *)
Definition xtrmv_LTN (A x : view) (m : mem) : outcome mem :=
  assume (rows A =? cols A) (assume (cols A =? rows x) (assume (cols x =? 1)
  (cblas_trmv ColMajor Lower_ Trans NonUnit (rows A) (data A) (outer_stride A) (data x) 1 m))).
(** hl-blas-interface.hpp 180-188 *)
Definition xtrsv_LNN (A x : view) (m : mem) : outcome mem :=
  assume (rows A =? cols A) (assume (cols A =? rows x) (assume (cols x =? 1)
  (cblas_trsv ColMajor Lower_ NoTrans NonUnit (rows A) (data A) (outer_stride A) (data x) 1 m))).
(** hl-blas-interface.hpp 191-199 *)
Definition xtrsv_LTN (A x : view) (m : mem) : outcome mem :=
  assume (rows A =? cols A) (assume (cols A =? rows x) (assume (cols x =? 1)
  (cblas_trsv ColMajor Lower_ Trans NonUnit (rows A) (data A) (outer_stride A) (data x) 1 m))).

(** hl-blas-interface.hpp 202-210 *)
Definition xtrmm_LLNN (alpha : V) (A B : view) (m : mem) : outcome mem :=
  assume (rows A =? cols A) (assume (cols A =? rows B)
  (cblas_trmm ColMajor Left_ Lower_ NoTrans NonUnit (rows B) (cols B) alpha
     (data A) (outer_stride A) (data B) (outer_stride B) m)).
(** hl-blas-interface.hpp 213-221 *)
Definition xtrmm_LLTN (alpha : V) (A B : view) (m : mem) : outcome mem :=
  assume (rows A =? cols A) (assume (cols A =? rows B)
  (cblas_trmm ColMajor Left_ Lower_ Trans NonUnit (rows B) (cols B) alpha
     (data A) (outer_stride A) (data B) (outer_stride B) m)).
(** hl-blas-interface.hpp 224-232 *)
Definition xtrmm_RLNN (alpha : V) (A B : view) (m : mem) : outcome mem :=
  assume (rows A =? cols A) (assume (rows A =? cols B)
  (cblas_trmm ColMajor Right_ Lower_ NoTrans NonUnit (rows B) (cols B) alpha
     (data A) (outer_stride A) (data B) (outer_stride B) m)).
(** hl-blas-interface.hpp 235-243 *)
Definition xtrmm_RLTN (alpha : V) (A B : view) (m : mem) : outcome mem :=
  assume (rows A =? cols A) (assume (rows A =? cols B)
  (cblas_trmm ColMajor Right_ Lower_ Trans NonUnit (rows B) (cols B) alpha
     (data A) (outer_stride A) (data B) (outer_stride B) m)).

(** hl-blas-interface.hpp 246-253 *)
Definition xsyrk_LN (alpha : V) (A : view) (beta : V) (C : view) (m : mem) : outcome mem :=
  assume (rows C =? cols C) (assume (rows A =? rows C)
  (cblas_syrk ColMajor Lower_ NoTrans (rows C) (cols A) alpha (data A) (outer_stride A)
     beta (data C) (outer_stride C) m)).
(** hl-blas-interface.hpp 256-263 *)
Definition xsyrk_LT (alpha : V) (A : view) (beta : V) (C : view) (m : mem) : outcome mem :=
  assume (rows C =? cols C) (assume (cols A =? rows C)
  (cblas_syrk ColMajor Lower_ Trans (rows C) (rows A) alpha (data A) (outer_stride A)
     beta (data C) (outer_stride C) m)).

(** hl-blas-interface.hpp 266-275 *)
Definition xtrsm_LLNN (alpha : V) (A B : view) (m : mem) : outcome mem :=
  assume (rows A =? cols A) (assume (cols A =? rows B)
  (cblas_trsm ColMajor Left_ Lower_ NoTrans NonUnit (rows B) (cols B) alpha
     (data A) (outer_stride A) (data B) (outer_stride B) m)).
(** hl-blas-interface.hpp 278-287 *)
Definition xtrsm_LLTN (alpha : V) (A B : view) (m : mem) : outcome mem :=
  assume (rows A =? cols A) (assume (rows A =? rows B)
  (cblas_trsm ColMajor Left_ Lower_ Trans NonUnit (rows B) (cols B) alpha
     (data A) (outer_stride A) (data B) (outer_stride B) m)).
(** hl-blas-interface.hpp 290-299 *)
Definition xtrsm_RLNN (alpha : V) (A B : view) (m : mem) : outcome mem :=
  assume (rows A =? cols A) (assume (cols A =? cols B)
  (cblas_trsm ColMajor Right_ Lower_ NoTrans NonUnit (rows B) (cols B) alpha
     (data A) (outer_stride A) (data B) (outer_stride B) m)).
(** hl-blas-interface.hpp 302-311 *)
Definition xtrsm_RLTN (alpha : V) (A B : view) (m : mem) : outcome mem :=
  assume (rows A =? cols A) (assume (cols A =? cols B)
  (cblas_trsm ColMajor Right_ Lower_ Trans NonUnit (rows B) (cols B) alpha
     (data A) (outer_stride A) (data B) (outer_stride B) m)).
End Blas.
