(** blas-interface.cpp: the batched loops of builds without MKL. BLAS/LAPACK
    routines are arbitrary state transformers of the memory; pointers are
    offsets. *)
From Verif Require Import Base.
Local Open Scope Z_scope.

(** ** Loops that compute their offsets from the index: an OpenMP schedule runs
    the iterations in some order; each iteration is one call. *)

(** blas-interface.cpp 206-219: iteration i of xgemv_batch_strided. *)
Definition xgemv_iter (stridea stridex stridey : Z) (a x y : Z) (i : Z) : Z * Z * Z :=
  let offset_a := i * stridea in
  let offset_x := i * stridex in
  let offset_y := i * stridey in
  (a + offset_a, x + offset_x, y + offset_y).

(** The loop under schedule [order] (the indices in the order in which their
    bodies run), with xgemv as a transformer [gemv] of the memory. blas-interface.cpp:206-219, the loop. *)
Definition xgemv_batch {S : Type} (gemv : Z * Z * Z -> S -> S) (stridea stridex stridey a x y : Z)
    (order : list Z) (s : S) : S :=
  fold_left (fun s i => gemv (xgemv_iter stridea stridex stridey a x y i) s) order s.

(** Sequential schedule of batch_size iterations. the order of for (i = 0; i < batch_size; ++i) without OpenMP. *)
Definition indices (batch_size : nat) : list Z := map Z.of_nat (seq 0 batch_size).

(** ** blas-interface.cpp 388-403: xpotrf_batch_strided. [potrf o s] is the new
    memory and the info reported for the matrix at offset o. *)
Definition xpotrf_iter {S : Type} (potrf : Z -> S -> S * Z) (stridea A : Z) (i : Z) (s : S) : S * Z :=
  let offset := i * stridea in
  let '(s', info) := potrf (A + offset) s in
  (s', if 0 <? info then 0 else info).

(** reduction(+:info_all): every thread starts a partial sum at 0 and adds the
    infos of its iterations; the partial sums are combined in some order. A
    schedule is the order of iterations with the thread that runs each. *)
Fixpoint xpotrf_loop {S : Type} (potrf : Z -> S -> S * Z) (stridea A : Z)
    (order : list (Z * nat)) (partial : nat -> Z) (s : S) : (nat -> Z) * S :=
  match order with
  | [] => (partial, s)
  | (i, t) :: order' =>
      let '(s', info) := xpotrf_iter potrf stridea A i s in
      xpotrf_loop potrf stridea A order' (fun u => if Nat.eqb u t then partial u + info else partial u) s'
  end.
(** [threads]: the order in which partial sums are combined. blas-interface.cpp:389-403. *)
Definition xpotrf_batch {S : Type} (potrf : Z -> S -> S * Z) (stridea A : Z)
    (order : list (Z * nat)) (threads : list nat) (s : S) : S * outcome unit :=
  let '(partial, s') := xpotrf_loop potrf stridea A order (fun _ => 0) s in
  let info_all := fold_left (fun acc t => acc + partial t) threads 0 in
  (* lapack_throw_on_err, lapack.hpp 31-34 *)
  (s', if info_all =? 0 then Ok tt else Throw lapack_error).

(** ** Loops that advance shared pointers: xgemm_batch_strided (256-270,
    operands A, B, C), xsyrk_batch_strided (307-318, A, C) and
    xtrsm_batch_strided (345-357, A, B). The pointers are variables of the
    function, hence shared by the OpenMP team; an iteration is a call with the
    current pointers followed by one += per pointer. (The concurrent += are data
    races; the model is kinder than C++ and makes each += atomic.) *)
Record mach := Mach {
  ptrs : list Z;                     (* the shared pointers *)
  calls : list (list Z);             (* pointer values of the BLAS calls made so far *)
  threads : list (nat * nat);        (* per thread: iterations left, position in the body *)
}.
(** Thread t makes its next access to the shared pointers: BLAS call, then one increment after the other (loops of xgemm_, xsyrk_ and xtrsm_batch_strided, blas-interface.cpp:256-357) *)
Definition step (strides : list Z) (t : nat) (m : mach) : mach :=
  match nth_error (threads m) t with
  | Some (S n, O) => Mach (ptrs m) (calls m ++ [ptrs m]) (upd (threads m) t (S n, 1%nat))
  | Some (S n, S j) =>
      Mach (upd (ptrs m) j (nth j (ptrs m) 0 + nth j strides 0)) (calls m)
           (upd (threads m) t (if Nat.eqb (S j) (length strides) then (n, 0%nat) else (S n, S (S j))))
  | _ => m
  end.
(** Any interleaving of the steps of the threads (blas-interface.cpp:256-357) *)
Definition run (strides : list Z) (schedule : list nat) (m : mach) : mach :=
  fold_left (fun m t => step strides t m) schedule m.
(** The team shares out the iterations: thread t gets (nth t shares). #pragma omp parallel for of blas-interface.cpp:256-357. *)
Definition start (base : list Z) (shares : list nat) : mach := Mach base [] (map (fun n => (n, 0%nat)) shares).
(** The end of the parallel loop (blas-interface.cpp:256-357) *)
Definition finished (m : mach) : Prop := forall t x, nth_error (threads m) t = Some x -> x = (0%nat, 0%nat).
