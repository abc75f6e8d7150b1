(** C54-C56: batched BLAS/LAPACK loops. *)
From Verif Require Import Base Batch_Model Batch_Spec Batch_Proofs.
Local Open Scope Z_scope.

(** C55. The loop without OpenMP runs the indices 0, 1, ..., batch_size - 1 in this order. *)
Theorem C55_sequential_order : forall n, length (indices n) = n /\ forall k, (k < n)%nat -> nth_error (indices n) k = Some (Z.of_nat k).
Proof.
  intros n. unfold indices. split; [now rewrite map_length, seq_length|]. intros k H.
  rewrite nth_error_map, (nth_error_nth' _ 0%nat) by now rewrite seq_length. now rewrite seq_nth.
Qed.
Print Assumptions C55_sequential_order.
Lemma in_indices n i : In i (indices n) <-> 0 <= i < Z.of_nat n.
Proof.
  unfold indices. rewrite in_map_iff. split; [intros (k & <- & H); apply in_seq in H; lia|]. intros H. exists (Z.to_nat i). rewrite in_seq. lia.
Qed.
Lemma order_permutation n order : each_once (Z.of_nat n) order -> Permutation order (indices n).
Proof. intros [N H]. apply NoDup_Permutation; [exact N|apply indices_nodup|]. intros i. now rewrite H, in_indices. Qed.

(** For every order in which the iterations run (each index in [0, batch_size) once): the calls made are
    exactly those on the operands at offsets i*stride, one per batch index; *)
Theorem C55_gemv_calls :
  forall sa sx sy a x y n order, each_once (Z.of_nat n) order ->
  Permutation (xgemv_batch (fun c (log : list (Z * Z * Z)) => log ++ [c]) sa sx sy a x y order [])
              (map (fun k => (a + Z.of_nat k * sa, x + Z.of_nat k * sx, y + Z.of_nat k * sy)) (seq 0 n)).
Proof.
  intros sa sx sy a x y n order H. rewrite gemv_calls. rewrite <- (map_map Z.of_nat (fun i => (a + i * sa, x + i * sx, y + i * sy))).
  apply Permutation_map. now apply order_permutation.
Qed.
Print Assumptions C55_gemv_calls.

(** ... and if calls for different indices do not interfere (they commute as
    transformers of the memory, e.g. because they write disjoint vectors), the
    result is that of the sequential loop. *)
Theorem C55_gemv_schedule_independent :
  forall (S : Type) (gemv : Z * Z * Z -> S -> S) sa sx sy a x y n order s,
  each_once (Z.of_nat n) order ->
  (forall i j s, 0 <= i < Z.of_nat n -> 0 <= j < Z.of_nat n -> i <> j ->
     gemv (a + i * sa, x + i * sx, y + i * sy) (gemv (a + j * sa, x + j * sx, y + j * sy) s) =
     gemv (a + j * sa, x + j * sx, y + j * sy) (gemv (a + i * sa, x + i * sx, y + i * sy) s)) ->
  xgemv_batch gemv sa sx sy a x y order s =
  fold_left (fun s k => gemv (a + Z.of_nat k * sa, x + Z.of_nat k * sx, y + Z.of_nat k * sy) s) (seq 0 n) s.
Proof.
  intros S gemv sa sx sy a x y n order s H C. rewrite (gemv_any_order gemv sa sx sy a x y n order s); [|now apply order_permutation|intros i j s0 Hi Hj; apply C; now apply in_indices].
  unfold indices. generalize (seq 0 n). intros l. revert s. induction l as [|k l IH]; intros s; [reflexivity|]. apply IH.
Qed.
Print Assumptions C55_gemv_schedule_independent.

(** Memory: one cell per y vector; gemv adds what it reads from the matrix. *)
Example C55_nonvacuous :
  let gemv := fun (c : Z * Z * Z) (s : Z -> Z) => fun k => let '(a, x, y) := c in if k =? y then s k + a * 10 + x else s k in
  each_once 3 [2; 0; 1] /\
  map (xgemv_batch gemv 4 5 6 100 200 300 [2; 0; 1] (fun _ => 0)) [300; 306; 312] = [1200; 1245; 1290].
Proof.
  split; [|reflexivity]. split; [repeat (constructor; [cbn; lia|]); constructor|]. intros i. cbn. lia.
Qed.

(** C56. For every schedule (order of iterations, their assignment to threads,
    the order in which partial sums are combined): every matrix is factorized,
    and the call throws exactly when some factorization reported a negative
    info; positive infos are ignored. [infos] lists what xpotrf reported. *)
Theorem C56_potrf_errors :
  forall (S : Type) (potrf : Z -> S -> S * Z) stridea A order threads s,
  NoDup threads -> (forall i t, In (i, t) order -> In t threads) ->
  let '(s', res) := xpotrf_batch potrf stridea A order threads s in
  s' = fold_left (fun s i => fst (potrf (A + i * stridea) s)) (map fst order) s /\
  (res = Ok tt <-> forall x, In x (infos potrf stridea A (map fst order) s) -> 0 <= x) /\
  (res = Throw lapack_error <-> exists x, In x (infos potrf stridea A (map fst order) s) /\ x < 0).
Proof. exact @potrf_main. Qed.
Print Assumptions C56_potrf_errors.

(** The sums stay within [-b*batch_size, 0] when infos are at least -b, so the
    reduction does not overflow for b*batch_size below the range of index_t. *)
Theorem C56_no_overflow :
  forall l b, (forall x, In x l -> - b <= x) -> 0 <= b ->
  - (b * Z.of_nat (length l)) <= fold_right Z.add 0 (map (fun x => if 0 <? x then 0 else x) l) <= 0.
Proof. exact potrf_no_overflow. Qed.
Print Assumptions C56_no_overflow.

(** A positive info does not cancel a negative one. *)
Example C56_nonvacuous :
  let potrf := fun o (s : list Z) => (s ++ [o], if o =? 10 then 5 else if o =? 15 then -5 else 0) in
  xpotrf_batch potrf 5 0 [(2, 1%nat); (0, 0%nat); (3, 1%nat); (1, 0%nat)] [1; 0]%nat [] = ([10; 0; 15; 5], Throw lapack_error) /\
  xpotrf_batch potrf 5 0 [(2, 1%nat); (0, 0%nat)] [1; 0]%nat [] = ([10; 0], Ok tt).
Proof. split; reflexivity. Qed.

(** C54 is false when iterations run in parallel: with two threads the calls of
    both iterations can be made on the operands of index 0 (and those of index
    1 are never processed). *)
Theorem C54_parallel_refuted :
  exists schedule, let m := run [7; 8; 9] schedule (start [0; 0; 0] [1; 1]%nat) in
    finished m /\ calls m = [[0; 0; 0]; [0; 0; 0]].
Proof.
  exists [0; 1; 0; 0; 0; 1; 1; 1]%nat. cbn zeta. split; [|reflexivity].
  intros [|[|[|t]]] x; cbn; congruence.
Qed.
Print Assumptions C54_parallel_refuted.

(** What holds: without OpenMP (one thread), for any number of operands and any
    batch size, call i is made with every operand at offset i*stride. *)
Theorem C54_sequential_partial :
  forall strides base n, length base = length strides -> (0 < length strides)%nat ->
  let m := run strides (repeat 0%nat (n * S (length strides))) (start base [n]) in
  finished m /\
  calls m = map (fun i => map (fun j => nth j base 0 + Z.of_nat i * nth j strides 0) (seq 0 (length strides))) (seq 0 n).
Proof. exact seq_all. Qed.
Print Assumptions C54_sequential_partial.

Example C54_nonvacuous :
  calls (run [7; 8; 9] (repeat 0%nat 12) (start [1000; 2000; 3000] [3%nat])) =
    [[1000; 2000; 3000]; [1007; 2008; 3009]; [1014; 2016; 3018]].
Proof. reflexivity. Qed.
