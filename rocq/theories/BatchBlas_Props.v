(** C73: the strided batch operations compute, for every matrix of the batch, the
    result of the operation on the original operands, and change nothing else. *)
From Verif Require Import Base MatView_Model HlBlas_Model HlBlas_Spec HlBlas_Proofs Lapack_Model Lapack_Spec
  Lapack_Proofs Lapack_Reals BatchBlas_Model BatchBlas_Spec BatchBlas_Proofs BatchBlas_Potrf.
From Coq Require Import Reals Lra Field.
Local Open Scope Z_scope.
Local Arguments Z.eqb : simpl never.
Local Arguments Z.leb : simpl never.
Local Arguments Z.ltb : simpl never.
Local Arguments Z.mul : simpl never.

(** C_i <- alpha op(A_i) op(B_i) + beta C_i. *)
Theorem C73_xgemm_batch_strided {V : Type} (zero : V) (add mul : V -> V -> V)
    l ta tb M N K alpha A lda sa B ldb sb beta C ldc sc n (m : mem V) :
  let bA := stored_batch ta l A lda sa M K in
  let bB := stored_batch tb l B ldb sb K N in
  let bC := Batch l C ldc sc M N whole in
  allocated n bA m -> allocated n bB m -> allocated n bC m ->
  separate n bC bA -> separate n bC bB -> spread_out n bC ->
  exists m', xgemm_batch_strided zero add mul l ta tb M N K alpha A lda sa B ldb sb beta C ldc sc n m = Ok m' /\
    batch_updated n bC (fun i =>
      plus add (scaled mul alpha (product zero add mul K (maybe_transposed ta (matrix_of zero m bA i))
                                                         (maybe_transposed tb (matrix_of zero m bB i))))
               (scaled mul beta (matrix_of zero m bC i))) m m'.
Proof.
  intros bA bB bC AA AB AC XA XB XC.
  destruct (gemm_batch_ok zero add mul mul mul l ta tb M N K alpha A lda sa B ldb sb beta C ldc sc n m)
    as (m' & E & U); try assumption.
  exists m'. split; [exact E|]. eapply batch_updated_ext; [|exact U]. intros. apply gemm_f_spec.
Qed.
Print Assumptions C73_xgemm_batch_strided.

(** One triangle of C_i <- alpha op(A_i) op(A_i)^T + beta C_i. *)
Theorem C73_xsyrk_batch_strided {V : Type} (zero : V) (add mul : V -> V -> V)
    l u t N K alpha A lda sa beta C ldc sc n (m : mem V) :
  let bA := stored_batch t l A lda sa N K in
  let bC := Batch l C ldc sc N N (in_triangle u NonUnit) in
  allocated n bA m -> allocated n bC m -> separate n bC bA -> spread_out n bC ->
  exists m', xsyrk_batch_strided zero add mul l u t N K alpha A lda sa beta C ldc sc n m = Ok m' /\
    batch_updated n bC (fun i =>
      plus add (scaled mul alpha (product zero add mul K (maybe_transposed t (matrix_of zero m bA i))
                                                         (transposed (maybe_transposed t (matrix_of zero m bA i)))))
               (scaled mul beta (matrix_of zero m bC i))) m m'.
Proof.
  intros bA bC AA AC XA XC.
  destruct (syrk_batch_ok zero add mul mul mul l u t N K alpha A lda sa beta C ldc sc n m)
    as (m' & E & U); try assumption.
  exists m'. split; [exact E|]. eapply batch_updated_ext; [|exact U]. intros. apply syrk_f_spec.
Qed.
Print Assumptions C73_xsyrk_batch_strided.

(** y_i <- alpha op(A_i) x_i + beta y_i, whatever the order in which OpenMP runs
    the iterations. *)
Theorem C73_xgemv_batch_strided {V : Type} (zero : V) (add mul : V -> V -> V)
    l t M N alpha a lda sa x incx sx beta y incy sy n order (m : mem V) :
  let nx := match t with NoTrans => N | Trans => M end in
  let ny := match t with NoTrans => M | Trans => N end in
  let bA := Batch l a lda sa M N whole in
  let bx := vector_batch x incx sx nx in
  let by_ := vector_batch y incy sy ny in
  allocated n bA m -> allocated n bx m -> allocated n by_ m ->
  separate n by_ bA -> separate n by_ bx -> spread_out n by_ ->
  NoDup order -> (forall i, In i order <-> 0 <= i < n) ->
  exists m', xgemv_batch_strided zero add mul l t M N alpha a lda sa x incx sx beta y incy sy order m = Ok m' /\
    batch_updated n by_ (fun i _ r =>
      add (mul alpha (Sum zero add nx (fun k => mul (maybe_transposed t (matrix_of zero m bA i) r k)
                                                    (matrix_of zero m bx i 0 k))))
          (mul beta (matrix_of zero m by_ i 0 r))) m m'.
Proof.
  intros nx ny bA bx by_ AA AB AC XA XB XC ND ORD.
  destruct (gemv_batch_ok zero add mul mul mul l t M N alpha a lda sa x incx sx beta y incy sy n order m)
    as (m' & E & U); try assumption.
  exists m'. split; [exact E|]. eapply batch_updated_ext; [|exact U]. intros. apply gemv_f_spec.
Qed.
Print Assumptions C73_xgemv_batch_strided.

(** The B_i become solutions X_i of op(A_i) X_i = alpha B_i, or X_i op(A_i) =
    alpha B_i, if the triangular matrices A_i have no zero on the diagonal. *)
Theorem C73_xtrsm_batch_strided {V : Type} (zero one : V) (add mul sub : V -> V -> V) (opp : V -> V)
    (div : V -> V -> V) (inv : V -> V) l sd u t d M N alpha A lda sa B ldb sb n (m : mem V) :
  field_theory zero one add mul sub opp div inv (@eq V) ->
  let na := match sd with Left_ => M | Right_ => N end in
  let bA := Batch l A lda sa na na (in_triangle u d) in
  let bB := Batch l B ldb sb M N whole in
  allocated n bA m -> allocated n bB m -> separate n bB bA -> spread_out n bB ->
  (d = NonUnit -> forall i k, 0 <= i < n -> 0 <= k < na -> matrix_of zero m bA i k k <> zero) ->
  exists m' X, xtrsm_batch_strided zero one add mul sub div l sd u t d M N alpha A lda sa B ldb sb n m = Ok m' /\
    batch_updated n bB X m m' /\
    forall i r c, 0 <= i < n -> 0 <= r < M -> 0 <= c < N ->
      let T := maybe_transposed t (triangular zero one u d (matrix_of zero m bA i)) in
      match sd with
      | Left_ => product zero add mul M T (X i) r c
      | Right_ => product zero add mul N (X i) T r c
      end = mul alpha (matrix_of zero m bB i r c).
Proof.
  intros Fth na bA bB AA AB XA XB NS.
  destruct (trsm_batch_ok zero one add mul sub div l sd u t d M N alpha A lda sa B ldb sb n m)
    as (m' & E & U); try assumption.
  exists m'. eexists. split; [exact E|]. split; [exact U|]. intros i r c Hi Hr Hc. cbv zeta.
  apply (trsm_f_spec zero one add mul sub div opp inv Fth); try assumption.
  intros D k Hk. now apply NS.
Qed.
Print Assumptions C73_xtrsm_batch_strided.

(** xpotrf_batch_strided("L", ...) on real numbers returns normally, replaces every
    positive definite A_i by its Cholesky factor whatever happens to the others
    and in whatever order they are treated, and changes nothing outside the lower
    triangles of the A_i. (What a failed factorization leaves in the lower
    triangle of its own matrix, [junk], is arbitrary.) *)
Theorem C73_xpotrf_batch_strided junk N A lda sa n order (m : mem R) :
  let bA := Batch ColMajor A lda sa N N (in_triangle Lower_ NonUnit) in
  allocated n bA m -> spread_out n bA -> NoDup order -> (forall i, In i order <-> 0 <= i < n) ->
  exists m', xpotrf_batch_strided 0%R Rplus Rmult Rminus Rdiv Rpos R_sqrt.sqrt junk N A lda sa order m = Ok m' /\
    (forall i, 0 <= i < n -> positive_definite N (symmetrized (matrix_of 0%R m bA i)) ->
       let L := lower_part 0%R (matrix_of 0%R m' bA i) in
       agree N (product 0%R Rplus Rmult N L (transposed L)) (symmetrized (matrix_of 0%R m bA i))) /\
    (forall a, (forall i r c, 0 <= i < n -> accessed bA r c -> a <> cell bA i r c) -> m' a = m a).
Proof.
  intros bA [F AL] X ND ORD.
  destruct (potrf_loop_ok 0%R Rplus Rmult Rminus Rdiv Rpos R_sqrt.sqrt junk N A lda sa order m 0)
    as (m' & E & U & FR).
  - exact F.
  - intros i r c Hi Hc. apply AL; [now apply ORD|exact Hc].
  - intros i j r c r' c' Hi Hj NE Hc Hc'. apply X; try assumption; now apply ORD.
  - exact ND.
  - exists m'. split; [|split].
    + unfold xpotrf_batch_strided. rewrite E. reflexivity.
    + intros i Hi PD L.
      assert (HN : Z.of_nat (Z.to_nat N) = N) by (apply Z2Nat.id; apply F).
      destruct (cholesky 0%R Rplus Rmult Rminus Rdiv Rpos R_sqrt.sqrt (matrix_of 0%R m bA i) (Z.to_nat N)) as [R info] eqn:EC.
      assert (info = 0) as ->.
      { destruct (Z.eq_dec info 0) as [H0|NE]; [exact H0|exfalso].
        destruct (cholesky_failure _ _ _ _ _ _ _ _ _ _ _ EC NE) as (k & R' & Hk & _ & Ek & P).
        apply (failure_not_posdef _ _ _ _ Hk Ek P). now rewrite HN. }
      specialize (U i R (proj2 (ORD i) Hi) EC).
      apply cholesky_factor in EC.
      pose proof (factor_symmetric 0%R 1%R Rplus Rmult Rminus Ropp Rdiv Rinv Rfield Rpos R_sqrt.sqrt Rpos_sqrt _ _ _ EC) as G.
      rewrite HN in G.
      assert (LE : forall r c, 0 <= r < N -> 0 <= c < N -> L r c = entry 0%R R r c).
      { intros r c Hr Hc. unfold L, lower_part. destruct (Z.leb_spec c r).
        - unfold matrix_of. change (cell bA i r c) with (cell (lower_batch N A lda sa) i r c). rewrite U; [reflexivity|].
          unfold accessed. cbn. unfold in_triangle. intuition lia.
        - destruct EC as (_ & _ & _ & EC). symmetry. apply EC; lia. }
      intros r c Hr Hc. rewrite <- G by assumption. apply Sum_ext. intros k Hk. unfold transposed. now rewrite !LE by lia.
    + intros a Ha. apply FR. intros i r c Hi Hc. apply Ha; [now apply ORD|exact Hc].
Qed.
Print Assumptions C73_xpotrf_batch_strided.

(** ** With MKL: the early returns are right unless the inner dimension is 0. *)
Theorem C73_mkl_xgemm_partial {V : Type} (zero : V) (add mul : V -> V -> V)
    l ta tb M N K alpha A lda sa B ldb sb beta C ldc sc n (m : mem V) :
  let bA := stored_batch ta l A lda sa M K in
  let bB := stored_batch tb l B ldb sb K N in
  let bC := Batch l C ldc sc M N whole in
  allocated n bA m -> allocated n bB m -> allocated n bC m ->
  separate n bC bA -> separate n bC bB -> spread_out n bC -> K <> 0 ->
  exists m', xgemm_batch_strided_mkl zero add mul l ta tb M N K alpha A lda sa B ldb sb beta C ldc sc n m = Ok m' /\
    batch_updated n bC (fun i =>
      plus add (scaled mul alpha (product zero add mul K (maybe_transposed ta (matrix_of zero m bA i))
                                                         (maybe_transposed tb (matrix_of zero m bB i))))
               (scaled mul beta (matrix_of zero m bC i))) m m'.
Proof.
  intros bA bB bC AA AB AC XA XB XC HK. unfold xgemm_batch_strided_mkl.
  rewrite (proj2 (Z.eqb_neq K 0) HK), orb_false_r.
  destruct (Z.eqb_spec M 0) as [->|NM]; [|destruct (Z.eqb_spec N 0) as [->|NN]]; cbn [orb].
  - exists m. split; [reflexivity|]. split; [intros i r c _ (H & _); cbn in H; lia|reflexivity].
  - exists m. split; [reflexivity|]. split; [intros i r c _ (_ & H & _); cbn in H; lia|reflexivity].
  - now apply C73_xgemm_batch_strided.
Qed.
Print Assumptions C73_mkl_xgemm_partial.
Theorem C73_mkl_xgemv_partial {V : Type} (zero : V) (add mul : V -> V -> V)
    l t M N alpha a lda sa x incx sx beta y incy sy n order (m : mem V) :
  let nx := match t with NoTrans => N | Trans => M end in
  let ny := match t with NoTrans => M | Trans => N end in
  let bA := Batch l a lda sa M N whole in
  let bx := vector_batch x incx sx nx in
  let by_ := vector_batch y incy sy ny in
  allocated n bA m -> allocated n bx m -> allocated n by_ m ->
  separate n by_ bA -> separate n by_ bx -> spread_out n by_ ->
  NoDup order -> (forall i, In i order <-> 0 <= i < n) -> nx <> 0 ->
  exists m', xgemv_batch_strided_mkl zero add mul l t M N alpha a lda sa x incx sx beta y incy sy order m = Ok m' /\
    batch_updated n by_ (fun i _ r =>
      add (mul alpha (Sum zero add nx (fun k => mul (maybe_transposed t (matrix_of zero m bA i) r k)
                                                    (matrix_of zero m bx i 0 k))))
          (mul beta (matrix_of zero m by_ i 0 r))) m m'.
Proof.
  intros nx ny bA bx by_ AA AB AC XA XB XC ND ORD Hx. unfold xgemv_batch_strided_mkl.
  destruct (Z.eq_dec ny 0) as [Hy|Hy].
  - assert ((M =? 0) || (N =? 0) = true) as ->.
    { unfold ny in Hy. apply orb_true_iff. destruct t; [left|right]; apply Z.eqb_eq; exact Hy. }
    exists m. split; [reflexivity|]. split; [intros i r c _ (_ & H & _); cbn in H; lia|reflexivity].
  - assert ((M =? 0) || (N =? 0) = false) as ->.
    { apply orb_false_iff. unfold nx, ny in *. destruct t; split; apply Z.eqb_neq; assumption. }
    now apply C73_xgemv_batch_strided.
Qed.
Print Assumptions C73_mkl_xgemv_partial.

(** ** Non-vacuity and the refutation *)
Definition ex_mem : mem Z := fun a => if (0 <=? a) && (a <? 200) then Some (a mod 5 + 1) else None.
Lemma ex_mem_alloc a : 0 <= a < 200 -> ex_mem a <> None.
Proof.
  intros H. unfold ex_mem. rewrite (proj2 (Z.leb_le 0 a)), (proj2 (Z.ltb_lt a 200)) by lia. intros E. discriminate E.
Qed.
(** Three 2 x 3 row-major matrices A_i, one transposed B shared by all of them
    (stride 0), and column-interleaved C_i. *)
Definition exA := stored_batch NoTrans RowMajor 0 4 10 2 3.
Definition exB := stored_batch Trans RowMajor 50 3 0 3 2.
Definition exC := Batch RowMajor 100 6 2 2 2 whole.
Example C73_gemm_nontrivial :
  allocated 3 exA ex_mem /\ allocated 3 exB ex_mem /\ allocated 3 exC ex_mem /\
  separate 3 exC exA /\ separate 3 exC exB /\ spread_out 3 exC.
Proof.
  repeat match goal with |- _ /\ _ => split end;
  unfold allocated, separate, spread_out, fits, accessed, cell, place; cbn [exA exB exC stored_batch b_layout b_ptr
    b_ld b_stride b_rows b_cols b_part]; intros;
  try (split; [lia|intros; apply ex_mem_alloc; lia]); try lia.
Qed.
Definition peek (r : outcome (mem Z)) (l : list Z) : list (option Z) :=
  match r with Ok m' => map m' l | _ => [] end.
Example C73_gemm_run :
  peek (xgemm_batch_strided 0 Z.add Z.mul RowMajor NoTrans Trans 2 2 3 2 0 4 10 50 3 0 1 100 6 2 3 ex_mem)
    [100; 101; 102; 106; 111; 112] = [Some 29; Some 36; Some 31; Some 28; Some 56; Some 3].
Proof. vm_compute. reflexivity. Qed.

(** K = 0, beta = 2: C must be doubled, and is without MKL. *)
Theorem C73_mkl_empty_inner_dimension_refuted :
  exists l ta tb M N K alpha A lda sa B ldb sb beta C ldc sc n (m : mem Z),
    let bA := stored_batch ta l A lda sa M K in
    let bB := stored_batch tb l B ldb sb K N in
    let bC := Batch l C ldc sc M N whole in
    allocated n bA m /\ allocated n bB m /\ allocated n bC m /\
    separate n bC bA /\ separate n bC bB /\ spread_out n bC /\
    xgemm_batch_strided_mkl 0 Z.add Z.mul l ta tb M N K alpha A lda sa B ldb sb beta C ldc sc n m = Ok m /\
    ~ batch_updated n bC (fun i =>
      plus Z.add (scaled Z.mul alpha (product 0 Z.add Z.mul K (maybe_transposed ta (matrix_of 0 m bA i))
                                                              (maybe_transposed tb (matrix_of 0 m bB i))))
                 (scaled Z.mul beta (matrix_of 0 m bC i))) m m.
Proof.
  exists ColMajor, NoTrans, NoTrans, 2, 2, 0, 1, 0, 2, 0, 0, 2, 0, 2, 10, 2, 4, 3, ex_mem.
  cbn [stored_batch]. cbv zeta. repeat match goal with |- _ /\ _ => split end.
  1-6: unfold allocated, separate, spread_out, fits, accessed, cell, place; cbn [b_layout b_ptr
    b_ld b_stride b_rows b_cols b_part]; intros;
    try (split; [lia|intros; apply ex_mem_alloc; lia]); try lia.
  - reflexivity.
  - intros [U _]. specialize (U 0 0 0). assert (H : ex_mem 10 = Some 2) by (apply U; [lia|unfold accessed, whole; cbn; lia]).
    vm_compute in H. discriminate H.
Qed.
Print Assumptions C73_mkl_empty_inner_dimension_refuted.

(** Two right-hand sides per triangular matrix, an arbitrary order of gemv. *)
Example C73_trsm_run :
  peek (xtrsm_batch_strided 0 1 Z.add Z.mul Z.sub Z.div ColMajor Left_ Upper_ Trans Unit 2 1 3 0 2 4 100 2 2 2 ex_mem)
    [100; 101; 102; 103; 104] = [Some 3; Some (-3); Some 9; Some (-6); Some 5].
Proof. vm_compute. reflexivity. Qed.
Example C73_trsm_nontrivial :
  let bA := Batch ColMajor 0 2 4 2 2 (in_triangle Upper_ Unit) in
  let bB := Batch ColMajor 100 2 2 2 1 whole in
  allocated 2 bA ex_mem /\ allocated 2 bB ex_mem /\ separate 2 bB bA /\ spread_out 2 bB.
Proof.
  cbv zeta. repeat match goal with |- _ /\ _ => split end;
  unfold allocated, separate, spread_out, fits, accessed, cell, place; cbn [b_layout b_ptr
    b_ld b_stride b_rows b_cols b_part]; intros;
  try (split; [lia|intros; apply ex_mem_alloc; lia]); try lia.
Qed.
Example C73_gemv_orders :
  Forall (fun order =>
    peek (xgemv_batch_strided 0 Z.add Z.mul ColMajor Trans 2 2 1 0 2 4 50 1 2 10 100 2 4 order ex_mem)
      [100; 101; 102; 104; 110] = [Some 15; Some 2; Some 41; Some 69; Some 17])
    [[0; 1; 2]; [2; 0; 1]; [1; 2; 0]].
Proof. repeat constructor. Qed.
(** Two 1 x 1 matrices, [4] and [-1]: the first is positive definite. *)
Definition exP_mem : mem R := fun a => if a =? 0 then Some 4%R else if a =? 1 then Some (-1)%R else None.
Local Arguments Z.eqb : simpl nomatch.
Local Arguments Z.leb : simpl nomatch.
Local Arguments Z.mul : simpl nomatch.
Example C73_potrf_nontrivial :
  let bA := Batch ColMajor 0 1 1 1 1 (in_triangle Lower_ NonUnit) in
  allocated 2 bA exP_mem /\ spread_out 2 bA /\ NoDup [1; 0] /\ (forall i, In i [1; 0] <-> 0 <= i < 2) /\
  positive_definite 1 (symmetrized (matrix_of 0%R exP_mem bA 0)) /\
  ~ positive_definite 1 (symmetrized (matrix_of 0%R exP_mem bA 1)).
Proof.
  cbv zeta. split; [|split; [|split; [|split; [|split]]]].
  - split; [unfold fits; cbn; lia|]. intros i r c Hi (Hr & Hc & _). cbn [b_rows b_cols] in *.
    assert (E : cell (Batch ColMajor 0 1 1 1 1 (in_triangle Lower_ NonUnit)) i r c = i) by (unfold cell, place; cbn; lia).
    rewrite E. assert (i = 0 \/ i = 1) as [-> | ->] by lia; cbn; congruence.
  - intros i j r c r' c' Hi Hj NE (Hr & Hc & _) (Hr' & Hc' & _). unfold cell, place. cbn in *. lia.
  - repeat constructor; cbn; lia.
  - intros i. cbn. lia.
  - intros x (i & Hi & Nx). assert (i = 0) by lia. subst i. unfold Sum. cbn [sum_from Z.to_nat Pos.to_nat Pos.iter_op].
    change (symmetrized (matrix_of 0%R exP_mem (Batch ColMajor 0 1 1 1 1 (in_triangle Lower_ NonUnit)) 0) 0 0) with 4%R.
    change (Z.to_nat 1) with 1%nat. cbn [sum_from].
    assert (0 < x 0%Z * x 0%Z)%R by nra.
    change (0 < x 0%Z * 4 * x 0%Z + 0 + 0)%R. lra.
  - intros PD. specialize (PD (fun _ => 1%R)).
    assert (exists i, 0 <= i < 1 /\ 1%R <> 0%R) as H by (exists 0; split; [lia|lra]). specialize (PD H).
    change (0 < 1 * -1 * 1 + 0 + 0)%R in PD. lra.
Qed.
