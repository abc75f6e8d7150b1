(** C100: what the BLAS tracing reports. *)
From Coq Require Import String.
From Verif Require Import Base MatView_Model MatViewIndex_Model FlopCount_Model FlopCount_Spec FlopCount_Proofs.
From Coq Require Import Lia.
Local Open Scope outcome_scope.
Local Open Scope Z_scope.

(** A view: its sizes are non-negative values of the index type. *)
Definition sized (I : index_type) (v : view) : Prop :=
  0 <= rows v <= imax I /\ 0 <= cols v <= imax I.
(** A signed type, at least as wide as a 32-bit int. *)
Definition signed_index (I : index_type) : Prop := imin I <= - 2 ^ 31 /\ 2 ^ 31 - 1 <= imax I.

Lemma ix_ok I x : imin I <= x -> x <= imax I -> ix I x = Ok x.
Proof. intros H H'. unfold ix. rewrite (proj2 (Z.leb_le _ _) H), (proj2 (Z.leb_le _ _) H'). reflexivity. Qed.
Lemma ix_ub I x : imax I < x -> ix I x = UB.
Proof. intros H. unfold ix. rewrite (proj2 (Z.leb_gt _ _) H), andb_false_r. reflexivity. Qed.
Lemma ix_cases I x : ix I x = Ok x \/ ix I x = UB.
Proof. unfold ix. destruct (_ && _); auto. Qed.

Lemma times2_eq I a b : signed_index I -> 0 <= a -> 0 <= b ->
  times2 I a b = if a * b <=? imax I then Ok (a * b) else UB.
Proof.
  intros [H _] Ha Hb. unfold times2. destruct (Z.leb_spec (a * b) (imax I)).
  - apply ix_ok; nia.
  - apply ix_ub. assumption.
Qed.
Lemma times3_eq I a b c : signed_index I -> 0 <= a -> 0 <= b -> 0 <= c ->
  times3 I a b c = if Z.max (a * b) (a * b * c) <=? imax I then Ok (a * b * c) else UB.
Proof.
  intros [H _] Ha Hb Hc. unfold times3. assert (0 <= a * b) by nia.
  destruct (Z.leb_spec (Z.max (a * b) (a * b * c)) (imax I)).
  - rewrite ix_ok by lia. cbn [bind]. apply ix_ok; nia.
  - destruct (Z.leb_spec (a * b) (imax I)).
    + rewrite ix_ok by lia. cbn [bind]. apply ix_ub. lia.
    + rewrite ix_ub by lia. reflexivity.
Qed.
Lemma half3_eq I n k : signed_index I -> 0 <= n <= imax I -> 0 <= k ->
  half3 I n k = if Z.max (n * (n + 1)) (n * (n + 1) * k) <=? imax I then Ok (n * (n + 1) * k / 2) else UB.
Proof.
  intros [H H'] Hn Hk. unfold half3. assert (0 <= n * (n + 1)) by nia. assert (0 <= n * (n + 1) * k) by nia.
  destruct (Z.leb_spec (Z.max (n * (n + 1)) (n * (n + 1) * k)) (imax I)).
  - rewrite (ix_ok I (n + 1)) by nia. cbn [bind]. rewrite (ix_ok I (n * (n + 1))) by lia. cbn [bind].
    rewrite (ix_ok I (n * (n + 1) * k)) by lia. cbn [bind].
    rewrite Z.quot_div_nonneg by lia. apply ix_ok; Z.to_euclidean_division_equations; lia.
  - destruct (ix_cases I (n + 1)) as [-> | ->]; cbn [bind]; [|reflexivity].
    destruct (Z.leb_spec (n * (n + 1)) (imax I)).
    + rewrite ix_ok by lia. cbn [bind]. rewrite ix_ub by lia. reflexivity.
    + rewrite ix_ub by lia. reflexivity.
Qed.
Lemma half2_eq I n : signed_index I -> 0 <= n <= imax I ->
  half2 I n = if n * (n + 1) <=? imax I then Ok (n * (n + 1) / 2) else UB.
Proof.
  intros [H H'] Hn. unfold half2. assert (0 <= n * (n + 1)) by nia.
  destruct (Z.leb_spec (n * (n + 1)) (imax I)).
  - rewrite (ix_ok I (n + 1)) by nia. cbn [bind]. rewrite (ix_ok I (n * (n + 1))) by lia. cbn [bind].
    rewrite Z.quot_div_nonneg by lia. apply ix_ok; Z.to_euclidean_division_equations; lia.
  - destruct (ix_cases I (n + 1)) as [-> | ->]; cbn [bind]; [|reflexivity].
    rewrite ix_ub by lia. reflexivity.
Qed.
Lemma half3_plus_eq I n k : signed_index I -> 0 <= n <= imax I -> 0 <= k ->
  half3_plus I n k =
    if Z.max (n * (n + 1)) (n * (n + 1) * k) <=? imax I then Ok (n * (n + 1) * k / 2 + n) else UB.
Proof.
  intros HI Hn Hk. unfold half3_plus. rewrite half3_eq by assumption. destruct HI as [H H'].
  assert (0 <= n * (n + 1)) by nia. assert (0 <= n * (n + 1) * k) by nia.
  destruct (Z.leb_spec (Z.max (n * (n + 1)) (n * (n + 1) * k)) (imax I)); cbn [bind]; [|reflexivity].
  assert (n * (n + 1) * k / 2 + n <= Z.max (n * (n + 1)) (n * (n + 1) * k)).
  { assert (k = 0 \/ 1 <= k) as [-> | Hk'] by lia.
    - rewrite Z.mul_0_r. cbn. nia.
    - assert (2 * n <= n * (n + 1) * k) by nia.
      Z.to_euclidean_division_equations. lia. }
  apply ix_ok; [|lia]. Z.to_euclidean_division_equations. lia.
Qed.
Lemma half_of x y : 2 * x = y -> y / 2 = x.
Proof. intros <-. rewrite Z.mul_comm. apply Z.div_mul. lia. Qed.

Lemma same_count (n : string) (b : bool) (c c' : Z) : c = c' ->
  (n, if b then Ok c else UB) = (n, if b then Ok c' else UB).
Proof. intros ->. reflexivity. Qed.
Ltac dims := unfold sized, signed_index in *; repeat match goal with H : _ /\ _ |- _ => destruct H end; lia.
(** gemv and gemm: one multiplication per element of A and column of the result. *)
Theorem C100_gemv I A x y : signed_index I -> sized I A -> sized I x -> sized I y -> cols x = 1 -> cols y = 1 ->
  (rows A = rows y -> cols A = rows x ->
   logged_as (imax I) (trace_xgemv_N I A x y) "gemv" (rows A * cols A)
     (general_product (Z.to_nat (rows y)) 1 (Z.to_nat (rows x)))) /\
  (cols A = rows y -> rows A = rows x ->
   logged_as (imax I) (trace_xgemv_T I A x y) "gemv" (rows A * cols A)
     (general_product (Z.to_nat (rows y)) 1 (Z.to_nat (rows x)))).
Proof.
  intros HI HA Hx Hy _ _. split; intros E1 E2; unfold logged_as, trace_xgemv_N, trace_xgemv_T;
    rewrite times2_eq by (first [assumption | dims]); rewrite general_product_eq;
    rewrite !Z2Nat.id by dims; apply same_count; rewrite <- E1, <- E2; ring.
Qed.
Theorem C100_gemm I A B C : signed_index I -> sized I A -> sized I B -> sized I C ->
  (rows A = rows C -> cols A = rows B -> cols B = cols C ->
   logged_as (imax I) (trace_xgemm_NN I A B C) "gemm" (Z.max (rows C * cols C) (rows C * cols C * cols A))
     (general_product (Z.to_nat (rows C)) (Z.to_nat (cols C)) (Z.to_nat (cols A)))) /\
  (cols A = rows C -> rows A = rows B -> cols B = cols C ->
   logged_as (imax I) (trace_xgemm_TN I A B C) "gemm" (Z.max (rows C * cols C) (rows C * cols C * rows A))
     (general_product (Z.to_nat (rows C)) (Z.to_nat (cols C)) (Z.to_nat (rows A)))) /\
  (cols A = rows C -> rows A = cols B -> rows B = cols C ->
   logged_as (imax I) (trace_xgemm_TT I A B C) "gemm" (Z.max (rows C * cols C) (rows C * cols C * rows A))
     (general_product (Z.to_nat (rows C)) (Z.to_nat (cols C)) (Z.to_nat (rows A)))) /\
  (rows A = rows C -> cols A = cols B -> rows B = cols C ->
   logged_as (imax I) (trace_xgemm_NT I A B C) "gemm" (Z.max (rows C * cols C) (rows C * cols C * cols A))
     (general_product (Z.to_nat (rows C)) (Z.to_nat (cols C)) (Z.to_nat (cols A)))).
Proof.
  intros HI HA HB HC. repeat split; intros _ _ _;
    unfold logged_as, trace_xgemm_NN, trace_xgemm_TN, trace_xgemm_TT, trace_xgemm_NT;
    rewrite times3_eq by (first [assumption | dims]); rewrite general_product_eq;
    rewrite !Z2Nat.id by dims; reflexivity.
Qed.
(** gemmt and syrk: the same for the entries of the lower triangle. The product of all three
    sizes, twice the count, is computed on the way and must fit. *)
Theorem C100_gemmt I A B C : signed_index I -> sized I A -> sized I B -> sized I C -> rows C = cols C ->
  let n := rows C in
  (rows A = rows C -> cols A = rows B -> cols B = cols C ->
   logged_as (imax I) (trace_xgemmt_LNN I A B C) "gemmt" (Z.max (n * (n + 1)) (n * (n + 1) * cols A))
     (lower_product (Z.to_nat n) (Z.to_nat (cols A)))) /\
  (cols A = rows C -> rows A = rows B -> cols B = cols C ->
   logged_as (imax I) (trace_xgemmt_LTN I A B C) "gemmt" (Z.max (n * (n + 1)) (n * (n + 1) * rows A))
     (lower_product (Z.to_nat n) (Z.to_nat (rows A)))) /\
  (cols A = rows C -> rows A = cols B -> rows B = cols C ->
   logged_as (imax I) (trace_xgemmt_LTT I A B C) "gemmt" (Z.max (n * (n + 1)) (n * (n + 1) * rows A))
     (lower_product (Z.to_nat n) (Z.to_nat (rows A)))) /\
  (rows A = rows C -> cols A = cols B -> rows B = cols C ->
   logged_as (imax I) (trace_xgemmt_LNT I A B C) "gemmt" (Z.max (n * (n + 1)) (n * (n + 1) * cols A))
     (lower_product (Z.to_nat n) (Z.to_nat (cols A)))).
Proof.
  intros HI HA HB HC _ n. repeat split; intros _ _ _;
    unfold logged_as, trace_xgemmt_LNN, trace_xgemmt_LTN, trace_xgemmt_LTT, trace_xgemmt_LNT;
    fold n; rewrite half3_eq by (first [assumption | subst n; dims]);
    apply same_count; apply half_of; rewrite lower_product_eq;
    rewrite !Z2Nat.id by (subst n; dims); reflexivity.
Qed.
Theorem C100_syrk I A C : signed_index I -> sized I A -> sized I C -> rows C = cols C ->
  let n := rows C in
  (rows A = rows C ->
   logged_as (imax I) (trace_xsyrk_LN I A C) "syrk" (Z.max (n * (n + 1)) (n * (n + 1) * cols A))
     (lower_product (Z.to_nat n) (Z.to_nat (cols A)))) /\
  (cols A = rows C ->
   logged_as (imax I) (trace_xsyrk_LT I A C) "syrk" (Z.max (n * (n + 1)) (n * (n + 1) * rows A))
     (lower_product (Z.to_nat n) (Z.to_nat (rows A)))).
Proof.
  intros HI HA HC _ n. repeat split; intros _; unfold logged_as, trace_xsyrk_LN, trace_xsyrk_LT;
    fold n; rewrite half3_eq by (first [assumption | subst n; dims]);
    apply same_count; apply half_of; rewrite lower_product_eq;
    rewrite !Z2Nat.id by (subst n; dims); reflexivity.
Qed.
(** Triangular products. *)
Theorem C100_trmv I A x : signed_index I -> sized I A -> sized I x ->
  rows A = cols A -> cols A = rows x -> cols x = 1 ->
  let n := rows A in
  logged_as (imax I) (trace_xtrmv_LNN I A x) "trmv" (n * (n + 1)) (lower_times (Z.to_nat n) 1) /\
  logged_as (imax I) (trace_xtrmv_LTN I A x) "trmv" (n * (n + 1)) (lower_trans_times (Z.to_nat n) 1).
Proof.
  intros HI HA Hx _ _ _ n. split; unfold logged_as, trace_xtrmv_LNN, trace_xtrmv_LTN; fold n;
    rewrite half2_eq by (first [assumption | subst n; dims]); apply same_count; apply half_of;
    rewrite ?lower_times_eq, ?lower_trans_times_eq; rewrite !Z2Nat.id by (subst n; dims); lia.
Qed.
Theorem C100_trmm I A B : signed_index I -> sized I A -> sized I B -> rows A = cols A ->
  let n := rows A in
  (cols A = rows B ->
   logged_as (imax I) (trace_xtrmm_LLNN I A B) "trmm" (Z.max (n * (n + 1)) (n * (n + 1) * cols B))
     (lower_times (Z.to_nat n) (Z.to_nat (cols B))) /\
   logged_as (imax I) (trace_xtrmm_LLTN I A B) "trmm" (Z.max (n * (n + 1)) (n * (n + 1) * cols B))
     (lower_trans_times (Z.to_nat n) (Z.to_nat (cols B)))) /\
  (rows A = cols B ->
   logged_as (imax I) (trace_xtrmm_RLNN I A B) "trmm" (Z.max (n * (n + 1)) (n * (n + 1) * rows B))
     (times_lower (Z.to_nat (rows B)) (Z.to_nat n)) /\
   logged_as (imax I) (trace_xtrmm_RLTN I A B) "trmm" (Z.max (n * (n + 1)) (n * (n + 1) * rows B))
     (times_lower_trans (Z.to_nat (rows B)) (Z.to_nat n))).
Proof.
  intros HI HA HB _ n.
  split; intros _; split; unfold logged_as, trace_xtrmm_LLNN, trace_xtrmm_LLTN, trace_xtrmm_RLNN, trace_xtrmm_RLTN;
    fold n; rewrite half3_eq by (first [assumption | subst n; dims]); apply same_count; apply half_of;
    rewrite ?lower_times_eq, ?lower_trans_times_eq, ?times_lower_eq, ?times_lower_trans_eq;
    rewrite !Z2Nat.id by (subst n; dims); reflexivity.
Qed.
(** Substitution: trsv counts the multiplications and divisions; trsm counts the reciprocals
    of the diagonal in addition. *)
Theorem C100_trsv I A x : signed_index I -> sized I A -> sized I x ->
  rows A = cols A -> cols A = rows x -> cols x = 1 ->
  let n := rows A in
  logged_as (imax I) (trace_xtrsv_LNN I A x) "trsv" (n * (n + 1)) (solve_lower (Z.to_nat n) 1) /\
  logged_as (imax I) (trace_xtrsv_LTN I A x) "trsv" (n * (n + 1)) (solve_lower_trans (Z.to_nat n) 1).
Proof.
  intros HI HA Hx _ _ _ n. split; unfold logged_as, trace_xtrsv_LNN, trace_xtrsv_LTN; fold n;
    rewrite half2_eq by (first [assumption | subst n; dims]); apply same_count; apply half_of;
    rewrite ?solve_lower_eq, ?solve_lower_trans_eq; rewrite !Z2Nat.id by (subst n; dims); lia.
Qed.
Theorem C100_trsm I A B : signed_index I -> sized I A -> sized I B -> rows A = cols A ->
  let n := rows A in
  (cols A = rows B ->
   logged_as (imax I) (trace_xtrsm_LLNN I A B) "trsm" (Z.max (n * (n + 1)) (n * (n + 1) * cols B))
     (solve_lower (Z.to_nat n) (Z.to_nat (cols B)) + n) /\
   logged_as (imax I) (trace_xtrsm_LLTN I A B) "trsm" (Z.max (n * (n + 1)) (n * (n + 1) * cols B))
     (solve_lower_trans (Z.to_nat n) (Z.to_nat (cols B)) + n)) /\
  (cols A = cols B ->
   logged_as (imax I) (trace_xtrsm_RLNN I A B) "trsm" (Z.max (n * (n + 1)) (n * (n + 1) * rows B))
     (solve_times_lower (Z.to_nat (rows B)) (Z.to_nat n) + n) /\
   logged_as (imax I) (trace_xtrsm_RLTN I A B) "trsm" (Z.max (n * (n + 1)) (n * (n + 1) * rows B))
     (solve_times_lower_trans (Z.to_nat (rows B)) (Z.to_nat n) + n)).
Proof.
  intros HI HA HB _ n.
  split; intros _; split; unfold logged_as, trace_xtrsm_LLNN, trace_xtrsm_LLTN, trace_xtrsm_RLNN, trace_xtrsm_RLTN;
    fold n; rewrite half3_plus_eq by (first [assumption | subst n; dims]); apply same_count; f_equal; apply half_of;
    rewrite ?solve_lower_eq, ?solve_lower_trans_eq, ?solve_times_lower_eq, ?solve_times_lower_trans_eq;
    rewrite !Z2Nat.id by (subst n; dims); reflexivity.
Qed.

(** A step of the evaluation that cannot overflow. *)
Ltac step := first
  [ rewrite ix_ok by nia; cbn [bind]
  | match goal with |- context [ix ?I ?x] => rewrite (ix_ok I x) by (Z.to_euclidean_division_equations; nia); cbn [bind] end ].
Ltac skip := match goal with |- context [bind (ix ?I ?x) _] => destruct (ix_cases I x) as [-> | ->]; cbn [bind]; [|reflexivity] end.

(** Cholesky: multiplications and divisions, and a square root per pivot. *)
Theorem C100_potrf I A : signed_index I -> sized I A -> rows A = cols A ->
  let n := rows A in
  logged_as (imax I) (trace_xpotrf_L I A) "potrf" ((n - 1) * n * (n + 1)) (cholesky_count (Z.to_nat n)).
Proof.
  intros HI HA _ n. assert (Hn : 0 <= n <= imax I) by (subst n; dims). destruct HI as [H H'].
  unfold logged_as, trace_xpotrf_L. fold n. clearbody n. clear HA A. f_equal.
  rewrite cholesky_count_eq, Z2Nat.id by lia.
  assert (n = 0 \/ n = 1 \/ 2 <= n) as [-> | [-> | Hn2]] by lia.
  1,2: cbn -[ix Z.leb]; destruct (Z.leb_spec 0 (imax I)); [|lia]; rewrite !ix_ok by lia; cbn [bind];
    repeat (rewrite !ix_ok by (cbn; lia); cbn [bind]); try reflexivity.
  destruct (Z.leb_spec ((n - 1) * n * (n + 1)) (imax I)) as [Hq|Hq].
  - assert (Hp : 2 <= (n - 1) * n) by nia. assert (Hpq : 3 * ((n - 1) * n) <= (n - 1) * n * (n + 1)) by nia.
    assert (Hnp : n <= (n - 1) * n) by nia.
    rewrite (ix_ok I (n - 1)) by lia. cbn [bind]. rewrite (ix_ok I ((n - 1) * n)) by lia. cbn [bind].
    rewrite (ix_ok I (n + 1)) by lia. cbn [bind]. rewrite (ix_ok I ((n - 1) * n * (n + 1))) by lia. cbn [bind].
    set (p := (n - 1) * n) in *. set (q := p * (n + 1)) in *.
    rewrite !Z.quot_div_nonneg by lia. pose proof (Z.div_mod q 6 ltac:(lia)). pose proof (Z.mod_pos_bound q 6 ltac:(lia)).
    pose proof (Z.div_mod p 2 ltac:(lia)). pose proof (Z.mod_pos_bound p 2 ltac:(lia)).
    rewrite (ix_ok I (q / 6)) by lia. cbn [bind]. rewrite (ix_ok I (p / 2)) by lia. cbn [bind].
    rewrite (ix_ok I (q / 6 + p / 2)) by lia. cbn [bind]. rewrite (ix_ok I (2 * n)) by lia. cbn [bind].
    assert (n = 2 \/ 3 <= n) as [E | Hn3] by lia.
    + assert (p = 2) by (subst p; rewrite E; reflexivity). assert (q = 6) by (subst q; rewrite E; lia). apply ix_ok; lia.
    + assert (2 * n <= p) by (subst p; nia). assert (4 * p <= q) by (subst q; nia). apply ix_ok; lia.
  - do 3 skip. rewrite (ix_ub I ((n - 1) * n * (n + 1))) by lia. reflexivity.
Qed.

Lemma quot6 a x : 6 * a = x -> Z.quot x 6 = a.
Proof. intros <-. rewrite Z.mul_comm. apply Z.quot_mul. lia. Qed.
Lemma quot2 a x : 2 * a = x -> Z.quot x 2 = a.
Proof. intros <-. rewrite Z.mul_comm. apply Z.quot_mul. lia. Qed.

Lemma lauum_eq I A : signed_index I -> sized I A ->
  let n := rows A in
  snd (trace_xlauum_L I A) =
    if (n - 2) * (n - 1) * n <=? imax I
    then Ok (lauum_count (Z.to_nat n) - (n - 1) * (n - 2) / 2) else UB.
Proof.
  intros HI HA n. assert (Hn : 0 <= n <= imax I) by (subst n; dims). destruct HI as [H H'].
  cbn [snd trace_xlauum_L]. fold n. clearbody n. clear HA A.
  set (N := Z.to_nat n). pose proof (lauum_count_eq N) as L. pose proof (pairs_strict N) as Pr.
  assert (EN : Z.of_nat N = n) by (apply Z2Nat.id; lia). rewrite EN in L, Pr.
  set (c := lauum_count N) in *. set (s := pairs N N (fun i j => Nat.ltb j i)) in *. clearbody c s. clear EN N.
  assert (n = 0 \/ n = 1 \/ n = 2 \/ n = 3 \/ 4 <= n) as [-> | [-> | [-> | [-> | Hn4]]]] by lia.
  1,2,3,4: cbn -[ix Z.leb]; match goal with |- context [Z.leb ?a ?b] => rewrite (proj2 (Z.leb_le a b)) by lia end;
    rewrite !ix_ok by lia; cbn [bind]; repeat (rewrite !ix_ok by (cbn; lia); cbn [bind]); f_equal; cbn; lia.
  destruct (Z.leb_spec ((n - 2) * (n - 1) * n) (imax I)) as [Hq|Hq].
  - assert (Hp : 6 <= (n - 2) * (n - 1)) by nia.
    assert (Hpq : 4 * ((n - 2) * (n - 1)) <= (n - 2) * (n - 1) * n) by nia.
    set (b := (n - 1) * (n - 2) / 2). assert (Hb : 2 * b = (n - 1) * (n - 2)).
    { assert (E : (n - 1) * (n - 2) = (s - n + 1) * 2) by lia. subst b. rewrite E, Z.div_mul; lia. }
    rewrite (ix_ok I (n - 2)) by lia. cbn [bind]. rewrite (ix_ok I (n - 1)) by lia. cbn [bind].
    rewrite (ix_ok I ((n - 2) * (n - 1))) by lia. cbn [bind].
    rewrite (ix_ok I ((n - 2) * (n - 1) * n)) by lia. cbn [bind].
    rewrite (quot6 (c - n * n) ((n - 2) * (n - 1) * n)) by lia.
    assert (Hc : 6 * (c - n * n) = (n - 2) * (n - 1) * n) by lia.
    assert (Hbp : 2 * b = (n - 2) * (n - 1)) by lia.
    set (q := (n - 2) * (n - 1) * n) in *. set (p := (n - 2) * (n - 1)) in *.
    assert (2 * n <= p + 2) by (subst p; nia).
    rewrite (ix_ok I (c - n * n)) by lia. cbn [bind].
    rewrite (ix_ok I (n + 2)) by lia. cbn [bind].
    assert (Er : (n - 1) * (n + 2) = 2 * (b + 2 * (n - 1))) by lia. rewrite Er.
    rewrite (ix_ok I (2 * (b + 2 * (n - 1)))) by lia. cbn [bind].
    rewrite (quot2 (b + 2 * (n - 1)) (2 * (b + 2 * (n - 1)))) by reflexivity.
    rewrite (ix_ok I (b + 2 * (n - 1))) by lia. cbn [bind].
    rewrite (ix_ok I (c - n * n + (b + 2 * (n - 1)))) by lia. cbn [bind].
    rewrite ix_ok; [f_equal | |]; lia.
  - do 3 skip. rewrite (ix_ub I ((n - 2) * (n - 1) * n)) by lia. reflexivity.
Qed.
Lemma trtri_eq I A : signed_index I -> sized I A ->
  let n := rows A in
  snd (trace_xtrtri_LN I A) =
    if (n - 2) * (n - 1) * n <=? imax I
    then Ok (inverse_count (Z.to_nat n) - n * (n - 1) / 2) else UB.
Proof.
  intros HI HA n. assert (Hn : 0 <= n <= imax I) by (subst n; dims). destruct HI as [H H'].
  cbn [snd trace_xtrtri_LN]. fold n. clearbody n. clear HA A.
  set (N := Z.to_nat n). pose proof (inverse_count_eq N) as L. pose proof (pairs_strict N) as Pr.
  assert (EN : Z.of_nat N = n) by (apply Z2Nat.id; lia). rewrite EN in L, Pr.
  set (c := inverse_count N) in *. set (s := pairs N N (fun i j => Nat.ltb j i)) in *. clearbody c s. clear EN N.
  assert (n = 0 \/ n = 1 \/ n = 2 \/ n = 3 \/ 4 <= n) as [-> | [-> | [-> | [-> | Hn4]]]] by lia.
  1,2,3,4: cbn -[ix Z.leb]; match goal with |- context [Z.leb ?a ?b] => rewrite (proj2 (Z.leb_le a b)) by lia end;
    rewrite !ix_ok by lia; cbn [bind]; repeat (rewrite !ix_ok by (cbn; lia); cbn [bind]); f_equal; cbn; lia.
  destruct (Z.leb_spec ((n - 2) * (n - 1) * n) (imax I)) as [Hq|Hq].
  - assert (Hp : 6 <= (n - 2) * (n - 1)) by nia.
    assert (Hpq : 4 * ((n - 2) * (n - 1)) <= (n - 2) * (n - 1) * n) by nia.
    assert (Eb : n * (n - 1) / 2 = s) by (apply half_of; exact Pr). rewrite Eb.
    rewrite (ix_ok I (n - 2)) by lia. cbn [bind]. rewrite (ix_ok I (n - 1)) by lia. cbn [bind].
    rewrite (ix_ok I ((n - 2) * (n - 1))) by lia. cbn [bind].
    rewrite (ix_ok I ((n - 2) * (n - 1) * n)) by lia. cbn [bind].
    rewrite (quot6 (c - n * n) ((n - 2) * (n - 1) * n)) by lia.
    assert (Hc : 6 * (c - n * n) = (n - 2) * (n - 1) * n) by lia.
    assert (Hs : 2 * s = (n - 2) * (n - 1) + 2 * n - 2) by lia.
    set (q := (n - 2) * (n - 1) * n) in *. set (p := (n - 2) * (n - 1)) in *.
    assert (2 * n <= p + 2) by (subst p; nia).
    rewrite (ix_ok I (c - n * n)) by lia. cbn [bind].
    assert (Er : (n - 1) * n = 2 * s) by lia. rewrite Er.
    rewrite (ix_ok I (2 * s)) by lia. cbn [bind].
    rewrite (quot2 s (2 * s)) by reflexivity.
    rewrite (ix_ok I s) by lia. cbn [bind].
    rewrite (ix_ok I (c - n * n + s)) by lia. cbn [bind].
    rewrite ix_ok; [f_equal | |]; lia.
  - do 3 skip. rewrite (ix_ub I ((n - 2) * (n - 1) * n)) by lia. reflexivity.
Qed.

(** xtrtri_LN: [n (n-1) / 2] fewer than substitution takes (one multiplication per entry
    below the diagonal is left out): right for n <= 1 only. *)
Theorem C100_trtri_partial I A : signed_index I -> sized I A -> rows A = cols A ->
  let n := rows A in
  logged_as (imax I) (trace_xtrtri_LN I A) "trtri" ((n - 2) * (n - 1) * n)
    (inverse_count (Z.to_nat n) - n * (n - 1) / 2).
Proof.
  intros HI HA _. unfold logged_as. rewrite <- (trtri_eq I A HI HA). reflexivity.
Qed.
Definition int_index := Index (- 2 ^ 31) (2 ^ 31 - 1).
Definition square (n : Z) : view := View 0 n n 1 n.
Theorem C100_trtri_count_refuted :
  exists A, signed_index int_index /\ sized int_index A /\ rows A = cols A /\ rows A = 2 /\
    inverse_count 2 = 4 /\ snd (trace_xtrtri_LN int_index A) = Ok 3.
Proof. exists (square 2). vm_compute. repeat split; discriminate. Qed.

(** xlauum_L is logged as "trtri", with (n-1)(n-2)/2 fewer operations than it takes. *)
Theorem C100_lauum_partial I A : signed_index I -> sized I A -> rows A = cols A ->
  let n := rows A in
  logged_as (imax I) (trace_xlauum_L I A) "trtri" ((n - 2) * (n - 1) * n)
    (lauum_count (Z.to_nat n) - (n - 1) * (n - 2) / 2).
Proof.
  intros HI HA _. unfold logged_as. rewrite <- (lauum_eq I A HI HA). reflexivity.
Qed.
(** No way to tell it from an inversion; the empty matrix counts -1 operations, which is
    also what trace() takes for "not known" (trace.hpp:148). *)
Theorem C100_lauum_refuted :
  (forall I A, fst (trace_xlauum_L I A) = fst (trace_xtrtri_LN I A)) /\
  (exists A, sized int_index A /\ rows A = cols A /\ lauum_count (Z.to_nat (rows A)) = 10 /\
     snd (trace_xlauum_L int_index A) = Ok 9) /\
  (exists A, sized int_index A /\ rows A = cols A /\ rows A = 0 /\
     lauum_count 0 = 0 /\ snd (trace_xlauum_L int_index A) = Ok (-1)).
Proof.
  split; [reflexivity|]. split.
  - exists (square 3). vm_compute. repeat split; discriminate.
  - exists (square 0). vm_compute. repeat split; discriminate.
Qed.

(** With int as index type a product of 1291 x 1291 matrices, which is computed correctly
    without tracing, is undefined behaviour with tracing; so is the update of a
    65536 x 65536 matrix with an empty product, which takes no operations. In the
    triangular routines the count itself need not be too large. *)
Theorem C100_overflow_refuted :
  (exists A B C, sized int_index A /\ sized int_index B /\ sized int_index C /\
     rows A = rows C /\ cols A = rows B /\ cols B = cols C /\ rows C = 1291 /\
     snd (trace_xgemm_NN int_index A B C) = UB) /\
  (exists A B C, sized int_index A /\ sized int_index B /\ sized int_index C /\
     rows A = rows C /\ cols A = rows B /\ cols B = cols C /\ cols A = 0 /\
     snd (trace_xgemm_NN int_index A B C) = UB) /\
  (exists A, sized int_index A /\ rows A = cols A /\ rows A = 1291 /\
     snd (trace_xpotrf_L int_index A) = UB /\
     (rows A - 1) * rows A * (rows A + 1) / 6 + (rows A - 1) * rows A / 2 + 2 * rows A < 2 ^ 29).
Proof.
  split; [|split].
  - exists (square 1291), (square 1291), (square 1291). vm_compute. repeat split; discriminate.
  - exists (View 0 65536 0 1 65536), (View 0 0 65536 1 1), (square 65536). vm_compute. repeat split; discriminate.
  - exists (square 1291). vm_compute. repeat split; discriminate.
Qed.
(** Up to 1290 nothing overflows in a 32-bit int, and with 64-bit indices nothing does as
    long as the sizes are at most 2^20. *)
Theorem C100_no_overflow_partial I A B C (L : Z) : signed_index I ->
  L = 1290 \/ (2 ^ 63 - 1 <= imax I /\ L = 2 ^ 20) ->
  0 <= rows A <= L -> 0 <= cols A <= L -> 0 <= rows B <= L -> 0 <= cols B <= L ->
  0 <= rows C <= L -> 0 <= cols C <= L ->
  snd (trace_xgemm_NN I A B C) <> UB /\ snd (trace_xgemm_TN I A B C) <> UB /\
  snd (trace_xgemm_TT I A B C) <> UB /\ snd (trace_xgemm_NT I A B C) <> UB /\
  (rows C <= 1289 \/ L = 2 ^ 20 ->
   snd (trace_xsyrk_LN I A C) <> UB /\ snd (trace_xsyrk_LT I A C) <> UB /\
   snd (trace_xgemmt_LNN I A B C) <> UB) /\
  snd (trace_xpotrf_L I A) <> UB /\ snd (trace_xtrtri_LN I A) <> UB /\ snd (trace_xlauum_L I A) <> UB.
Proof.
  intros HI HL HrA HcA HrB HcB HrC HcC.
  assert (HLI : L * L * L <= imax I).
  { destruct HI as [_ H']. destruct HL as [-> | [H ->]]; [|cbn in *; lia]. cbn. cbn in H'. lia. }
  assert (HL0 : 1290 <= L) by (destruct HL as [-> | [_ ->]]; [lia | cbn; lia]).
  assert (HL1 : L <= imax I) by nia.
  assert (T : forall x y z, 0 <= x <= L -> 0 <= y <= L -> 0 <= z <= L -> times3 I x y z <> UB).
  { intros x y z Hx Hy Hz. rewrite times3_eq by (assumption || lia).
    assert (x * y <= L * L) by nia. assert (L * L <= L * L * L) by nia.
    assert (x * y * z <= L * L * L) by (apply Z.mul_le_mono_nonneg; nia).
    rewrite (proj2 (Z.leb_le _ _)) by lia. discriminate. }
  assert (Hf : forall n k, 0 <= n <= L -> 0 <= k <= L -> n <= 1289 \/ L = 2 ^ 20 -> half3 I n k <> UB).
  { intros n k Hn Hk Hc. rewrite half3_eq by (assumption || lia).
    assert (n * (n + 1) * k <= imax I /\ n * (n + 1) <= imax I) as [E1 E2].
    { destruct HI as [_ H']. destruct HL as [-> | [H ->]].
      - destruct Hc as [Hc | Hc]; [|discriminate].
        assert (n * (n + 1) <= 1290 * 1290) by nia.
        assert (n * (n + 1) * k <= 1290 * 1290 * 1290) by (apply Z.mul_le_mono_nonneg; nia). lia.
      - assert (n * (n + 1) <= 2 ^ 20 * (2 ^ 20 + 1)) by (apply Z.mul_le_mono_nonneg; lia).
        assert (n * (n + 1) * k <= 2 ^ 20 * (2 ^ 20 + 1) * 2 ^ 20) by (apply Z.mul_le_mono_nonneg; nia).
        cbn in *. lia. }
    rewrite (proj2 (Z.leb_le _ _)) by lia. discriminate. }
  split; [apply T; assumption|]. split; [apply T; assumption|].
  split; [apply T; assumption|]. split; [apply T; assumption|].
  split.
  - intros Hc. split; [|split]; apply Hf; assumption.
  - assert (HQ : forall n, 0 <= n <= L -> (n - 1) * n * (n + 1) <= L * L * L /\ (n - 2) * (n - 1) * n <= L * L * L).
    { intros n Hn. assert (n * n <= L * L) by nia. assert (n * n * n <= L * L * L) by (apply Z.mul_le_mono_nonneg; nia).
      split; nia. }
    pose (A' := square (rows A)).
    assert (HA : sized I A') by (unfold sized, A', square; cbn [rows cols]; lia).
    change (trace_xpotrf_L I A) with (trace_xpotrf_L I A').
    change (trace_xtrtri_LN I A) with (trace_xtrtri_LN I A').
    change (trace_xlauum_L I A) with (trace_xlauum_L I A').
    destruct (HQ (rows A) HrA) as [Q1 Q2].
    rewrite (trtri_eq I A' HI HA), (lauum_eq I A' HI HA).
    pose proof (C100_potrf I A' HI HA eq_refl) as P. unfold logged_as in P. rewrite P. cbn [snd].
    change (rows A') with (rows A).
    rewrite !(proj2 (Z.leb_le _ _)) by lia. repeat split; discriminate.
Qed.
Print Assumptions C100_gemv. Print Assumptions C100_gemm. Print Assumptions C100_gemmt. Print Assumptions C100_syrk.
Print Assumptions C100_trmv. Print Assumptions C100_trmm. Print Assumptions C100_trsv. Print Assumptions C100_trsm.
Print Assumptions C100_potrf. Print Assumptions C100_trtri_partial. Print Assumptions C100_trtri_count_refuted.
Print Assumptions C100_lauum_partial. Print Assumptions C100_lauum_refuted. Print Assumptions C100_overflow_refuted.
Print Assumptions C100_no_overflow_partial.

(** Concrete calls: a 2x3 by 3x4 product, and a Cholesky factorization of a 4 x 4 matrix. *)
Example C100_example_gemm :
  let A := View 0 2 3 1 2 in let B := View 10 3 4 1 3 in let C := View 30 2 4 1 2 in
  signed_index int_index /\ sized int_index A /\ sized int_index B /\ sized int_index C /\
  trace_xgemm_NN int_index A B C = ("gemm"%string, Ok 24) /\ general_product 2 4 3 = 24.
Proof. vm_compute. repeat split; discriminate. Qed.
Example C100_example_potrf :
  sized int_index (square 4) /\ trace_xpotrf_L int_index (square 4) = ("potrf"%string, Ok 24) /\ cholesky_count 4 = 24.
Proof. vm_compute. repeat split; discriminate. Qed.
Example C100_example_tri :
  let A := square 3 in let B := View 20 3 2 1 3 in
  snd (trace_xtrmm_LLNN int_index A B) = Ok 12 /\ lower_times 3 2 = 12 /\
  snd (trace_xtrsm_LLTN int_index A B) = Ok 15 /\ solve_lower_trans 3 2 + 3 = 15.
Proof. vm_compute. repeat split; discriminate. Qed.
