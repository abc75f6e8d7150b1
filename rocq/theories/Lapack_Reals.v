(** Over the reals the factorization exists exactly for positive definite matrices. *)
From Verif Require Import Base MatView_Model MatView_Spec HlBlas_Model HlBlas_Spec HlBlas_Proofs HlBlas_Routines
  Lapack_Model Lapack_Spec Lapack_Proofs.
From Coq Require Import Reals Lra RealField Field.
Local Open Scope Z_scope.
Local Arguments Z.eqb : simpl never.
Local Arguments Z.leb : simpl never.
Local Arguments Z.ltb : simpl never.
Local Arguments Nat.sub : simpl never.

Definition Rpos (d : R) : bool := if Rlt_dec 0 d then true else false.
Definition Rzero (x : R) : bool := if Req_EM_T x 0 then true else false.
Lemma Rpos_spec d : Rpos d = true <-> (0 < d)%R.
Proof. unfold Rpos. destruct (Rlt_dec 0 d); split; intros; try easy; try discriminate. Qed.
Lemma Rpos_sqrt d : Rpos d = true -> (R_sqrt.sqrt d * R_sqrt.sqrt d)%R = d /\ R_sqrt.sqrt d <> 0%R.
Proof.
  intros H. apply Rpos_spec in H. split; [apply sqrt_sqrt; lra|]. apply Rgt_not_eq. now apply sqrt_lt_R0.
Qed.
Lemma Rzero_ok x : Rzero x = true <-> x = 0%R.
Proof. unfold Rzero. destruct (Req_EM_T x 0); split; intros; try easy; discriminate. Qed.

Local Notation Rsum := (Sum 0%R Rplus).
Local Notation Sum_cut := (Sum_cut 0%R 1%R Rplus Rmult Rminus Ropp Rdiv Rinv Rfield).
Local Notation Sum_last := (Sum_last 0%R 1%R Rplus Rmult Rminus Ropp Rdiv Rinv Rfield).
Local Notation Sum_zero := (Sum_zero 0%R 1%R Rplus Rmult Rminus Ropp Rdiv Rinv Rfield).
Local Notation Sum_scal := (Sum_scal 0%R 1%R Rplus Rmult Rminus Ropp Rdiv Rinv Rfield).
Local Notation Sum_add := (Sum_add 0%R 1%R Rplus Rmult Rminus Ropp Rdiv Rinv Rfield).
Local Notation Sum_swap := (Sum_swap 0%R 1%R Rplus Rmult Rminus Ropp Rdiv Rinv Rfield).
Local Notation Sum_ext := (Sum_ext 0%R Rplus).
Local Notation Rchol := (cholesky 0%R Rplus Rmult Rminus Rdiv Rpos R_sqrt.sqrt).
Local Notation Rentry := (entry 0%R).
Local Notation Rfactor := (factor 0%R Rplus Rmult Rminus Rdiv Rpos R_sqrt.sqrt).

Lemma Sum_scal_r n f c : Rsum n (fun k => f k * c)%R = (Rsum n f * c)%R.
Proof. rewrite <- (Rmult_comm c). rewrite <- Sum_scal. apply Sum_ext. intros; ring. Qed.
Lemma Sum_opp n f : Rsum n (fun k => - f k)%R = (- Rsum n f)%R.
Proof.
  replace (- Rsum n f)%R with (-1 * Rsum n f)%R by ring. rewrite <- Sum_scal. apply Sum_ext. intros; ring.
Qed.
Lemma Sum_nonneg n f : (forall i, 0 <= i < n -> (0 <= f i)%R) -> (0 <= Rsum n f)%R.
Proof.
  intros H. destruct (Z_lt_le_dec n 0) as [L|L]; [rewrite Sum_0 by lia; lra|].
  revert n L H. apply (nonneg_ind (fun n => (forall i, 0 <= i < n -> (0 <= f i)%R) -> (0 <= Rsum n f)%R)).
  - intros _. rewrite Sum_0 by lia. lra.
  - intros n Hn IH H. rewrite Sum_last by exact Hn. specialize (IH ltac:(intros; apply H; lia)).
    specialize (H n ltac:(lia)). lra.
Qed.
Lemma Sum_nonneg_0 n f i : (forall i, 0 <= i < n -> (0 <= f i)%R) -> Rsum n f = 0%R -> 0 <= i < n -> f i = 0%R.
Proof.
  intros H E Hi. assert (L : 0 <= n) by lia. revert i Hi. revert n L H E.
  apply (nonneg_ind (fun n => (forall i, 0 <= i < n -> (0 <= f i)%R) -> Rsum n f = 0%R -> forall i, 0 <= i < n -> f i = 0%R)).
  - intros; lia.
  - intros n Hn IH H E i Hi. rewrite Sum_last in E by exact Hn.
    pose proof (Sum_nonneg n f ltac:(intros; apply H; lia)) as G.
    pose proof (H n ltac:(lia)) as G'.
    destruct (Z.eq_dec i n) as [->|N]; [lra|]. apply IH; [intros; apply H; lia|lra|lia].
Qed.
(** sum_ij a_i (sum_l f_il g_jl) b_j = sum_l (sum_i a_i f_il) (sum_j b_j g_jl) *)
Lemma quad_product n k (a b : Z -> R) (f g : Z -> Z -> R) :
  Rsum n (fun i => Rsum n (fun j => a i * Rsum k (fun l => f i l * g j l) * b j))%R =
  Rsum k (fun l => Rsum n (fun i => a i * f i l) * Rsum n (fun j => b j * g j l))%R.
Proof.
  rewrite (Sum_ext n _ (fun i => Rsum k (fun l => (a i * f i l) * Rsum n (fun j => b j * g j l))%R)).
  - rewrite Sum_swap. apply Sum_ext. intros l Hl. apply Sum_scal_r.
  - intros i Hi.
    rewrite (Sum_ext n _ (fun j => Rsum k (fun l => (a i * f i l) * (b j * g j l))%R)).
    + rewrite Sum_swap. apply Sum_ext. intros l Hl. apply Sum_scal.
    + intros j Hj. rewrite <- Sum_scal, <- Sum_scal_r. apply Sum_ext. intros; ring.
Qed.

Lemma factor_posdef A n R : Rfactor A n R -> positive_definite (Z.of_nat n) (symmetrized A).
Proof.
  intros F x (i0 & Hi0 & Nx).
  pose proof (factor_symmetric 0%R 1%R Rplus Rmult Rminus Ropp Rdiv Rinv Rfield Rpos R_sqrt.sqrt Rpos_sqrt A n R F) as S.
  set (N := Z.of_nat n) in *. set (T := Rentry R) in *.
  rewrite (Sum_ext N _ (fun i => Rsum N (fun j => x i * Rsum N (fun l => T i l * T j l) * x j)%R)).
  2:{ intros i Hi. apply Sum_ext. intros j Hj. rewrite <- S by assumption. reflexivity. }
  rewrite quad_product. set (z := fun l => Rsum N (fun i => x i * T i l)%R).
  change (0 < Rsum N (fun l => z l * z l))%R.
  assert (G : (0 <= Rsum N (fun l => z l * z l))%R) by (apply Sum_nonneg; intros; nra).
  destruct (Rle_lt_or_eq_dec _ _ G) as [P|E]; [exact P|exfalso]. apply Nx.
  assert (Z0 : forall l, 0 <= l < N -> z l = 0%R).
  { intros l Hl. pose proof (Sum_nonneg_0 N (fun l => z l * z l)%R l ltac:(intros; nra) (eq_sym E) Hl) as Q. cbv beta in Q. nra. }
  assert (LT : lower_tri 0%R N T) by (destruct F as (_ & _ & _ & F); intros i j Hi Hj H; apply F; [exact Hi|exact H]).
  assert (DT : forall i, 0 <= i < N -> T i i <> 0%R).
  { intros i Hi. apply (factor_diag 0%R Rplus Rmult Rminus Rdiv Rpos R_sqrt.sqrt Rpos_sqrt A n R i F Hi). }
  pose proof (tri_inverse_right 0%R 1%R Rplus Rmult Rminus Ropp Rdiv Rinv Rfield T N LT DT) as TX.
  set (X := tri_inverse 0%R 1%R Rplus Rmult Rminus Rdiv T N) in *.
  (* x_i0 = sum_i x_i (T X)_{i,i0} = sum_l z_l X_{l,i0} *)
  assert (E1 : Rsum N (fun i => x i * product 0%R Rplus Rmult N T X i i0)%R = x i0).
  { rewrite (Sum_ext N _ (fun i => x i * identity 0%R 1%R i i0)%R) by (intros i Hi; now rewrite TX).
    rewrite (Sum_single 0%R 1%R Rplus Rmult Rminus Ropp Rdiv Rinv Rfield N _ i0 Hi0).
    - unfold identity. rewrite Z.eqb_refl. ring.
    - intros k Hk Nk. unfold identity. rewrite (proj2 (Z.eqb_neq k i0) Nk). ring. }
  rewrite <- E1.
  rewrite (Sum_ext N _ (fun i => Rsum N (fun l => (x i * T i l) * X l i0)%R)).
  2:{ intros i Hi. unfold product. rewrite <- Sum_scal. apply Sum_ext. intros; ring. }
  rewrite Sum_swap. apply Sum_zero. intros l Hl. rewrite Sum_scal_r. fold (z l). rewrite Z0 by exact Hl. ring.
Qed.

Lemma failure_not_posdef A n k R : (k < n)%nat -> Rchol A k = (R, 0) ->
  Rpos (pivot 0%R Rplus Rmult Rminus Rdiv A R k) = false -> ~ positive_definite (Z.of_nat n) (symmetrized A).
Proof.
  intros Hk E P PD.
  assert (Hd : (pivot 0%R Rplus Rmult Rminus Rdiv A R k <= 0)%R).
  { apply Rnot_lt_le. intros H. apply Rpos_spec in H. congruence. }
  pose proof (cholesky_factor _ _ _ _ _ _ _ _ _ _ E) as F.
  pose proof (factor_symmetric 0%R 1%R Rplus Rmult Rminus Ropp Rdiv Rinv Rfield Rpos R_sqrt.sqrt Rpos_sqrt A k R F) as S.
  set (K := Z.of_nat k) in *. set (N := Z.of_nat n) in *. set (T := Rentry R) in *.
  assert (LT : lower_tri 0%R K T) by (destruct F as (_ & _ & _ & F); intros i j Hi Hj H; apply F; [exact Hi|exact H]).
  assert (DT : forall i, 0 <= i < K -> T i i <> 0%R).
  { intros i Hi. apply (factor_diag 0%R Rplus Rmult Rminus Rdiv Rpos R_sqrt.sqrt Rpos_sqrt A k R i F Hi). }
  set (x := fun j => nth (Z.to_nat j) (newrow 0%R Rplus Rmult Rminus Rdiv A R k) 0%R).
  assert (Ex : forall j, 0 <= j < K -> Rsum K (fun l => T j l * x l)%R = A K j).
  { intros j Hj.
    pose proof (solve_lower 0%R 1%R Rplus Rmult Rminus Ropp Rdiv Rinv Rfield T (fun j => A K j) K j) as G.
    unfold HlBlas_Model.solve in G. assert (HK : Z.to_nat K = k) by (unfold K; lia).
    rewrite HK in G. apply G; assumption. }
  set (y := solve 0%R Rplus Rmult Rminus Rdiv true (fun r c => T c r) x K).
  assert (Ey : forall l, 0 <= l < K -> Rsum K (fun i => y i * T i l)%R = x l).
  { intros l Hl.
    rewrite <- (solve_upper 0%R 1%R Rplus Rmult Rminus Ropp Rdiv Rinv Rfield (fun r c => T c r) x K l); try assumption.
    - apply Sum_ext. intros i Hi. unfold y. ring.
    - intros r c Hr Hc H. now apply LT. }
  set (v := fun i => if i <? K then (- y i)%R else if i =? K then 1%R else 0%R).
  assert (V1 : forall i, i < K -> v i = (- y i)%R) by (intros i Hi; unfold v; now rewrite (proj2 (Z.ltb_lt i K) Hi)).
  assert (V2 : v K = 1%R) by (unfold v; now rewrite Z.ltb_irrefl, Z.eqb_refl).
  assert (V3 : forall i, K < i -> v i = 0%R).
  { intros i Hi. unfold v. rewrite (proj2 (Z.ltb_ge i K)) by lia. now rewrite (proj2 (Z.eqb_neq i K)) by lia. }
  assert (HKN : 0 <= K < N) by lia.
  assert (PDv : (0 < Rsum N (fun i => Rsum N (fun j => v i * symmetrized A i j * v j)))%R).
  { apply PD. exists K. split; [exact HKN|]. rewrite V2. lra. }
  assert (EQ : Rsum N (fun i => Rsum N (fun j => v i * symmetrized A i j * v j)%R) = pivot 0%R Rplus Rmult Rminus Rdiv A R k);
    [|lra].
  rewrite (Sum_cut N (K + 1)) by (try lia; intros i Hi; apply Sum_zero; intros j Hj; rewrite V3 by lia; ring).
  rewrite (Sum_ext (K + 1) _ (fun i => Rsum (K + 1) (fun j => v i * symmetrized A i j * v j)%R))
    by (intros i Hi; apply Sum_cut; [lia|]; intros j Hj; rewrite (V3 j) by lia; ring).
  rewrite (Sum_ext (K + 1) _ (fun i => Rsum K (fun j => v i * symmetrized A i j * v j) + v i * symmetrized A i K * v K)%R)
    by (intros i Hi; now apply Sum_last; lia).
  rewrite Sum_add. rewrite !Sum_last by lia. rewrite V2.
  assert (SK : forall j, j <= K -> symmetrized A K j = A K j).
  { intros j Hj. unfold symmetrized. now rewrite (proj2 (Z.leb_le j K)) by lia. }
  assert (SK' : forall i, i < K -> symmetrized A i K = A K i).
  { intros i Hi. unfold symmetrized. now rewrite (proj2 (Z.leb_gt K i)) by lia. }
  assert (XX : Rsum K (fun i => y i * A K i)%R = Rsum K (fun l => x l * x l)%R).
  { rewrite (Sum_ext K _ (fun i => Rsum K (fun l => (y i * T i l) * x l)%R)).
    - rewrite Sum_swap. apply Sum_ext. intros l Hl. rewrite Sum_scal_r. now rewrite Ey.
    - intros i Hi. rewrite <- Ex by exact Hi. rewrite <- Sum_scal. apply Sum_ext. intros; ring. }
  rewrite (Sum_ext K (fun j => 1 * symmetrized A K j * v j)%R (fun j => - (y j * A K j))%R)
    by (intros j Hj; rewrite V1, SK by lia; ring).
  rewrite (Sum_ext K (fun i => v i * symmetrized A i K * 1)%R (fun i => - (y i * A K i))%R)
    by (intros i Hi; rewrite V1, SK' by lia; ring).
  rewrite !Sum_opp, XX.
  rewrite (Sum_ext K _ (fun i => Rsum K (fun j => y i * Rsum K (fun l => T i l * T j l) * y j)%R)).
  2:{ intros i Hi. apply Sum_ext. intros j Hj. rewrite !V1 by lia. rewrite <- S by assumption.
      unfold product, transposed. ring. }
  rewrite quad_product.
  rewrite (Sum_ext K _ (fun l => x l * x l)%R) by (intros l Hl; now rewrite Ey).
  rewrite SK by lia. unfold pivot. fold K. fold x.
  change (Sum 0%R Rplus K (fun j : Z => (nth (Z.to_nat j) (newrow 0%R Rplus Rmult Rminus Rdiv A R k) 0 *
      nth (Z.to_nat j) (newrow 0%R Rplus Rmult Rminus Rdiv A R k) 0)%R)) with (Rsum K (fun l => x l * x l)%R).
  ring.
Qed.
