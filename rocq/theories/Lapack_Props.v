(** C68: xpotrf_L factorizes, xtrtri_LN inverts, xlauum_L multiplies, and the three
    together invert a positive definite matrix in place. *)
From Verif Require Import Base MatView_Model MatView_Spec HlBlas_Model HlBlas_Spec HlBlas_Proofs HlBlas_Routines
  Lapack_Model Lapack_Spec Lapack_Proofs Lapack_Routines Lapack_Reals.
From Coq Require Import Reals Lra RealField Field QArith Qcanon.
Local Open Scope Z_scope.
Local Arguments Z.eqb : simpl never.
Local Arguments Z.leb : simpl never.
Local Arguments Z.ltb : simpl never.

(** xpotrf_L on real numbers: it returns exactly when the symmetric matrix given
    by the lower triangle of A is positive definite; then the lower triangle of A
    holds L with L L^T = A, and nothing else changed. Otherwise it throws. *)
Theorem C68_xpotrf_L chk A (m : mem R) : usable lower_positions A m -> rows A = cols A ->
  (positive_definite (rows A) (symmetrized (shown 0%R m A)) ->
     exists m', xpotrf_L 0%R Rplus Rmult Rminus Rdiv Rpos R_sqrt.sqrt chk A m = Ok m' /\
       changes_only m m' A lower_positions /\
       agree (rows A) (product 0%R Rplus Rmult (rows A) (lower_part 0%R (shown 0%R m' A))
                                              (transposed (lower_part 0%R (shown 0%R m' A))))
                      (symmetrized (shown 0%R m A))) /\
  (~ positive_definite (rows A) (symmetrized (shown 0%R m A)) ->
     xpotrf_L 0%R Rplus Rmult Rminus Rdiv Rpos R_sqrt.sqrt chk A m = Throw lapack_error).
Proof.
  intros U S.
  destruct (potrf_cases 0%R Rplus Rmult Rminus Rdiv Rpos R_sqrt.sqrt chk A m S U) as (R & info & EC & EP).
  assert (HR : Z.of_nat (Z.to_nat (rows A)) = rows A) by (pose proof U as (_ & ? & _); lia).
  rewrite EP. split; intros PD.
  - destruct (Z.eqb_spec info 0) as [I0|N].
    + rewrite I0 in EC. eexists. split; [reflexivity|].
      destruct (potrf_factor 0%R 1%R Rplus Rmult Rminus Ropp Rdiv Rinv Rfield Rpos R_sqrt.sqrt Rpos_sqrt A m _ R S U EC eq_refl)
        as (C & _ & _ & F). split; assumption.
    + exfalso. destruct (cholesky_failure _ _ _ _ _ _ _ _ _ _ _ EC N) as (k & R' & Hk & _ & Ek & P).
      apply (failure_not_posdef _ _ _ _ Hk Ek P). now rewrite HR.
  - destruct (Z.eqb_spec info 0) as [I0|N]; [|reflexivity].
    exfalso. rewrite I0 in EC. apply PD. apply cholesky_factor, factor_posdef in EC. now rewrite HR in EC.
Qed.
Print Assumptions C68_xpotrf_L.

(** The same over any field with square roots of its "positive" elements: what
    xpotrf_L returns is a factor. *)
Theorem C68_xpotrf_L_factor {V : Type} (zero one : V) (add mul sub : V -> V -> V) (opp : V -> V)
    (div : V -> V -> V) (inv : V -> V) (positive : V -> bool) (sqrt : V -> V) chk A (m : mem V) :
  field_theory zero one add mul sub opp div inv (@eq V) ->
  (forall d, positive d = true -> mul (sqrt d) (sqrt d) = d /\ sqrt d <> zero) ->
  usable lower_positions A m -> rows A = cols A ->
  match xpotrf_L zero add mul sub div positive sqrt chk A m with
  | Ok m' => changes_only m m' A lower_positions /\ nonsingular zero A m' /\
      agree (rows A) (product zero add mul (rows A) (lower_part zero (shown zero m' A))
                                           (transposed (lower_part zero (shown zero m' A))))
                     (symmetrized (shown zero m A))
  | r => r = Throw lapack_error
  end.
Proof.
  intros F SQ U S. destruct (potrf_cases zero add mul sub div positive sqrt chk A m S U) as (R & info & EC & EP).
  rewrite EP. destruct (Z.eqb_spec info 0) as [I0|N]; [|reflexivity]. rewrite I0 in EC.
  destruct (potrf_factor zero one add mul sub opp div inv F positive sqrt SQ A m _ R S U EC eq_refl) as (C & _ & D & G).
  split; [exact C|]. split; [exact D|exact G].
Qed.
Print Assumptions C68_xpotrf_L_factor.

(** xtrtri_LN: the lower triangle X of the result is the inverse of that of A;
    a zero on the diagonal is reported. *)
Theorem C68_xtrtri_LN {V : Type} (zero one : V) (add mul sub : V -> V -> V) (opp : V -> V)
    (div : V -> V -> V) (inv : V -> V) (is_zero : V -> bool) chk A (m : mem V) :
  field_theory zero one add mul sub opp div inv (@eq V) ->
  (forall x, is_zero x = true <-> x = zero) ->
  usable lower_positions A m -> rows A = cols A ->
  (nonsingular zero A m -> exists m', xtrtri_LN zero one add mul sub div is_zero chk A m = Ok m' /\
     changes_only m m' A lower_positions /\
     agree (rows A) (product zero add mul (rows A) (lower_part zero (shown zero m A)) (lower_part zero (shown zero m' A)))
                    (identity zero one) /\
     agree (rows A) (product zero add mul (rows A) (lower_part zero (shown zero m' A)) (lower_part zero (shown zero m A)))
                    (identity zero one)) /\
  (forall i, 0 <= i < rows A -> shown zero m A i i = zero ->
     xtrtri_LN zero one add mul sub div is_zero chk A m = Throw lapack_error).
Proof.
  intros F Z0 U S. split.
  - intros NS. destruct (trtri_ok zero one add mul sub div is_zero Z0 chk A m S U NS) as (m' & E & U' & W).
    exists m'. split; [exact E|]. split; [apply (updated_changes _ _ _ _ _ W)|].
    set (T := lower_part zero (shown zero m A)) in *.
    assert (LT : lower_tri zero (rows A) T) by apply lower_part_tri.
    assert (DT : forall i, 0 <= i < rows A -> T i i <> zero).
    { intros i Hi. unfold T, lower_part. rewrite Z.leb_refl. now apply NS. }
    pose proof (tri_inverse_lower zero one add mul sub opp div inv F T (rows A) LT DT) as LX.
    assert (X : forall i j, 0 <= i < rows A -> 0 <= j < rows A -> lower_part zero (shown zero m' A) i j =
                 tri_inverse zero one add mul sub div T (rows A) i j).
    { intros i j Hi Hj. rewrite (updated_lower_part zero m m' A _ (rows A) i j W) by (try assumption; try reflexivity; symmetry; exact S).
      unfold lower_part. destruct (Z.leb_spec j i); [reflexivity|]. symmetry. apply LX; lia. }
    split; intros i j Hi Hj.
    + rewrite <- (tri_inverse_right zero one add mul sub opp div inv F T (rows A) LT DT i j Hi Hj).
      apply product_ext; [reflexivity|]. intros k Hk. now apply X.
    + rewrite <- (tri_inverse_left zero one add mul sub opp div inv F T (rows A) LT DT i j Hi Hj).
      apply product_ext; [|reflexivity]. intros k Hk. now apply X.
  - intros i Hi E. now apply (trtri_singular zero one add mul sub div is_zero Z0 chk A m i).
Qed.
Print Assumptions C68_xtrtri_LN.

(** xlauum_L: the lower triangle of A becomes that of L^T L. *)
Theorem C68_xlauum_L {V : Type} (zero one : V) (add mul : V -> V -> V) chk A (m : mem V) :
  usable lower_positions A m -> rows A = cols A ->
  exists m', xlauum_L zero one add mul chk A m = Ok m' /\
    updated m m' A lower_positions
      (product zero add mul (rows A) (transposed (lower_part zero (shown zero m A))) (lower_part zero (shown zero m A))).
Proof.
  intros U S. destruct (lauum_ok zero one add mul chk A m S U) as (m' & E & _ & W). eauto.
Qed.
Print Assumptions C68_xlauum_L.

(** Factorize, invert, multiply: for a positive definite matrix, the lower
    triangle of the inverse, in place. *)
Theorem C68_inverse_in_place chk A (m : mem R) : usable lower_positions A m -> rows A = cols A ->
  positive_definite (rows A) (symmetrized (shown 0%R m A)) ->
  exists m3,
    bind (bind (xpotrf_L 0%R Rplus Rmult Rminus Rdiv Rpos R_sqrt.sqrt chk A m)
               (xtrtri_LN 0%R 1%R Rplus Rmult Rminus Rdiv Rzero chk A))
         (xlauum_L 0%R 1%R Rplus Rmult chk A) = Ok m3 /\
    changes_only m m3 A lower_positions /\
    agree (rows A) (product 0%R Rplus Rmult (rows A) (symmetrized (shown 0%R m A)) (symmetrized (shown 0%R m3 A)))
                   (identity 0%R 1%R).
Proof.
  intros U S PD. destruct (C68_xpotrf_L chk A m U S) as [H _]. destruct (H PD) as (m1 & E1 & _).
  destruct (inverse_ok 0%R 1%R Rplus Rmult Rminus Ropp Rdiv Rinv Rfield Rpos R_sqrt.sqrt Rpos_sqrt Rzero Rzero_ok
              chk A m m1 S U E1) as (m2 & m3 & E2 & E3 & C & G).
  exists m3. rewrite E1. cbn [bind]. rewrite E2. cbn [bind]. auto.
Qed.
Print Assumptions C68_inverse_in_place.

(** Matrices that are not square are rejected when assumptions are verified. *)
Theorem C68_not_square_rejected {V : Type} (zero one : V) (add mul sub div : V -> V -> V)
    (positive : V -> bool) (sqrt : V -> V) (is_zero : V -> bool) A (m : mem V) : rows A <> cols A ->
  xpotrf_L zero add mul sub div positive sqrt true A m = Throw logic_error /\
  xtrtri_LN zero one add mul sub div is_zero true A m = Throw logic_error /\
  xlauum_L zero one add mul true A m = Throw logic_error.
Proof.
  intros N. unfold xpotrf_L, xtrtri_LN, xlauum_L, assume. rewrite (proj2 (Z.eqb_neq _ _) N). auto.
Qed.
Print Assumptions C68_not_square_rejected.

(** The empty matrix with the default outer stride 0 is rejected by LAPACK. *)
Theorem C68_empty_refuted {V : Type} (zero : V) (add mul sub div : V -> V -> V)
    (positive : V -> bool) (sqrt : V -> V) (m : mem V) :
  ~ (forall A, A = plain (data A) (rows A) (cols A) 1 -> rows A = cols A -> rows A = 0 ->
       exists m', xpotrf_L zero add mul sub div positive sqrt true A m = Ok m').
Proof. intros H. destruct (H (plain 0 0 0 1)) as (m' & E); try reflexivity. discriminate E. Qed.
Print Assumptions C68_empty_refuted.

(** ** Concrete cases *)
Definition exR_mem : mem R := fun a => if (0 <=? a) && (a <? 6) then
  Some (if a =? 0 then 4%R else if a =? 1 then 2%R else if a =? 4 then 5%R else 77%R) else None.
(** A = [4 _; 2 5] in columns of 3. *)
Definition exV := View 0 2 2 1 3.
Lemma C68_ex_usable : usable lower_positions exV exR_mem /\ rows exV = cols exV.
Proof.
  split; [|reflexivity]. unfold usable, in_range, elem, exR_mem, exV. cbn.
  repeat (split; [lia || reflexivity|]). intros i j [Hi Hj] _.
  rewrite (proj2 (Z.leb_le _ _)) by lia. rewrite (proj2 (Z.ltb_lt _ _)) by lia. discriminate.
Qed.
Example C68_ex_posdef : positive_definite (rows exV) (symmetrized (shown 0%R exR_mem exV)).
Proof.
  intros x (i & Hi & Nx). cbn in Hi.
  change (0 < (x 0%Z * 4 * x 0%Z + (x 0%Z * 2 * x 1%Z + 0)) + ((x 1%Z * 2 * x 0%Z + (x 1%Z * 5 * x 1%Z + 0)) + 0))%R.
  assert (x 0 <> 0%R \/ x 1 <> 0%R) as [N|N].
  { assert (i = 0 \/ i = 1) as [-> | ->] by lia; auto. }
  - pose proof (Rsqr_pos_lt _ N) as P. unfold Rsqr in P. revert P. generalize (x 0) (x 1). intros a b P.
    pose proof (Rle_0_sqr (a + 2 * b)) as Q. pose proof (Rle_0_sqr b) as Q'. unfold Rsqr in *. nra.
  - pose proof (Rsqr_pos_lt _ N) as P. unfold Rsqr in P. revert P. generalize (x 0) (x 1). intros a b P.
    pose proof (Rle_0_sqr (2 * a + b)) as Q. unfold Rsqr in *. nra.
Qed.
(** And one that is not: [4 _; 2 1] has determinant 0. *)
Example C68_ex_not_posdef : ~ positive_definite 2 (symmetrized (fun i j => if i =? 0 then 4%R else if j =? 0 then 2%R else 1%R)).
Proof.
  intros H. specialize (H (fun i => if i =? 0 then 1%R else (-2)%R)).
  assert (E : exists i, 0 <= i < 2 /\ (if i =? 0 then 1%R else (-2)%R) <> 0%R) by (exists 0; split; [lia|]; rewrite Z.eqb_refl; lra).
  specialize (H E). clear E.
  change (0 < (1 * 4 * 1 + (1 * 2 * -2 + 0)) + ((-2 * 2 * 1 + (-2 * 1 * -2 + 0)) + 0))%R in H. lra.
Qed.
(** A run over the rationals, with the square roots of 4 and 9: [4 _; 2 10] = L L^T for L = [2 0; 1 3]. *)
Definition qpos (x : Qc) : bool := match (this x) with Qmake (Zpos 4) 1 | Qmake (Zpos 9) 1 => true | _ => false end.
Definition qsqrt (x : Qc) : Qc := match (this x) with Qmake (Zpos 4) 1 => Q2Qc 2 | _ => Q2Qc 3 end.
Lemma qsqrt_ok d : qpos d = true -> (qsqrt d * qsqrt d)%Qc = d /\ qsqrt d <> 0%Qc.
Proof.
  destruct d as [[n dn] Hd]. unfold qpos, qsqrt. cbn.
  destruct n as [|n|n]; try discriminate.
  intros H.
  assert (E : (n = 4 \/ n = 9)%positive /\ dn = 1%positive).
  { destruct n as [[[[]|[]|]|[[]|[]|]|]|[[[]|[]|]|[[]|[]|]|]|]; try discriminate H;
    destruct dn; try discriminate H; auto. }
  destruct E as [[-> | ->] ->]; (split; [apply Qc_is_canon; reflexivity|intros X; discriminate X]).
Qed.
Definition exQ_mem : mem Qc := fun a => if (0 <=? a) && (a <? 6) then
  Some (Q2Qc (inject_Z (if a =? 0 then 4 else if a =? 1 then 2 else if a =? 4 then 10 else 77))) else None.
Definition exQ_read (r : outcome (mem Qc)) : option (list (option Q)) :=
  match r with Ok m => Some (map (fun a => option_map this (m a)) [0; 1; 2; 3; 4; 5]) | _ => None end.
Example C68_run :
  let zq := fun x : Qc => match Qnum (this x) with 0 => true | _ => false end in
  let r1 := xpotrf_L 0%Qc Qcplus Qcmult Qcminus Qcdiv qpos qsqrt true exV exQ_mem in
  let r2 := bind r1 (xtrtri_LN 0%Qc 1%Qc Qcplus Qcmult Qcminus Qcdiv zq true exV) in
  let r3 := bind r2 (xlauum_L 0%Qc 1%Qc Qcplus Qcmult true exV) in
  exQ_read r1 = Some [Some 2; Some 1; Some 77; Some 77; Some 3; Some 77]%Q /\
  exQ_read r2 = Some [Some (1#2); Some (-1#6); Some 77; Some 77; Some (1#3); Some 77]%Q /\
  exQ_read r3 = Some [Some (5#18); Some (-1#18); Some 77; Some 77; Some (1#9); Some 77]%Q.
Proof. vm_compute. repeat split. Qed.
