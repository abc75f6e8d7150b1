(** C106: the exceptions of the LAPACK wrappers say which leading minor, diagonal element or argument is to blame. *)
From Verif Require Import Base Bytes MatView_Model MatView_Spec HlBlas_Model HlBlas_Spec HlBlas_Proofs HlBlas_Routines
  HlBlasExact_Spec HlBlasExact_Proofs Lapack_Model Lapack_Spec Lapack_Proofs Lapack_Routines Lapack_Reals Print_Model Print_Spec Print_Ints LapackError_Model.
From Coq Require Import Reals.
Local Open Scope Z_scope.
Local Arguments Z.eqb : simpl never.
Local Arguments Z.leb : simpl never.
Local Arguments Z.ltb : simpl never.

(** The text of the exception: function and info *)
Definition says (e : error) (name : list Z) (info : Z) : Prop :=
  e_info e = info /\ exists d, is_decimal info d /\ e_what e = bytes "LAPACK error: " ++ name ++ bytes " (info=" ++ d ++ bytes ")".

Lemma make_error_says name info : says (make_error name info) name info.
Proof. split; [reflexivity|]. exists (show_int info). split; [apply show_int_decimal|reflexivity]. Qed.

(** The matrix of the leading [k] rows and columns is positive definite. *)
Definition leading_minor (k : Z) (f : matrix (V := R)) : Prop := positive_definite k (symmetrized f).

(** For every matrix that xpotrf_L does not factorize, info is the order of the smallest leading minor that is not
    positive definite. It throws if there is one. *)
Theorem C106_xpotrf_L chk A (m : mem R) : usable lower_positions A m -> rows A = cols A ->
  (positive_definite (rows A) (symmetrized (shown 0%R m A)) /\
     exists m', potrf_e 0%R Rplus Rmult Rminus Rdiv Rpos R_sqrt.sqrt chk A m = Ok (inl m')) \/
  (exists k e, potrf_e 0%R Rplus Rmult Rminus Rdiv Rpos R_sqrt.sqrt chk A m = Ok (inr e) /\
     says e (bytes "xpotrf_L") k /\ 1 <= k <= rows A /\ ~ leading_minor k (shown 0%R m A) /\
     forall j, 0 <= j < k -> leading_minor j (shown 0%R m A)).
Proof.
  intros U S. unfold potrf_e, assume, potrf_L. rewrite S, Z.eqb_refl. rewrite <- S.
  rewrite lapack_routine_ok by assumption.
  rewrite (cholesky_ext _ _ _ _ _ _ _ (value 0%R m (Operand ColMajor (data A) (outer_stride A) (rows A) (rows A) (HlBlas_Model.triangle Lower_ NonUnit))) (shown 0%R m A))
    by (intros; apply value_lower; [exact S|apply U]).
  assert (HR : Z.of_nat (Z.to_nat (rows A)) = rows A) by (pose proof U as (_ & ? & _); lia).
  destruct (cholesky 0%R Rplus Rmult Rminus Rdiv Rpos R_sqrt.sqrt (shown 0%R m A) (Z.to_nat (rows A))) as [R info] eqn:E.
  cbn [bind]. unfold throw_on_err. cbn [fst snd]. destruct (Z.eqb_spec info 0) as [I0|N].
  - left. rewrite I0 in E. split; [|eexists; reflexivity].
    apply cholesky_factor, factor_posdef in E. now rewrite HR in E.
  - right. destruct (cholesky_failure _ _ _ _ _ _ _ _ _ _ _ E N) as (k & R' & Hk & Hi & Ek & P).
    exists info. eexists. split; [reflexivity|]. split; [apply make_error_says|]. split; [lia|]. split.
    + unfold leading_minor. intros PD. apply (failure_not_posdef _ (Datatypes.S k) _ _ (Nat.lt_succ_diag_r k) Ek P).
      replace (Z.of_nat (Datatypes.S k)) with info by lia. exact PD.
    + intros j Hj. unfold leading_minor.
      assert (PDk : positive_definite (Z.of_nat k) (symmetrized (shown 0%R m A))).
      { apply cholesky_factor, factor_posdef in Ek. exact Ek. }
      destruct (cholesky 0%R Rplus Rmult Rminus Rdiv Rpos R_sqrt.sqrt (shown 0%R m A) (Z.to_nat j)) as [R2 i2] eqn:E2.
      destruct (Z.eq_dec i2 0) as [->|N2].
      * apply cholesky_factor, factor_posdef in E2. now rewrite Z2Nat.id in E2 by lia.
      * exfalso. destruct (cholesky_failure _ _ _ _ _ _ _ _ _ _ _ E2 N2) as (k2 & R3 & Hk2 & _ & Ek2 & P2).
        apply (failure_not_posdef _ k k2 R3 ltac:(lia) Ek2 P2 PDk).
Qed.
Print Assumptions C106_xpotrf_L.

Lemma first_zero_index {V} (is_zero : V -> bool) A n : forall i, 0 <= i ->
  let r := first_zero is_zero A i n in
  r = 0 \/ (i < r <= i + Z.of_nat n /\ is_zero (A (r - 1) (r - 1)) = true /\
            forall j, i <= j < r - 1 -> is_zero (A j j) = false).
Proof.
  induction n as [|n IH]; intros i Hi; cbn [first_zero].
  - now left.
  - destruct (is_zero (A i i)) eqn:E.
    + right. replace (i + 1 - 1) with i by lia. split; [lia|]. split; [exact E|]. intros; lia.
    + destruct (IH (i + 1) ltac:(lia)) as [Hr|(A1 & A2 & A3)]; [now left|right]. cbn zeta in *.
      split; [lia|]. split; [exact A2|]. intros j Hj. destruct (Z.eq_dec j i) as [->|]; [exact E|apply A3; lia].
Qed.

(** For every matrix that xtrtri_LN does not invert, info is the number, from 1, of the first zero on the diagonal. *)
Theorem C106_xtrtri_LN {V : Type} (zero one : V) (add mul sub div : V -> V -> V) (is_zero : V -> bool) chk A (m : mem V) :
  (forall x, is_zero x = true <-> x = zero) -> usable lower_positions A m -> rows A = cols A ->
  ((forall i, 0 <= i < rows A -> shown zero m A i i <> zero) /\
     exists m', trtri_e zero one add mul sub div is_zero chk A m = Ok (inl m')) \/
  (exists k e, trtri_e zero one add mul sub div is_zero chk A m = Ok (inr e) /\
     says e (bytes "xtrtri_LN") k /\ 1 <= k <= rows A /\ shown zero m A (k - 1) (k - 1) = zero /\
     forall j, 0 <= j < k - 1 -> shown zero m A j j <> zero).
Proof.
  intros Z0 U S. unfold trtri_e, assume, trtri_LN. rewrite S, Z.eqb_refl, <- S.
  rewrite lapack_routine_ok by assumption.
  assert (HR : Z.of_nat (Z.to_nat (rows A)) = rows A) by (pose proof U as (_ & ? & _); lia).
  assert (VL : forall i, 0 <= i < rows A ->
    value zero m (Operand ColMajor (data A) (outer_stride A) (rows A) (rows A) (HlBlas_Model.triangle Lower_ NonUnit)) i i = shown zero m A i i).
  { intros i Hi. apply value_lower; try exact S; try apply U; lia. }
  pose proof (first_zero_index is_zero (value zero m (Operand ColMajor (data A) (outer_stride A) (rows A) (rows A) (HlBlas_Model.triangle Lower_ NonUnit)))
                (Z.to_nat (rows A)) 0 (Z.le_refl 0)) as F. cbn zeta in F.
  cbn [bind]. unfold throw_on_err. cbn [fst snd].
  match type of F with ?t = 0 \/ _ => set (r := t) in * end.
  destruct (Z.eqb_spec r 0) as [R0|N].
  - left. split; [|eexists; reflexivity]. intros i Hi Hz. 
    pose proof (first_zero_none is_zero _ _ _ R0 (Z.le_refl 0) i ltac:(lia)) as G.
    rewrite VL in G by exact Hi. apply Z0 in Hz. congruence.
  - right. destruct F as [F|(F1 & F2 & F3)]; [contradiction|]. rewrite HR, Z.add_0_l in F1.
    exists r. eexists. split; [reflexivity|]. split; [apply make_error_says|]. split; [lia|].
    rewrite VL in F2 by lia. split; [now apply Z0|]. intros j Hj Hz. specialize (F3 j Hj).
    rewrite VL in F3 by lia. apply Z0 in Hz. congruence.
Qed.
Print Assumptions C106_xtrtri_LN.

(** xlauum_L never fails on a usable matrix; with an outer stride that LAPACK rejects, all three name the argument. *)
Theorem C106_arguments {V : Type} (zero one : V) (add mul sub div : V -> V -> V) (positive : V -> bool) (sqrt : V -> V)
    (is_zero : V -> bool) chk A (m : mem V) : shaped A -> rows A = cols A ->
  (~ stride_ok A ->
     (exists e, potrf_e zero add mul sub div positive sqrt chk A m = Ok (inr e) /\ says e (bytes "xpotrf_L") (-4)) /\
     (exists e, trtri_e zero one add mul sub div is_zero chk A m = Ok (inr e) /\ says e (bytes "xtrtri_LN") (-5)) /\
     (exists e, lauum_e zero one add mul chk A m = Ok (inr e) /\ says e (bytes "xlauum_L") (-4))) /\
  (usable lower_positions A m -> exists m', lauum_e zero one add mul chk A m = Ok (inl m')).
Proof.
  intros [R C] SQ. split.
  - intros N. unfold potrf_e, trtri_e, lauum_e, potrf_L, trtri_LN, lauum_L, lapack_routine.
    rewrite !assume_true by assumption. cbn [nrows].
    destruct (Z.ltb_spec (rows A) 0); [lia|].
    match goal with |- context [legal ?o] => destruct (legal o) eqn:L end.
    { exfalso. apply legal_iff in L. apply N. unfold stride_ok. lia. }
    cbn [bind]. unfold throw_on_err. cbn [fst snd].
    split; [|split]; eexists; (split; [reflexivity|apply make_error_says]).
  - intros U. unfold lauum_e, assume, lauum_L. rewrite SQ, Z.eqb_refl, <- SQ.
    rewrite lapack_routine_ok by assumption. eexists. reflexivity.
Qed.
Print Assumptions C106_arguments.

(** The functions of C68 are these with the contents of the exceptions left out. *)
Definition without_contents {A} (r : outcome (A + error)) : outcome A :=
  match r with Ok (inl m) => Ok m | Ok (inr _) => Throw lapack_error | Throw e => Throw e | Abort => Abort | UB => UB end.
Theorem C106_same_functions {V : Type} (zero one : V) (add mul sub div : V -> V -> V) (positive : V -> bool) (sqrt : V -> V)
    (is_zero : V -> bool) chk A (m : mem V) :
  xpotrf_L zero add mul sub div positive sqrt chk A m = without_contents (potrf_e zero add mul sub div positive sqrt chk A m) /\
  xtrtri_LN zero one add mul sub div is_zero chk A m = without_contents (trtri_e zero one add mul sub div is_zero chk A m) /\
  xlauum_L zero one add mul chk A m = without_contents (lauum_e zero one add mul chk A m).
Proof.
  unfold xpotrf_L, xtrtri_LN, xlauum_L, potrf_e, trtri_e, lauum_e, assume.
  assert (G : forall name (r : outcome (mem V * Z)), bind r lapack_throw_on_err = without_contents (bind r (throw_on_err name))).
  { intros name [[m' i]|e| |]; cbn [bind]; try reflexivity. unfold lapack_throw_on_err, throw_on_err. cbn [fst snd].
    now destruct (i =? 0). }
  destruct (rows A =? cols A); [split; [|split]; apply G|destruct chk; auto].
Qed.
Print Assumptions C106_same_functions.

(** [4 _; 2 1] (in columns of 2) is positive semidefinite only: info = 2; its triangle is invertible; with a zero it is not. *)
Definition ex_mem : mem Z := fun a => if a =? 0 then Some 4 else if a =? 1 then Some 2 else if a =? 3 then Some 0 else None.
Example C106_singular :
  trtri_e 0 1 Z.add Z.mul Z.sub Z.div (fun x => x =? 0) true (View 0 2 2 1 2) ex_mem =
    Ok (inr (LapackError (bytes "LAPACK error: xtrtri_LN (info=2)") 2)) /\
  potrf_e 0 Z.add Z.mul Z.sub Z.div (fun x => 0 <? x) Z.sqrt true (View 0 2 2 1 2) ex_mem =
    Ok (inr (LapackError (bytes "LAPACK error: xpotrf_L (info=2)") 2)) /\
  usable lower_positions (View 0 2 2 1 2) ex_mem.
Proof.
  split; [vm_compute; reflexivity|]. split; [vm_compute; reflexivity|].
  unfold usable, in_range, elem, ex_mem. cbn. repeat (split; [lia || reflexivity|]).
  intros i j [Hi Hj] L. unfold lower_positions in L.
  assert ((i = 0 /\ j = 0) \/ (i = 1 /\ j = 0) \/ (i = 1 /\ j = 1)) as [[-> ->]|[[-> ->]|[-> ->]]] by lia; cbn; discriminate.
Qed.
