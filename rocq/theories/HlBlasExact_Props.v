From Verif Require Import Base MatView_Model HlBlas_Model Lapack_Model HlBlasExact_Spec HlBlasExact_Proofs.
Local Open Scope Z_scope.

(** C57: BLAS rejects a call with matching shapes exactly if the outer stride of
    a matrix operand (not of a vector) is smaller than 1 or than its number of rows. *)
Theorem C57_gemm_strides_exact : forall {V} (zero : V) add mul chk alpha beta A B C (m : mem V),
  shaped A -> shaped B -> shaped C ->
  (rows A = rows C -> cols A = rows B -> cols B = cols C ->
     (xgemm_NN zero add mul chk alpha A B beta C m = Abort <-> ~ (stride_ok A /\ stride_ok B /\ stride_ok C))) /\
  (cols A = rows C -> rows A = rows B -> cols B = cols C ->
     (xgemm_TN zero add mul chk alpha A B beta C m = Abort <-> ~ (stride_ok A /\ stride_ok B /\ stride_ok C))) /\
  (cols A = rows C -> rows A = cols B -> rows B = cols C ->
     (xgemm_TT zero add mul chk alpha A B beta C m = Abort <-> ~ (stride_ok A /\ stride_ok B /\ stride_ok C))) /\
  (rows A = rows C -> cols A = cols B -> rows B = cols C ->
     (xgemm_NT zero add mul chk alpha A B beta C m = Abort <-> ~ (stride_ok A /\ stride_ok B /\ stride_ok C))) /\
  (rows A = rows C -> cols A = rows B -> cols B = cols C -> rows C = cols C ->
     (xgemmt_LNN zero add mul chk alpha A B beta C m = Abort <-> ~ (stride_ok A /\ stride_ok B /\ stride_ok C))) /\
  (cols A = rows C -> rows A = rows B -> cols B = cols C -> rows C = cols C ->
     (xgemmt_LTN zero add mul chk alpha A B beta C m = Abort <-> ~ (stride_ok A /\ stride_ok B /\ stride_ok C))) /\
  (cols A = rows C -> rows A = cols B -> rows B = cols C -> rows C = cols C ->
     (xgemmt_LTT zero add mul chk alpha A B beta C m = Abort <-> ~ (stride_ok A /\ stride_ok B /\ stride_ok C))) /\
  (rows A = rows C -> cols A = cols B -> rows B = cols C -> rows C = cols C ->
     (xgemmt_LNT zero add mul chk alpha A B beta C m = Abort <-> ~ (stride_ok A /\ stride_ok B /\ stride_ok C))) /\
  (rows C = cols C -> rows A = rows C ->
     (xsyrk_LN zero add mul chk alpha A beta C m = Abort <-> ~ (stride_ok A /\ stride_ok C))) /\
  (rows C = cols C -> cols A = rows C ->
     (xsyrk_LT zero add mul chk alpha A beta C m = Abort <-> ~ (stride_ok A /\ stride_ok C))) /\
  (rows A = rows C -> cols A = rows B -> cols B = 1 -> cols C = 1 ->
     (xgemv_N zero add mul chk alpha A B beta C m = Abort <-> ~ stride_ok A)) /\
  (cols A = rows C -> rows A = rows B -> cols B = 1 -> cols C = 1 ->
     (xgemv_T zero add mul chk alpha A B beta C m = Abort <-> ~ stride_ok A)).
Proof.
  intros V zero add mul chk alpha beta A B C m SA SB SC.
  unfold xgemm_NN, xgemm_TN, xgemm_TT, xgemm_NT, xgemmt_LNN, xgemmt_LTN, xgemmt_LTT, xgemmt_LNT, xsyrk_LN, xsyrk_LT,
    xgemv_N, xgemv_T, cblas_gemm, cblas_gemmt, cblas_syrk, cblas_gemv.
  repeat (match goal with |- _ /\ _ => split end); intros; stride_exact.
Qed.
Print Assumptions C57_gemm_strides_exact.

Theorem C57_triangular_strides_exact : forall {V} (zero one : V) add mul sub div chk alpha A B (m : mem V),
  shaped A -> shaped B -> rows A = cols A ->
  (rows A = rows B -> cols B = 1 ->
     (xtrmv_LNN zero one add mul chk A B m = Abort <-> ~ stride_ok A) /\
     (xtrmv_LTN zero one add mul chk A B m = Abort <-> ~ stride_ok A) /\
     (xtrsv_LNN zero one add mul sub div chk A B m = Abort <-> ~ stride_ok A) /\
     (xtrsv_LTN zero one add mul sub div chk A B m = Abort <-> ~ stride_ok A)) /\
  (rows A = rows B ->
     (xtrmm_LLNN zero one add mul chk alpha A B m = Abort <-> ~ (stride_ok A /\ stride_ok B)) /\
     (xtrmm_LLTN zero one add mul chk alpha A B m = Abort <-> ~ (stride_ok A /\ stride_ok B)) /\
     (xtrsm_LLNN zero one add mul sub div chk alpha A B m = Abort <-> ~ (stride_ok A /\ stride_ok B)) /\
     (xtrsm_LLTN zero one add mul sub div chk alpha A B m = Abort <-> ~ (stride_ok A /\ stride_ok B))) /\
  (rows A = cols B ->
     (xtrmm_RLNN zero one add mul chk alpha A B m = Abort <-> ~ (stride_ok A /\ stride_ok B)) /\
     (xtrmm_RLTN zero one add mul chk alpha A B m = Abort <-> ~ (stride_ok A /\ stride_ok B)) /\
     (xtrsm_RLNN zero one add mul sub div chk alpha A B m = Abort <-> ~ (stride_ok A /\ stride_ok B)) /\
     (xtrsm_RLTN zero one add mul sub div chk alpha A B m = Abort <-> ~ (stride_ok A /\ stride_ok B))).
Proof.
  intros V zero one add mul sub div chk alpha A B m SA SB SQ.
  unfold xtrmv_LNN, xtrmv_LTN, xtrsv_LNN, xtrsv_LTN, xtrmm_LLNN, xtrmm_LLTN, xtrmm_RLNN, xtrmm_RLTN,
    xtrsm_LLNN, xtrsm_LLTN, xtrsm_RLNN, xtrsm_RLTN, cblas_trmv, cblas_trsv, cblas_trmm, cblas_trsm.
  repeat (match goal with |- _ /\ _ => split | |- _ -> _ => intro end);
    repeat rewrite assume_true by congruence; stride_exact.
Qed.
Print Assumptions C57_triangular_strides_exact.

(** A view made with the default outer stride is rejected exactly if it has no rows. *)
Theorem C57_default_stride : forall d r c, 0 <= r -> (stride_ok (plain d r c 1) <-> r <> 0).
Proof. intros d r c H. unfold stride_ok, plain. cbn [outer_stride rows]. lia. Qed.
Print Assumptions C57_default_stride.

(** C68: the same for the LAPACK wrappers, which throw lapack_error instead. *)
Theorem C68_stride_rejected : forall {V} (zero one : V) add mul sub div positive sqrt is_zero chk A (m : mem V),
  shaped A -> rows A = cols A -> ~ stride_ok A ->
  xpotrf_L zero add mul sub div positive sqrt chk A m = Throw lapack_error /\
  xtrtri_LN zero one add mul sub div is_zero chk A m = Throw lapack_error /\
  xlauum_L zero one add mul chk A m = Throw lapack_error.
Proof.
  intros V zero one add mul sub div positive sqrt is_zero chk A m [R C] SQ N.
  unfold xpotrf_L, xtrtri_LN, xlauum_L, potrf_L, trtri_LN, lauum_L, lapack_routine.
  rewrite !assume_true by assumption. cbn [nrows].
  destruct (Z.ltb_spec (rows A) 0); [lia|].
  match goal with |- context [legal ?o] => destruct (legal o) eqn:L end; [|auto].
  exfalso. apply legal_iff in L. apply N. unfold stride_ok. lia.
Qed.
Print Assumptions C68_stride_rejected.

(** Non-vacuity. *)
Example strides : let A := plain 0 0 1 1 in let C := plain 0 1 1 1 in
  shaped A /\ shaped C /\ ~ stride_ok A /\ stride_ok C /\
  xgemm_TN 0 Z.add Z.mul true 1 A A 1 C (fun a => if a =? 0 then Some 5 else None) = Abort /\
  xgemm_TN 0 Z.add Z.mul true 1 (View 0 0 1 1 1) (View 0 0 1 1 1) 1 C (fun a => if a =? 0 then Some 5 else None) <> Abort.
Proof. unfold shaped, stride_ok. cbn. repeat split; try lia; discriminate. Qed.
