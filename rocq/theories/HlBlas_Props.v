(** C57: the high-level BLAS wrappers compute what their names say. *)
From Verif Require Import Base MatView_Model MatView_Spec HlBlas_Model HlBlas_Spec HlBlas_Proofs HlBlas_Routines.
From Coq Require Import Field QArith Qcanon.
Local Open Scope Z_scope.
Local Arguments Z.eqb : simpl never.
Local Arguments Z.leb : simpl never.

(** C <- alpha A B + beta C. *)
Theorem C57_xgemm_NN {V : Type} (zero : V) (add mul : V -> V -> V) (chk : bool)
    alpha beta A B C (m : mem V) :
  usable all_positions A m -> usable all_positions B m -> usable all_positions C m ->
  apart C all_positions A all_positions -> apart C all_positions B all_positions ->
  rows A = rows C -> cols A = rows B -> cols B = cols C ->
  exists m', xgemm_NN zero add mul chk alpha A B beta C m = Ok m' /\
    updated m m' C all_positions
      (plus add (scaled mul alpha (product zero add mul (cols A) (shown zero m A) (shown zero m B)))
                (scaled mul beta (shown zero m C))).
Proof.
  intros. unfold xgemm_NN, assume. repeat (rewrite (proj2 (Z.eqb_eq _ _)) by congruence).
  apply (gemm_ok zero add mul NoTrans NoTrans); try assumption; cbn; try split; congruence.
Qed.
Print Assumptions C57_xgemm_NN.

(** C <- alpha A B + beta C on the lower triangle. *)
Theorem C57_xgemmt_LNN {V : Type} (zero : V) (add mul : V -> V -> V) (chk : bool)
    alpha beta A B C (m : mem V) :
  usable all_positions A m -> usable all_positions B m -> usable lower_positions C m ->
  apart C lower_positions A all_positions -> apart C lower_positions B all_positions ->
  rows A = rows C -> cols A = rows B -> cols B = cols C -> rows C = cols C ->
  exists m', xgemmt_LNN zero add mul chk alpha A B beta C m = Ok m' /\
    updated m m' C lower_positions
      (plus add (scaled mul alpha (product zero add mul (cols A) (shown zero m A) (shown zero m B)))
                (scaled mul beta (shown zero m C))).
Proof.
  intros. unfold xgemmt_LNN, assume. repeat (rewrite (proj2 (Z.eqb_eq _ _)) by congruence).
  apply (gemmt_ok zero add mul NoTrans NoTrans); try assumption; cbn; try split; congruence.
Qed.
Print Assumptions C57_xgemmt_LNN.

(** C <- alpha A^T B + beta C. *)
Theorem C57_xgemm_TN {V : Type} (zero : V) (add mul : V -> V -> V) (chk : bool)
    alpha beta A B C (m : mem V) :
  usable all_positions A m -> usable all_positions B m -> usable all_positions C m ->
  apart C all_positions A all_positions -> apart C all_positions B all_positions ->
  cols A = rows C -> rows A = rows B -> cols B = cols C ->
  exists m', xgemm_TN zero add mul chk alpha A B beta C m = Ok m' /\
    updated m m' C all_positions
      (plus add (scaled mul alpha (product zero add mul (rows A) (transposed (shown zero m A)) (shown zero m B)))
                (scaled mul beta (shown zero m C))).
Proof.
  intros. unfold xgemm_TN, assume. repeat (rewrite (proj2 (Z.eqb_eq _ _)) by congruence).
  apply (gemm_ok zero add mul Trans NoTrans); try assumption; cbn; try split; congruence.
Qed.
Print Assumptions C57_xgemm_TN.

(** C <- alpha A^T B + beta C on the lower triangle. *)
Theorem C57_xgemmt_LTN {V : Type} (zero : V) (add mul : V -> V -> V) (chk : bool)
    alpha beta A B C (m : mem V) :
  usable all_positions A m -> usable all_positions B m -> usable lower_positions C m ->
  apart C lower_positions A all_positions -> apart C lower_positions B all_positions ->
  cols A = rows C -> rows A = rows B -> cols B = cols C -> rows C = cols C ->
  exists m', xgemmt_LTN zero add mul chk alpha A B beta C m = Ok m' /\
    updated m m' C lower_positions
      (plus add (scaled mul alpha (product zero add mul (rows A) (transposed (shown zero m A)) (shown zero m B)))
                (scaled mul beta (shown zero m C))).
Proof.
  intros. unfold xgemmt_LTN, assume. repeat (rewrite (proj2 (Z.eqb_eq _ _)) by congruence).
  apply (gemmt_ok zero add mul Trans NoTrans); try assumption; cbn; try split; congruence.
Qed.
Print Assumptions C57_xgemmt_LTN.

(** C <- alpha A^T B^T + beta C. *)
Theorem C57_xgemm_TT {V : Type} (zero : V) (add mul : V -> V -> V) (chk : bool)
    alpha beta A B C (m : mem V) :
  usable all_positions A m -> usable all_positions B m -> usable all_positions C m ->
  apart C all_positions A all_positions -> apart C all_positions B all_positions ->
  cols A = rows C -> rows A = cols B -> rows B = cols C ->
  exists m', xgemm_TT zero add mul chk alpha A B beta C m = Ok m' /\
    updated m m' C all_positions
      (plus add (scaled mul alpha (product zero add mul (rows A) (transposed (shown zero m A)) (transposed (shown zero m B))))
                (scaled mul beta (shown zero m C))).
Proof.
  intros. unfold xgemm_TT, assume. repeat (rewrite (proj2 (Z.eqb_eq _ _)) by congruence).
  apply (gemm_ok zero add mul Trans Trans); try assumption; cbn; try split; congruence.
Qed.
Print Assumptions C57_xgemm_TT.

(** C <- alpha A^T B^T + beta C on the lower triangle. *)
Theorem C57_xgemmt_LTT {V : Type} (zero : V) (add mul : V -> V -> V) (chk : bool)
    alpha beta A B C (m : mem V) :
  usable all_positions A m -> usable all_positions B m -> usable lower_positions C m ->
  apart C lower_positions A all_positions -> apart C lower_positions B all_positions ->
  cols A = rows C -> rows A = cols B -> rows B = cols C -> rows C = cols C ->
  exists m', xgemmt_LTT zero add mul chk alpha A B beta C m = Ok m' /\
    updated m m' C lower_positions
      (plus add (scaled mul alpha (product zero add mul (rows A) (transposed (shown zero m A)) (transposed (shown zero m B))))
                (scaled mul beta (shown zero m C))).
Proof.
  intros. unfold xgemmt_LTT, assume. repeat (rewrite (proj2 (Z.eqb_eq _ _)) by congruence).
  apply (gemmt_ok zero add mul Trans Trans); try assumption; cbn; try split; congruence.
Qed.
Print Assumptions C57_xgemmt_LTT.

(** C <- alpha A B^T + beta C. *)
Theorem C57_xgemm_NT {V : Type} (zero : V) (add mul : V -> V -> V) (chk : bool)
    alpha beta A B C (m : mem V) :
  usable all_positions A m -> usable all_positions B m -> usable all_positions C m ->
  apart C all_positions A all_positions -> apart C all_positions B all_positions ->
  rows A = rows C -> cols A = cols B -> rows B = cols C ->
  exists m', xgemm_NT zero add mul chk alpha A B beta C m = Ok m' /\
    updated m m' C all_positions
      (plus add (scaled mul alpha (product zero add mul (cols A) (shown zero m A) (transposed (shown zero m B))))
                (scaled mul beta (shown zero m C))).
Proof.
  intros. unfold xgemm_NT, assume. repeat (rewrite (proj2 (Z.eqb_eq _ _)) by congruence).
  apply (gemm_ok zero add mul NoTrans Trans); try assumption; cbn; try split; congruence.
Qed.
Print Assumptions C57_xgemm_NT.

(** C <- alpha A B^T + beta C on the lower triangle. *)
Theorem C57_xgemmt_LNT {V : Type} (zero : V) (add mul : V -> V -> V) (chk : bool)
    alpha beta A B C (m : mem V) :
  usable all_positions A m -> usable all_positions B m -> usable lower_positions C m ->
  apart C lower_positions A all_positions -> apart C lower_positions B all_positions ->
  rows A = rows C -> cols A = cols B -> rows B = cols C -> rows C = cols C ->
  exists m', xgemmt_LNT zero add mul chk alpha A B beta C m = Ok m' /\
    updated m m' C lower_positions
      (plus add (scaled mul alpha (product zero add mul (cols A) (shown zero m A) (transposed (shown zero m B))))
                (scaled mul beta (shown zero m C))).
Proof.
  intros. unfold xgemmt_LNT, assume. repeat (rewrite (proj2 (Z.eqb_eq _ _)) by congruence).
  apply (gemmt_ok zero add mul NoTrans Trans); try assumption; cbn; try split; congruence.
Qed.
Print Assumptions C57_xgemmt_LNT.

(** C <- alpha A A^T + beta C on the lower triangle. *)
Theorem C57_xsyrk_LN {V : Type} (zero : V) (add mul : V -> V -> V) (chk : bool)
    alpha beta A C (m : mem V) :
  usable all_positions A m -> usable lower_positions C m ->
  apart C lower_positions A all_positions ->
  rows C = cols C -> rows A = rows C ->
  exists m', xsyrk_LN zero add mul chk alpha A beta C m = Ok m' /\
    updated m m' C lower_positions
      (plus add (scaled mul alpha (product zero add mul (cols A) (shown zero m A) (transposed (shown zero m A))))
                (scaled mul beta (shown zero m C))).
Proof.
  intros. unfold xsyrk_LN, assume. repeat (rewrite (proj2 (Z.eqb_eq _ _)) by congruence).
  apply (syrk_ok zero add mul NoTrans); try assumption; cbn; try split; congruence.
Qed.
Print Assumptions C57_xsyrk_LN.

(** C <- alpha A^T A + beta C on the lower triangle. *)
Theorem C57_xsyrk_LT {V : Type} (zero : V) (add mul : V -> V -> V) (chk : bool)
    alpha beta A C (m : mem V) :
  usable all_positions A m -> usable lower_positions C m ->
  apart C lower_positions A all_positions ->
  rows C = cols C -> cols A = rows C ->
  exists m', xsyrk_LT zero add mul chk alpha A beta C m = Ok m' /\
    updated m m' C lower_positions
      (plus add (scaled mul alpha (product zero add mul (rows A) (transposed (shown zero m A)) (shown zero m A)))
                (scaled mul beta (shown zero m C))).
Proof.
  intros. unfold xsyrk_LT, assume. repeat (rewrite (proj2 (Z.eqb_eq _ _)) by congruence).
  apply (syrk_ok zero add mul Trans); try assumption; cbn; try split; congruence.
Qed.
Print Assumptions C57_xsyrk_LT.

(** y <- alpha A x + beta y. *)
Theorem C57_xgemv_N {V : Type} (zero : V) (add mul : V -> V -> V) (chk : bool)
    alpha beta A x y (m : mem V) :
  usable all_positions A m -> usable_vector x m -> usable_vector y m ->
  apart y all_positions A all_positions -> apart y all_positions x all_positions ->
  rows A = rows y -> cols A = rows x ->
  exists m', xgemv_N zero add mul chk alpha A x beta y m = Ok m' /\
    updated m m' y all_positions
      (plus add (scaled mul alpha (product zero add mul (cols A) (shown zero m A) (shown zero m x)))
                (scaled mul beta (shown zero m y))).
Proof.
  intros UA Ux Uy XA XX E1 E2. unfold xgemv_N, assume. rewrite E1, E2. rewrite !Z.eqb_refl.
  rewrite (proj2 (Z.eqb_eq (cols x) 1)) by apply Ux. rewrite (proj2 (Z.eqb_eq (cols y) 1)) by apply Uy.
  pose proof (gemv_ok zero add mul NoTrans alpha A x beta y m UA Ux Uy (conj E1 E2) XA XX) as G.
  rewrite E1, E2 in G. exact G.
Qed.
Print Assumptions C57_xgemv_N.

(** y <- alpha A^T x + beta y. *)
Theorem C57_xgemv_T {V : Type} (zero : V) (add mul : V -> V -> V) (chk : bool)
    alpha beta A x y (m : mem V) :
  usable all_positions A m -> usable_vector x m -> usable_vector y m ->
  apart y all_positions A all_positions -> apart y all_positions x all_positions ->
  cols A = rows y -> rows A = rows x ->
  exists m', xgemv_T zero add mul chk alpha A x beta y m = Ok m' /\
    updated m m' y all_positions
      (plus add (scaled mul alpha (product zero add mul (rows A) (transposed (shown zero m A)) (shown zero m x)))
                (scaled mul beta (shown zero m y))).
Proof.
  intros UA Ux Uy XA XX E1 E2. unfold xgemv_T, assume. rewrite E1, E2. rewrite !Z.eqb_refl.
  rewrite (proj2 (Z.eqb_eq (cols x) 1)) by apply Ux. rewrite (proj2 (Z.eqb_eq (cols y) 1)) by apply Uy.
  pose proof (gemv_ok zero add mul Trans alpha A x beta y m UA Ux Uy (conj E2 E1) XA XX) as G.
  rewrite E1, E2 in G. exact G.
Qed.
Print Assumptions C57_xgemv_T.

(** x <- L x, where L is the lower triangle of A. *)
Theorem C57_xtrmv_LNN {V : Type} (zero one : V) (add mul : V -> V -> V) (chk : bool) A x (m : mem V) :
  usable lower_positions A m -> usable_vector x m -> apart x all_positions A lower_positions ->
  rows A = cols A -> cols A = rows x ->
  exists m', xtrmv_LNN zero one add mul chk A x m = Ok m' /\
    updated m m' x all_positions (product zero add mul (rows x) (lower_part zero (shown zero m A)) (shown zero m x)).
Proof.
  intros UA Ux X E1 E2. unfold xtrmv_LNN, assume. rewrite E1, E2, !Z.eqb_refl.
  rewrite (proj2 (Z.eqb_eq (cols x) 1)) by apply Ux.
  apply (trmv_ok zero one add mul NoTrans); try assumption; congruence.
Qed.
Print Assumptions C57_xtrmv_LNN.

(** x <- L^T x, where L is the lower triangle of A. *)
Theorem C57_xtrmv_LTN {V : Type} (zero one : V) (add mul : V -> V -> V) (chk : bool) A x (m : mem V) :
  usable lower_positions A m -> usable_vector x m -> apart x all_positions A lower_positions ->
  rows A = cols A -> cols A = rows x ->
  exists m', xtrmv_LTN zero one add mul chk A x m = Ok m' /\
    updated m m' x all_positions (product zero add mul (rows x) (transposed (lower_part zero (shown zero m A))) (shown zero m x)).
Proof.
  intros UA Ux X E1 E2. unfold xtrmv_LTN, assume. rewrite E1, E2, !Z.eqb_refl.
  rewrite (proj2 (Z.eqb_eq (cols x) 1)) by apply Ux.
  apply (trmv_ok zero one add mul Trans); try assumption; congruence.
Qed.
Print Assumptions C57_xtrmv_LTN.

(** B <- alpha L B, where L is the lower triangle of A. *)
Theorem C57_xtrmm_LLNN {V : Type} (zero one : V) (add mul : V -> V -> V) (chk : bool) alpha A B (m : mem V) :
  usable lower_positions A m -> usable all_positions B m -> apart B all_positions A lower_positions ->
  rows A = cols A -> cols A = rows B ->
  exists m', xtrmm_LLNN zero one add mul chk alpha A B m = Ok m' /\
    updated m m' B all_positions (scaled mul alpha (product zero add mul (rows B) (lower_part zero (shown zero m A)) (shown zero m B))).
Proof.
  intros. unfold xtrmm_LLNN, assume. repeat (rewrite (proj2 (Z.eqb_eq _ _)) by congruence).
  apply (trmm_left_ok zero one add mul NoTrans); try assumption; congruence.
Qed.
Print Assumptions C57_xtrmm_LLNN.

(** B <- alpha L^T B, where L is the lower triangle of A. *)
Theorem C57_xtrmm_LLTN {V : Type} (zero one : V) (add mul : V -> V -> V) (chk : bool) alpha A B (m : mem V) :
  usable lower_positions A m -> usable all_positions B m -> apart B all_positions A lower_positions ->
  rows A = cols A -> cols A = rows B ->
  exists m', xtrmm_LLTN zero one add mul chk alpha A B m = Ok m' /\
    updated m m' B all_positions (scaled mul alpha (product zero add mul (rows B) (transposed (lower_part zero (shown zero m A))) (shown zero m B))).
Proof.
  intros. unfold xtrmm_LLTN, assume. repeat (rewrite (proj2 (Z.eqb_eq _ _)) by congruence).
  apply (trmm_left_ok zero one add mul Trans); try assumption; congruence.
Qed.
Print Assumptions C57_xtrmm_LLTN.

(** B <- alpha B L, where L is the lower triangle of A. *)
Theorem C57_xtrmm_RLNN {V : Type} (zero one : V) (add mul : V -> V -> V) (chk : bool) alpha A B (m : mem V) :
  usable lower_positions A m -> usable all_positions B m -> apart B all_positions A lower_positions ->
  rows A = cols A -> rows A = cols B ->
  exists m', xtrmm_RLNN zero one add mul chk alpha A B m = Ok m' /\
    updated m m' B all_positions (scaled mul alpha (product zero add mul (cols B) (shown zero m B) (lower_part zero (shown zero m A)))).
Proof.
  intros. unfold xtrmm_RLNN, assume. repeat (rewrite (proj2 (Z.eqb_eq _ _)) by congruence).
  apply (trmm_right_ok zero one add mul NoTrans); try assumption; congruence.
Qed.
Print Assumptions C57_xtrmm_RLNN.

(** B <- alpha B L^T, where L is the lower triangle of A. *)
Theorem C57_xtrmm_RLTN {V : Type} (zero one : V) (add mul : V -> V -> V) (chk : bool) alpha A B (m : mem V) :
  usable lower_positions A m -> usable all_positions B m -> apart B all_positions A lower_positions ->
  rows A = cols A -> rows A = cols B ->
  exists m', xtrmm_RLTN zero one add mul chk alpha A B m = Ok m' /\
    updated m m' B all_positions (scaled mul alpha (product zero add mul (cols B) (shown zero m B) (transposed (lower_part zero (shown zero m A))))).
Proof.
  intros. unfold xtrmm_RLTN, assume. repeat (rewrite (proj2 (Z.eqb_eq _ _)) by congruence).
  apply (trmm_right_ok zero one add mul Trans); try assumption; congruence.
Qed.
Print Assumptions C57_xtrmm_RLTN.

(** x <- X with L X = x, where L is the lower triangle of A. *)
Theorem C57_xtrsv_LNN {V : Type} (zero one : V) (add mul sub : V -> V -> V) (opp : V -> V)
    (div : V -> V -> V) (inv : V -> V) (chk : bool) A x (m : mem V) :
  field_theory zero one add mul sub opp div inv (@eq V) ->
  usable lower_positions A m -> usable_vector x m -> apart x all_positions A lower_positions ->
  rows A = cols A -> cols A = rows x -> nonsingular zero A m ->
  exists m' X, xtrsv_LNN zero one add mul sub div chk A x m = Ok m' /\
    updated m m' x all_positions X /\
    agree_on x (product zero add mul (rows x) (lower_part zero (shown zero m A)) X) (shown zero m x).
Proof.
  intros F UA Ux X E1 E2 NS. unfold xtrsv_LNN, assume. rewrite E1, E2, !Z.eqb_refl.
  rewrite (proj2 (Z.eqb_eq (cols x) 1)) by apply Ux.
  apply (trsv_ok zero one add mul sub opp div inv F NoTrans); try assumption; congruence.
Qed.
Print Assumptions C57_xtrsv_LNN.

(** x <- X with L^T X = x, where L is the lower triangle of A. *)
Theorem C57_xtrsv_LTN {V : Type} (zero one : V) (add mul sub : V -> V -> V) (opp : V -> V)
    (div : V -> V -> V) (inv : V -> V) (chk : bool) A x (m : mem V) :
  field_theory zero one add mul sub opp div inv (@eq V) ->
  usable lower_positions A m -> usable_vector x m -> apart x all_positions A lower_positions ->
  rows A = cols A -> cols A = rows x -> nonsingular zero A m ->
  exists m' X, xtrsv_LTN zero one add mul sub div chk A x m = Ok m' /\
    updated m m' x all_positions X /\
    agree_on x (product zero add mul (rows x) (transposed (lower_part zero (shown zero m A))) X) (shown zero m x).
Proof.
  intros F UA Ux X E1 E2 NS. unfold xtrsv_LTN, assume. rewrite E1, E2, !Z.eqb_refl.
  rewrite (proj2 (Z.eqb_eq (cols x) 1)) by apply Ux.
  apply (trsv_ok zero one add mul sub opp div inv F Trans); try assumption; congruence.
Qed.
Print Assumptions C57_xtrsv_LTN.

(** B <- X with L X = alpha B, where L is the lower triangle of A. *)
Theorem C57_xtrsm_LLNN {V : Type} (zero one : V) (add mul sub : V -> V -> V) (opp : V -> V)
    (div : V -> V -> V) (inv : V -> V) (chk : bool) alpha A B (m : mem V) :
  field_theory zero one add mul sub opp div inv (@eq V) ->
  usable lower_positions A m -> usable all_positions B m -> apart B all_positions A lower_positions ->
  rows A = cols A -> cols A = rows B -> nonsingular zero A m ->
  exists m' X, xtrsm_LLNN zero one add mul sub div chk alpha A B m = Ok m' /\
    updated m m' B all_positions X /\
    agree_on B (product zero add mul (rows B) (lower_part zero (shown zero m A)) X) (scaled mul alpha (shown zero m B)).
Proof.
  intros. unfold xtrsm_LLNN, assume. repeat (rewrite (proj2 (Z.eqb_eq _ _)) by congruence).
  eapply (trsm_left_ok zero one add mul sub opp div inv); try eassumption; congruence.
Qed.
Print Assumptions C57_xtrsm_LLNN.

(** B <- X with L^T X = alpha B, where L is the lower triangle of A. *)
Theorem C57_xtrsm_LLTN {V : Type} (zero one : V) (add mul sub : V -> V -> V) (opp : V -> V)
    (div : V -> V -> V) (inv : V -> V) (chk : bool) alpha A B (m : mem V) :
  field_theory zero one add mul sub opp div inv (@eq V) ->
  usable lower_positions A m -> usable all_positions B m -> apart B all_positions A lower_positions ->
  rows A = cols A -> rows A = rows B -> nonsingular zero A m ->
  exists m' X, xtrsm_LLTN zero one add mul sub div chk alpha A B m = Ok m' /\
    updated m m' B all_positions X /\
    agree_on B (product zero add mul (rows B) (transposed (lower_part zero (shown zero m A))) X) (scaled mul alpha (shown zero m B)).
Proof.
  intros. unfold xtrsm_LLTN, assume. repeat (rewrite (proj2 (Z.eqb_eq _ _)) by congruence).
  eapply (trsm_left_ok zero one add mul sub opp div inv); try eassumption; congruence.
Qed.
Print Assumptions C57_xtrsm_LLTN.

(** B <- X with X L = alpha B, where L is the lower triangle of A. *)
Theorem C57_xtrsm_RLNN {V : Type} (zero one : V) (add mul sub : V -> V -> V) (opp : V -> V)
    (div : V -> V -> V) (inv : V -> V) (chk : bool) alpha A B (m : mem V) :
  field_theory zero one add mul sub opp div inv (@eq V) ->
  usable lower_positions A m -> usable all_positions B m -> apart B all_positions A lower_positions ->
  rows A = cols A -> cols A = cols B -> nonsingular zero A m ->
  exists m' X, xtrsm_RLNN zero one add mul sub div chk alpha A B m = Ok m' /\
    updated m m' B all_positions X /\
    agree_on B (product zero add mul (cols B) X (lower_part zero (shown zero m A))) (scaled mul alpha (shown zero m B)).
Proof.
  intros. unfold xtrsm_RLNN, assume. repeat (rewrite (proj2 (Z.eqb_eq _ _)) by congruence).
  eapply (trsm_right_ok zero one add mul sub opp div inv); try eassumption; congruence.
Qed.
Print Assumptions C57_xtrsm_RLNN.

(** B <- X with X L^T = alpha B, where L is the lower triangle of A. *)
Theorem C57_xtrsm_RLTN {V : Type} (zero one : V) (add mul sub : V -> V -> V) (opp : V -> V)
    (div : V -> V -> V) (inv : V -> V) (chk : bool) alpha A B (m : mem V) :
  field_theory zero one add mul sub opp div inv (@eq V) ->
  usable lower_positions A m -> usable all_positions B m -> apart B all_positions A lower_positions ->
  rows A = cols A -> cols A = cols B -> nonsingular zero A m ->
  exists m' X, xtrsm_RLTN zero one add mul sub div chk alpha A B m = Ok m' /\
    updated m m' B all_positions X /\
    agree_on B (product zero add mul (cols B) X (transposed (lower_part zero (shown zero m A)))) (scaled mul alpha (shown zero m B)).
Proof.
  intros. unfold xtrsm_RLTN, assume. repeat (rewrite (proj2 (Z.eqb_eq _ _)) by congruence).
  eapply (trsm_right_ok zero one add mul sub opp div inv); try eassumption; congruence.
Qed.
Print Assumptions C57_xtrsm_RLTN.

(** Operands whose dimensions do not fit are rejected when assumptions are verified. *)
Theorem C57_mismatched_dimensions_rejected {V : Type} (zero one : V) (add mul sub div : V -> V -> V)
    alpha beta A B C (m : mem V) :
  (~ (rows A = rows C /\ cols A = rows B /\ cols B = cols C) -> xgemm_NN zero add mul true alpha A B beta C m = Throw logic_error) /\
  (~ (rows A = rows C /\ cols A = rows B /\ cols B = cols C /\ rows C = cols C) -> xgemmt_LNN zero add mul true alpha A B beta C m = Throw logic_error) /\
  (~ (cols A = rows C /\ rows A = rows B /\ cols B = cols C) -> xgemm_TN zero add mul true alpha A B beta C m = Throw logic_error) /\
  (~ (cols A = rows C /\ rows A = rows B /\ cols B = cols C /\ rows C = cols C) -> xgemmt_LTN zero add mul true alpha A B beta C m = Throw logic_error) /\
  (~ (cols A = rows C /\ rows A = cols B /\ rows B = cols C) -> xgemm_TT zero add mul true alpha A B beta C m = Throw logic_error) /\
  (~ (cols A = rows C /\ rows A = cols B /\ rows B = cols C /\ rows C = cols C) -> xgemmt_LTT zero add mul true alpha A B beta C m = Throw logic_error) /\
  (~ (rows A = rows C /\ cols A = cols B /\ rows B = cols C) -> xgemm_NT zero add mul true alpha A B beta C m = Throw logic_error) /\
  (~ (rows A = rows C /\ cols A = cols B /\ rows B = cols C /\ rows C = cols C) -> xgemmt_LNT zero add mul true alpha A B beta C m = Throw logic_error) /\
  (~ (rows C = cols C /\ rows A = rows C) -> xsyrk_LN zero add mul true alpha A beta C m = Throw logic_error) /\
  (~ (rows C = cols C /\ cols A = rows C) -> xsyrk_LT zero add mul true alpha A beta C m = Throw logic_error) /\
  (~ (rows A = rows C /\ cols A = rows B /\ cols B = 1 /\ cols C = 1) -> xgemv_N zero add mul true alpha A B beta C m = Throw logic_error) /\
  (~ (cols A = rows C /\ rows A = rows B /\ cols B = 1 /\ cols C = 1) -> xgemv_T zero add mul true alpha A B beta C m = Throw logic_error) /\
  (~ (rows A = cols A /\ cols A = rows B /\ cols B = 1) -> xtrmv_LNN zero one add mul true A B m = Throw logic_error) /\
  (~ (rows A = cols A /\ cols A = rows B /\ cols B = 1) -> xtrsv_LNN zero one add mul sub div true A B m = Throw logic_error) /\
  (~ (rows A = cols A /\ cols A = rows B) -> xtrmm_LLNN zero one add mul true alpha A B m = Throw logic_error) /\
  (~ (rows A = cols A /\ cols A = rows B) -> xtrsm_LLNN zero one add mul sub div true alpha A B m = Throw logic_error) /\
  (~ (rows A = cols A /\ cols A = cols B) -> xtrmm_RLNN zero one add mul true alpha A B m = Throw logic_error) /\
  (~ (rows A = cols A /\ cols A = cols B) -> xtrsm_RLNN zero one add mul sub div true alpha A B m = Throw logic_error) /\
  (~ (rows A = cols A /\ cols A = rows B /\ cols B = 1) -> xtrmv_LTN zero one add mul true A B m = Throw logic_error) /\
  (~ (rows A = cols A /\ cols A = rows B /\ cols B = 1) -> xtrsv_LTN zero one add mul sub div true A B m = Throw logic_error) /\
  (~ (rows A = cols A /\ cols A = rows B) -> xtrmm_LLTN zero one add mul true alpha A B m = Throw logic_error) /\
  (~ (rows A = cols A /\ cols A = rows B) -> xtrsm_LLTN zero one add mul sub div true alpha A B m = Throw logic_error) /\
  (~ (rows A = cols A /\ cols A = cols B) -> xtrmm_RLTN zero one add mul true alpha A B m = Throw logic_error) /\
  (~ (rows A = cols A /\ cols A = cols B) -> xtrsm_RLTN zero one add mul sub div true alpha A B m = Throw logic_error).
Proof.
  unfold xgemm_NN, xgemm_TN, xgemm_TT, xgemm_NT, xgemmt_LNN, xgemmt_LTN, xgemmt_LTT, xgemmt_LNT, xsyrk_LN, xsyrk_LT,
    xgemv_N, xgemv_T, xtrmv_LNN, xtrmv_LTN, xtrsv_LNN, xtrsv_LTN, xtrmm_LLNN, xtrmm_LLTN, xtrmm_RLNN, xtrmm_RLTN,
    xtrsm_LLNN, xtrsm_LLTN, xtrsm_RLNN, xtrsm_RLTN, assume.
  repeat split; intros N;
    repeat (match goal with |- context [?a =? ?b] => destruct (Z.eqb_spec a b) end; [|reflexivity]);
    exfalso; apply N; repeat split; congruence.
Qed.
Print Assumptions C57_mismatched_dimensions_rejected.

(** A view without rows and with the default outer stride (mat-view.hpp 46-53)
    has outer stride 0, which BLAS rejects as leading dimension although there
    is nothing to read: C <- alpha A^T B + beta C with an empty sum must scale C. *)
Theorem C57_empty_operand_refuted {V : Type} (zero : V) (add mul : V -> V -> V) :
  ~ (forall alpha beta A B C (m : mem V),
       (forall v, In v [A; B; C] -> v = plain (data v) (rows v) (cols v) 1 /\ 0 <= rows v /\ 0 <= cols v /\
          forall i j, in_range v i j -> m (elem v i j) <> None) ->
       apart C all_positions A all_positions -> apart C all_positions B all_positions ->
       cols A = rows C -> rows A = rows B -> cols B = cols C ->
       exists m', xgemm_TN zero add mul true alpha A B beta C m = Ok m').
Proof.
  intros H.
  destruct (H zero zero (plain 0 0 1 1) (plain 0 0 1 1) (plain 0 1 1 1) (fun a => if a =? 0 then Some zero else None))
    as (m' & E).
  - intros v [<-|[<-|[<-|[]]]]; cbn [plain data rows cols]; (split; [reflexivity|]; split; [lia|]; split; [lia|]);
      intros i j [Hi Hj]; cbn [plain rows cols] in Hi, Hj; try lia.
    unfold elem. cbn. assert (i = 0) as -> by lia. assert (j = 0) as -> by lia. discriminate.
  - intros i j k l _ _ [Hk _] _. cbn in Hk. lia.
  - intros i j k l _ _ [Hk _] _. cbn in Hk. lia.
  - reflexivity.
  - reflexivity.
  - reflexivity.
  - discriminate E.
Qed.
Print Assumptions C57_empty_operand_refuted.


(** ** Concrete cases: A is 3 x 2 in columns of 4, B is 3 x 2 in columns of 5, C is 2 x 2 in columns of 3. *)
Definition ex_mem : mem Z := fun a => if (0 <=? a) && (a <? 100) then Some (a mod 7 + 1) else None.
Definition exA := View 0 3 2 1 4.
Definition exB := View 20 3 2 1 5.
Definition exC := View 40 2 2 1 3.
Lemma ex_usable P d r c o : 0 <= d -> 0 <= r -> 0 <= c -> 1 <= o -> r <= o -> d + c * o <= 100 ->
  usable P (View d r c 1 o) ex_mem.
Proof.
  intros. unfold usable, in_range, elem, ex_mem. cbn.
  repeat (split; [assumption || reflexivity|]). intros i j [Hi Hj] _.
  rewrite (proj2 (Z.leb_le _ _)) by nia. rewrite (proj2 (Z.ltb_lt _ _)) by nia. discriminate.
Qed.
Lemma ex_apart P Q d r c o d' r' c' o' : 0 <= o -> 0 <= o' -> r <= o -> r' <= o' -> d' + c' * o' <= d ->
  apart (View d r c 1 o) P (View d' r' c' 1 o') Q.
Proof.
  intros. intros i j k l [Hi Hj] _ [Hk Hl] _. unfold elem. cbn in *.
  assert (l * o' <= (c' - 1) * o') by nia. assert (0 <= j * o) by nia. lia.
Qed.
(** The hypotheses of C57_xgemm_TN hold, and these are the numbers. *)
Example C57_gemm_hypotheses : usable all_positions exA ex_mem /\ usable all_positions exB ex_mem /\
  usable all_positions exC ex_mem /\ apart exC all_positions exA all_positions /\
  apart exC all_positions exB all_positions /\
  cols exA = rows exC /\ rows exA = rows exB /\ cols exB = cols exC.
Proof.
  split; [apply ex_usable; lia|]. split; [apply ex_usable; lia|]. split; [apply ex_usable; lia|].
  split; [apply ex_apart; lia|]. split; [apply ex_apart; lia|]. now cbn.
Qed.
Definition ex_read (r : outcome (mem Z)) : option (list (option Z)) :=
  match r with Ok m => Some (map m [40; 41; 42; 43; 44; 45]) | _ => None end.
Example C57_gemm_run : map ex_mem [40; 41; 42; 43; 44; 45] = [Some 6; Some 7; Some 1; Some 2; Some 3; Some 4] /\
  ex_read (xgemm_TN 0 Z.add Z.mul true 10 exA exB 3 exC ex_mem) =
    Some [Some 168; Some 571; Some 1; Some 386; Some 1109; Some 4] /\
  ex_read (xgemmt_LTN 0 Z.add Z.mul true 10 exA exB 3 exC ex_mem) =
    Some [Some 168; Some 571; Some 1; Some 2; Some 1109; Some 4] /\
  xgemm_NN 0 Z.add Z.mul true 10 exA exB 3 exC ex_mem = Throw logic_error /\
  xgemm_NN 0 Z.add Z.mul false 10 exA exB 3 exC ex_mem = UB.
Proof. vm_compute. repeat split. Qed.
(** A triangular system over the rationals. *)
Definition exq_mem : mem Qc := fun a => if (0 <=? a) && (a <? 100) then Some (Q2Qc (inject_Z (a mod 7 + 1))) else None.
Definition exL := View 0 2 2 1 4.
Definition exR := View 20 2 3 1 2.
Example C57_trsm_hypotheses : field_theory 0%Qc 1%Qc Qcplus Qcmult Qcminus Qcopp Qcdiv Qcinv (@eq Qc) /\
  usable lower_positions exL exq_mem /\ usable all_positions exR exq_mem /\
  apart exR all_positions exL lower_positions /\ rows exL = cols exL /\ rows exL = rows exR /\
  nonsingular 0%Qc exL exq_mem.
Proof.
  assert (U : forall P d r c o, 0 <= d -> 0 <= r -> 0 <= c -> 1 <= o -> r <= o -> d + c * o <= 100 ->
            usable P (View d r c 1 o) exq_mem).
  { intros. unfold usable, in_range, elem, exq_mem. cbn.
    repeat (split; [assumption || reflexivity|]). intros i j [Hi Hj] _.
    rewrite (proj2 (Z.leb_le _ _)) by nia. rewrite (proj2 (Z.ltb_lt _ _)) by nia. discriminate. }
  split; [exact Qcft|]. split; [apply U; lia|]. split; [apply U; lia|]. split; [apply ex_apart; lia|].
  split; [reflexivity|]. split; [reflexivity|].
  intros i Hi. cbn in Hi. assert (i = 0 \/ i = 1) as [-> | ->] by lia; vm_compute; intros E; discriminate E.
Qed.
(** A = [1 _; 2 6]; the first column of B is (7, 1): X = (7, 1)/L^T. *)
Example C57_trsm_run :
  match xtrsm_LLTN 0%Qc 1%Qc Qcplus Qcmult Qcminus Qcdiv true 1%Qc exL exR exq_mem with
  | Ok m => map (fun a => option_map this (m a)) [20; 21] = [Some (20 # 3)%Q; Some (1 # 6)%Q]
  | _ => False
  end.
Proof. vm_compute. reflexivity. Qed.

