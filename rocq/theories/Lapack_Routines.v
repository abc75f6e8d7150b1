(** The LAPACK wrappers on views. *)
From Verif Require Import Base MatView_Model MatView_Spec HlBlas_Model HlBlas_Spec HlBlas_Proofs HlBlas_Routines
  Lapack_Model Lapack_Spec Lapack_Proofs.
From Coq Require Import Field.
Local Open Scope Z_scope.
Local Arguments Z.eqb : simpl never.
Local Arguments Z.leb : simpl never.
Local Arguments Z.ltb : simpl never.

Section Views.
Context {V : Type} (zero one : V) (add mul sub : V -> V -> V) (opp : V -> V) (div : V -> V -> V) (inv : V -> V).
Hypothesis Fth : field_theory zero one add mul sub opp div inv (@eq V).
Context (positive : V -> bool) (sqrt : V -> V).
Hypothesis sqrt_ok : forall d, positive d = true -> mul (sqrt d) (sqrt d) = d /\ sqrt d <> zero.
Context (is_zero : V -> bool).
Hypothesis is_zero_ok : forall x, is_zero x = true <-> x = zero.
Local Notation mem := (@MatView_Model.mem V).
Local Notation shown := (shown zero).
Local Notation product := (product zero add mul).
Local Notation lower_part := (lower_part zero).
Local Notation identity := (identity zero one).
Local Notation Ld v := (Operand ColMajor (data v) (outer_stride v) (rows v) (rows v) (triangle Lower_ NonUnit)).

Lemma lapack_routine_ok b v f (m : mem) : rows v = cols v -> usable lower_positions v m ->
  lapack_routine b (Ld v) f m = let '(x, info) := f m in Ok (if info =? 0 then write (Ld v) x m else m, info).
Proof.
  intros S U. pose proof (lower_describes v (rows v) eq_refl (eq_sym S)) as D.
  unfold lapack_routine. rewrite (describes_legal _ _ _ _ D U), (describes_present _ _ _ _ D U).
  cbn [nrows]. pose proof U as (_ & H & _). now rewrite (proj2 (Z.ltb_ge (rows v) 0)) by lia.
Qed.
Lemma write_updated v f (m : mem) : rows v = cols v -> usable lower_positions v m ->
  updated m (write (Ld v) f m) v lower_positions f.
Proof.
  intros S U. apply updated_write; [|exact U]. apply (lower_describes v (rows v) eq_refl (eq_sym S)).
Qed.
Lemma updated_shown m m' v P (f : matrix (V := V)) i j : updated m m' v P f -> in_range v i j -> P i j ->
  shown m' v i j = f i j.
Proof. intros [U _] R HP. unfold HlBlas_Spec.shown. now rewrite U. Qed.
Lemma updated_usable m m' v P (f : matrix (V := V)) : updated m m' v P f -> usable P v m -> usable P v m'.
Proof.
  intros [U _] (E & A & B & C & D & _). repeat (split; [assumption|]).
  intros i j R HP. rewrite U by assumption. discriminate.
Qed.
Lemma updated_changes m m' v P (f : matrix (V := V)) : updated m m' v P f -> changes_only m m' v P.
Proof. intros [_ U]. exact U. Qed.
Lemma updated_lower_part m m' v (f : matrix (V := V)) n i j : updated m m' v lower_positions f ->
  rows v = n -> cols v = n -> 0 <= i < n -> 0 <= j < n ->
  lower_part (shown m' v) i j = lower_part f i j.
Proof.
  intros U R C Hi Hj. unfold HlBlas_Spec.lower_part. destruct (Z.leb_spec j i); [|reflexivity].
  apply (updated_shown m m' v lower_positions); [exact U|split; lia|exact H].
Qed.
Lemma value_lower v (m : mem) i j : rows v = cols v -> inner_stride v = 1 -> value zero m (Ld v) i j = shown m v i j.
Proof.
  intros S E. apply (describes_value zero _ _ _ _ _ _ (lower_describes v (rows v) eq_refl (eq_sym S)) E).
Qed.

(** potrf: the factorization of the lower triangle of A decides. *)
Lemma potrf_cases chk A (m : mem) : rows A = cols A -> usable lower_positions A m ->
  exists R info, cholesky zero add mul sub div positive sqrt (shown m A) (Z.to_nat (rows A)) = (R, info) /\
    xpotrf_L zero add mul sub div positive sqrt chk A m =
      if info =? 0 then Ok (write (Ld A) (entry zero R) m) else Throw lapack_error.
Proof.
  intros S U. destruct (cholesky zero add mul sub div positive sqrt (shown m A) (Z.to_nat (rows A))) as [R info] eqn:E.
  exists R, info. split; [reflexivity|]. unfold xpotrf_L, assume, potrf_L. rewrite S, Z.eqb_refl. rewrite <- S.
  rewrite lapack_routine_ok by assumption.
  rewrite (cholesky_ext _ _ _ _ _ _ _ (value zero m (Ld A)) (shown m A))
    by (intros; apply value_lower; [exact S|apply U]).
  rewrite E. cbn [bind]. unfold lapack_throw_on_err. cbn [fst snd]. now destruct (info =? 0).
Qed.
Lemma potrf_factor A (m m' : mem) R : rows A = cols A -> usable lower_positions A m ->
  cholesky zero add mul sub div positive sqrt (shown m A) (Z.to_nat (rows A)) = (R, 0) ->
  m' = write (Ld A) (entry zero R) m ->
  changes_only m m' A lower_positions /\ usable lower_positions A m' /\
  (forall i, 0 <= i < rows A -> shown m' A i i <> zero) /\
  agree (rows A) (product (rows A) (lower_part (shown m' A)) (transposed (lower_part (shown m' A)))) (symmetrized (shown m A)).
Proof using Fth sqrt_ok.
  intros S U E ->. pose proof (write_updated A (entry zero R) m S U) as W.
  apply cholesky_factor in E.
  assert (HR : Z.of_nat (Z.to_nat (rows A)) = rows A) by (pose proof U as (_ & ? & _); lia).
  split; [now apply (updated_changes _ _ _ _ (entry zero R))|]. split; [now apply (updated_usable _ _ _ _ (entry zero R) W)|].
  split.
  - intros i Hi. rewrite (updated_shown _ _ _ _ _ _ _ W) by (unfold in_range, lower_positions; lia).
    apply (factor_diag zero add mul sub div positive sqrt sqrt_ok _ _ _ _ E). lia.
  - pose proof (factor_symmetric zero one add mul sub opp div inv Fth positive sqrt sqrt_ok _ _ _ E) as F.
    rewrite HR in F.
    assert (LE : forall i j, 0 <= i < rows A -> 0 <= j < rows A -> lower_part (entry zero R) i j = entry zero R i j).
    { intros i j Hi Hj. unfold HlBlas_Spec.lower_part. destruct (Z.leb_spec j i); [reflexivity|].
      destruct E as (_ & _ & _ & E). symmetry. apply E; lia. }
    intros i j Hi Hj. rewrite <- F by assumption. apply Sum_ext. intros k Hk. unfold transposed.
    rewrite !(updated_lower_part _ _ _ _ (rows A) _ _ W) by (try lia; reflexivity).
    now rewrite !LE by lia.
Qed.
Lemma trtri_ok chk A (m : mem) : rows A = cols A -> usable lower_positions A m -> nonsingular zero A m ->
  exists m', xtrtri_LN zero one add mul sub div is_zero chk A m = Ok m' /\
    usable lower_positions A m' /\
    updated m m' A lower_positions (tri_inverse zero one add mul sub div (lower_part (shown m A)) (rows A)).
Proof using is_zero_ok.
  intros S U NS. unfold xtrtri_LN, assume, trtri_LN. rewrite S, Z.eqb_refl, <- S.
  rewrite lapack_routine_ok by assumption.
  assert (F : first_zero is_zero (value zero m (Ld A)) 0 (Z.to_nat (rows A)) = 0).
  { destruct (Z.eq_dec (first_zero is_zero (value zero m (Ld A)) 0 (Z.to_nat (rows A))) 0) as [E|N]; [exact E|exfalso].
    assert (G : forall n i, 0 <= i -> i + Z.of_nat n <= rows A ->
              first_zero is_zero (value zero m (Ld A)) i n = 0).
    { induction n as [|n IH]; intros i Hi Hn; [reflexivity|]. cbn [first_zero].
      destruct (is_zero (value zero m (Ld A) i i)) eqn:Z0.
      - apply is_zero_ok in Z0. rewrite value_lower in Z0 by (try exact S; apply U).
        exfalso. apply (NS i); [lia|exact Z0].
      - apply IH; lia. }
    apply N, G; [lia|]. pose proof U as (_ & ? & _). lia. }
  rewrite F. cbn [bind]. unfold lapack_throw_on_err. cbn [fst snd]. rewrite Z.eqb_refl.
  eexists. split; [reflexivity|].
  match goal with |- usable _ _ (write _ ?f _) /\ _ => pose proof (write_updated A f m S U) as W end.
  split; [apply (updated_usable _ _ _ _ _ W U)|].
  eapply updated_ext; [|exact W].
  intros i j [Hi Hj] L. cbv beta. unfold tri_inverse, HlBlas_Model.solve.
  f_equal. apply (substitute_ext zero add mul sub div).
  - intros r c Hr Hc. apply tri_lower; [reflexivity|symmetry; exact S|apply U].
  - intros. reflexivity.
Qed.
Lemma trtri_singular chk A (m : mem) i : rows A = cols A -> usable lower_positions A m ->
  0 <= i < rows A -> shown m A i i = zero ->
  xtrtri_LN zero one add mul sub div is_zero chk A m = Throw lapack_error.
Proof using is_zero_ok.
  intros S U Hi E. unfold xtrtri_LN, assume, trtri_LN. rewrite S, Z.eqb_refl, <- S.
  rewrite lapack_routine_ok by assumption.
  assert (F : first_zero is_zero (value zero m (Ld A)) 0 (Z.to_nat (rows A)) <> 0).
  { apply first_zero_some; [lia|]. exists i. split; [lia|]. apply is_zero_ok.
    rewrite value_lower by (try exact S; apply U). exact E. }
  cbn [bind]. unfold lapack_throw_on_err. cbn [fst snd]. now rewrite (proj2 (Z.eqb_neq _ 0) F).
Qed.
Lemma lauum_ok chk A (m : mem) : rows A = cols A -> usable lower_positions A m ->
  exists m', xlauum_L zero one add mul chk A m = Ok m' /\
    usable lower_positions A m' /\
    updated m m' A lower_positions (product (rows A) (transposed (lower_part (shown m A))) (lower_part (shown m A))).
Proof.
  intros S U. unfold xlauum_L, assume, lauum_L. rewrite S, Z.eqb_refl, <- S.
  rewrite lapack_routine_ok by assumption. rewrite Z.eqb_refl.
  cbn [bind]. unfold lapack_throw_on_err. cbn [fst snd]. rewrite Z.eqb_refl.
  eexists. split; [reflexivity|].
  match goal with |- usable _ _ (write _ ?f _) /\ _ => pose proof (write_updated A f m S U) as W end.
  split; [apply (updated_usable _ _ _ _ _ W U)|].
  eapply updated_ext; [|exact W].
  intros i j [Hi Hj] L. cbv beta. rewrite total_Sum. apply Sum_ext. intros k Hk. unfold transposed.
  now rewrite !tri_lower by (try reflexivity; try (symmetry; exact S); apply U).
Qed.
Lemma lower_part_tri f n : lower_tri zero n (lower_part f).
Proof.
  intros i j _ _ H. unfold HlBlas_Spec.lower_part. now rewrite (proj2 (Z.leb_gt j i)) by lia.
Qed.
(** potrf, trtri and lauum in a row give the lower triangle of the inverse. *)
Lemma inverse_ok chk A (m m1 : mem) : rows A = cols A -> usable lower_positions A m ->
  xpotrf_L zero add mul sub div positive sqrt chk A m = Ok m1 ->
  exists m2 m3, xtrtri_LN zero one add mul sub div is_zero chk A m1 = Ok m2 /\
    xlauum_L zero one add mul chk A m2 = Ok m3 /\
    changes_only m m3 A lower_positions /\
    agree (rows A) (product (rows A) (symmetrized (shown m A)) (symmetrized (shown m3 A))) identity.
Proof using Fth sqrt_ok is_zero_ok.
  intros S U E1.
  destruct (potrf_cases chk A m S U) as (R & info & EC & EP). rewrite EP in E1.
  destruct (Z.eqb_spec info 0) as [I0|N]; [|discriminate E1]. rewrite I0 in EC. injection E1 as E1.
  destruct (potrf_factor A m m1 R S U EC (eq_sym E1)) as (C1 & U1 & D1 & F1).
  destruct (trtri_ok chk A m1 S U1 D1) as (m2 & E2 & U2 & W2).
  destruct (lauum_ok chk A m2 S U2) as (m3 & E3 & U3 & W3).
  exists m2, m3. split; [exact E2|]. split; [exact E3|]. split.
  { intros a H. rewrite (updated_changes _ _ _ _ _ W3 a H), (updated_changes _ _ _ _ _ W2 a H). now apply C1. }
  set (n := rows A) in *. set (T := lower_part (shown m1 A)) in *. set (X := tri_inverse zero one add mul sub div T n) in *.
  assert (LT : lower_tri zero n T) by apply lower_part_tri.
  assert (DT : forall i, 0 <= i < n -> T i i <> zero).
  { intros i Hi. unfold T, HlBlas_Spec.lower_part. rewrite Z.leb_refl. now apply D1. }
  assert (LX : lower_tri zero n X) by (apply (tri_inverse_lower zero one add mul sub opp div inv Fth); assumption).
  assert (X2 : forall i j, 0 <= i < n -> 0 <= j < n -> lower_part (shown m2 A) i j = X i j).
  { intros i j Hi Hj. rewrite (updated_lower_part m1 m2 A X n i j W2) by (try assumption; try reflexivity; symmetry; exact S).
    unfold HlBlas_Spec.lower_part. destruct (Z.leb_spec j i); [reflexivity|]. symmetry. apply LX; lia. }
  assert (P3 : forall i j, 0 <= i < n -> 0 <= j < n -> symmetrized (shown m3 A) i j = product n (transposed X) X i j).
  { assert (G : forall i j, 0 <= i < n -> 0 <= j < n -> j <= i -> shown m3 A i j = product n (transposed X) X i j).
    { intros i j Hi Hj L. rewrite (updated_shown _ _ _ _ _ _ _ W3) by (unfold in_range, lower_positions; fold n; rewrite <- ?S; fold n; lia).
      apply Sum_ext. intros k Hk. unfold transposed. now rewrite !X2 by assumption. }
    intros i j Hi Hj. unfold symmetrized. destruct (Z.leb_spec j i); [now apply G|].
    rewrite G by (try assumption; lia). apply Sum_ext. intros k Hk. unfold transposed. apply (F_R Fth). }
  intros i j Hi Hj.
  rewrite <- (inverse_of_square zero one add mul sub opp div inv Fth T n LT DT i j Hi Hj).
  apply product_ext.
  - intros k Hk. symmetry. now apply F1.
  - intros k Hk. now apply P3.
Qed.
End Views.
