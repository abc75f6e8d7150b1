(** xpotrf_batch_strided: every matrix is factorized on its own. *)
From Verif Require Import Base MatView_Model HlBlas_Model HlBlas_Spec HlBlas_Proofs Lapack_Model Lapack_Spec
  Lapack_Proofs BatchBlas_Model BatchBlas_Spec BatchBlas_Proofs.
Local Open Scope outcome_scope.
Local Open Scope Z_scope.
Local Arguments Z.eqb : simpl never.
Local Arguments Z.leb : simpl never.
Local Arguments Z.ltb : simpl never.
Local Arguments Z.mul : simpl never.

Section Potrf.
Context {V : Type} (zero : V) (add mul sub div : V -> V -> V) (positive : V -> bool) (sqrt : V -> V).
Local Notation mem := (@MatView_Model.mem V).
Context (junk : mem -> Z -> Z -> V).
Local Notation chol := (cholesky zero add mul sub div positive sqrt).

Definition lower_batch (N A lda stride : Z) : batch := Batch ColMajor A lda stride N N (in_triangle Lower_ NonUnit).

Lemma cholesky_info A n : 0 <= snd (chol A n).
Proof.
  induction n as [|n IH]; [cbn; lia|]. cbn [cholesky]. destruct (chol A n) as [R i]. cbn [snd] in IH.
  destruct (i =? 0); [|exact IH]. destruct (positive _); cbn; lia.
Qed.

Lemma potrf_loop_ok N A lda sa order : forall (m : mem) acc,
  let b := lower_batch N A lda sa in
  fits ColMajor N N lda ->
  (forall i r c, In i order -> accessed b r c -> m (cell b i r c) <> None) ->
  (forall i j r c r' c', In i order -> In j order -> i <> j -> accessed b r c -> accessed b r' c' ->
     cell b i r c <> cell b j r' c') ->
  NoDup order ->
  exists m', xpotrf_loop zero add mul sub div positive sqrt junk N A lda sa order acc m = Ok (m', acc) /\
    (forall i R, In i order -> chol (matrix_of zero m b i) (Z.to_nat N) = (R, 0) ->
       forall r c, accessed b r c -> m' (cell b i r c) = Some (entry zero R r c)) /\
    (forall a, (forall i r c, In i order -> accessed b r c -> a <> cell b i r c) -> m' a = m a).
Proof.
  induction order as [|i order IH]; intros m acc b F AL X ND.
  - exists m. split; [reflexivity|]. split; [intros i R []|reflexivity].
  - inversion ND as [|? ? NI ND']; subst. cbn [xpotrf_loop].
    set (o := operand_of b (triangle Lower_ NonUnit) i).
    assert (S : selects (triangle Lower_ NonUnit) (b_part b)) by apply (selects_triangle Lower_ NonUnit).
    assert (Lo : legal o = true) by (apply fits_legal; exact F).
    assert (Po : present m o = true).
    { apply present_iff. intros a T. apply (touches_iff b _ i a S) in T as (r & c & Hc & ->).
      apply AL; simpl; auto. }
    unfold potrf. change (Operand ColMajor (A + i * sa) lda N N (triangle Lower_ NonUnit)) with o.
    rewrite (proj2 (Z.ltb_ge N 0)) by apply F. rewrite Lo, Po.
    destruct (chol (value zero m o) (Z.to_nat N)) as [R info] eqn:E.
    assert (0 <= info) as HI by (pose proof (cholesky_info (value zero m o) (Z.to_nat N)) as G; rewrite E in G; exact G).
    cbn [bind]. assert ((if 0 <? info then 0 else info) = 0) as -> by (destruct (Z.ltb_spec 0 info); lia).
    rewrite Z.add_0_r. set (g := if info =? 0 then entry zero R else junk m). set (m1 := write o g m).
    assert (M1 : forall a, (forall r c, accessed b r c -> a <> cell b i r c) -> m1 a = m a).
    { intros a Ha. apply write_untouched. intros T. apply (touches_iff b _ i a S) in T as (r & c & Hc & Ea).
      now apply (Ha r c). }
    assert (M1' : forall j r c, In j order -> accessed b r c -> m1 (cell b j r c) = m (cell b j r c)).
    { intros j r c Hj Hc. apply M1. intros r' c' Hc' Ea. apply (X j i r c r' c'); simpl; auto.
      intros ->. contradiction. }
    destruct (IH m1 acc F) as (m' & E' & U & FR).
    + intros j r c Hj Hc. fold b in Hc |- *. rewrite M1' by assumption. apply AL; simpl; auto.
    + intros j k r c r' c' Hj Hk. apply X; simpl; auto.
    + exact ND'.
    + exists m'. split; [exact E'|]. split.
      * intros j R' [<-|Hj] EC r c Hc.
        -- assert (chol (value zero m o) (Z.to_nat N) = chol (matrix_of zero m b i) (Z.to_nat N)) as E2
             by (apply cholesky_ext; intros; apply value_of).
           rewrite E, EC in E2. injection E2 as -> ->.
           rewrite FR.
           ++ unfold m1. rewrite <- (cell_address b (triangle Lower_ NonUnit) i). fold o.
              rewrite write_at; [reflexivity|exact Lo|]. now apply (accessed_cells b _ i r c S).
           ++ intros j r' c' Hj Hc'. apply X; simpl; auto. intros ->. contradiction.
        -- apply U; [exact Hj| |exact Hc]. rewrite <- EC. apply cholesky_ext. intros r' c' Hr' Hc'.
           unfold matrix_of. fold b. rewrite M1'; [reflexivity|exact Hj|].
           unfold accessed, b. cbn. unfold in_triangle. intuition lia.
      * intros a Ha. rewrite FR by (intros j r c Hj Hc; apply Ha; simpl; auto).
        apply M1. intros r c Hc. apply Ha; simpl; auto.
Qed.
End Potrf.
