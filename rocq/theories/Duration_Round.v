(** Proofs about std::chrono::round in double arithmetic. *)
From Flocq Require Import Core Sterbenz.
From Coq Require Import Reals Lra.
From Verif Require Import Base Bytes Duration_Model.
Local Open Scope Z_scope.

Notation F64 := (generic_format radix2 binary64).
#[local] Instance prec64 : Prec_gt_0 53. Proof. reflexivity. Qed.

Lemma rnd_le x y : (x <= y)%R -> (rnd x <= rnd y)%R.
Proof. apply round_le; typeclasses eauto. Qed.
Lemma rnd_exact x : F64 x -> rnd x = x.
Proof. apply round_generic; typeclasses eauto. Qed.
Lemma rnd_format x : F64 (rnd x).
Proof. apply generic_format_round; typeclasses eauto. Qed.

Lemma F64_scaled m e : (Z.abs m < 2 ^ 53)%Z -> (-1074 <= e)%Z -> F64 (IZR m * bpow radix2 e).
Proof. intros M E. apply generic_format_FLT. exists (Float radix2 m e); auto. Qed.

Lemma F64_int n : (Z.abs n <= 2 ^ 53)%Z -> F64 (IZR n).
Proof.
  intros H. destruct (Z.eq_dec (Z.abs n) (2 ^ 53)) as [E|E].
  - replace (IZR n) with (IZR (Z.sgn n) * bpow radix2 53)%R.
    + apply F64_scaled; lia.
    + replace (bpow radix2 53) with (IZR (2 ^ 53)) by reflexivity. rewrite <- mult_IZR. f_equal. lia.
  - replace (IZR n) with (IZR n * bpow radix2 0)%R by (cbn; lra). apply F64_scaled; lia.
Qed.

Lemma F64_opp x : F64 x -> F64 (- x).
Proof. apply generic_format_opp. Qed.

Lemma F64_plus x y : F64 x -> F64 y -> (Rabs (x + y) <= Rabs x)%R -> (Rabs (x + y) <= Rabs y)%R -> F64 (x + y).
Proof. intros. apply generic_format_plus_weak; try typeclasses eauto; auto. now apply Rmin_glb. Qed.

(** The central fact: chrono_round rounds the double D (the number of common
    ticks) correctly, half to even. *)
Lemma chrono_round_correct num den lo hi v :
  let D := rnd (v * IZR num) in
  0 < den -> (Rabs D + IZR den <= IZR (2 ^ 53))%R ->
  (IZR lo <= D / IZR den - 1)%R -> (D / IZR den + 1 <= IZR hi)%R ->
  chrono_round num den lo hi v = Ok (ZnearestE (D / IZR den)).
Proof.
  intros D Hd HB Hlo Hhi. unfold chrono_round. cbv zeta. fold D.
  assert (FD : F64 D) by apply rnd_format. clearbody D. clear v num.
  assert (Pd : (1 <= IZR den)%R) by (apply (IZR_le 1); lia).
  set (q := (D / IZR den)%R) in *.
  assert (Dq : D = (q * IZR den)%R) by (unfold q; field; lra).
  set (f := Zfloor q).
  assert (Hf : (IZR f <= q < IZR f + 1)%R) by (split; [apply Zfloor_lb|apply Zfloor_ub]).
  (* bounds on f *)
  assert (Bf1 : (Rabs (IZR f * IZR den) <= IZR (2 ^ 53))%R).
  { revert HB. unfold Rabs. repeat destruct Rcase_abs; nra. }
  assert (Bf2 : (Rabs (IZR (f + 1) * IZR den) <= IZR (2 ^ 53))%R).
  { rewrite plus_IZR. revert HB. unfold Rabs. repeat destruct Rcase_abs; nra. }
  rewrite <- mult_IZR, <- abs_IZR in Bf1, Bf2. apply le_IZR in Bf1, Bf2. rewrite Z.abs_mul in Bf1, Bf2.
  assert (Af : Z.abs f <= 2 ^ 53) by nia. assert (Af1 : Z.abs (f + 1) <= 2 ^ 53) by nia.
  assert (T : forall k, Z.abs k <= 2 ^ 53 -> Z.abs k * Z.abs den <= 2 ^ 53 -> rnd (rnd (IZR k) * IZR den) = (IZR k * IZR den)%R).
  { intros k K1 K2. rewrite (rnd_exact (IZR k)) by now apply F64_int. rewrite <- mult_IZR. apply rnd_exact, F64_int.
    rewrite Z.abs_mul. exact K2. }
  (* duration_cast gives f or f + 1 *)
  set (c := rnd q).
  assert (C1 : (IZR f <= c)%R) by (unfold c; rewrite <- (rnd_exact (IZR f)) by (now apply F64_int); apply rnd_le; lra).
  assert (C2 : (c <= IZR (f + 1))%R).
  { unfold c. rewrite <- (rnd_exact (IZR (f + 1))) by (now apply F64_int). apply rnd_le. rewrite plus_IZR. lra. }
  assert (Tr : Ztrunc c = f \/ Ztrunc c = f + 1).
  { rewrite plus_IZR in C2. destruct (Rle_lt_dec 0 c) as [P|P].
    - rewrite Ztrunc_floor by exact P. destruct (Rlt_le_dec c (IZR f + 1)) as [L|L].
      + left. apply Zfloor_imp. rewrite plus_IZR. lra.
      + right. replace c with (IZR (f + 1)) by (rewrite plus_IZR; lra). apply Zfloor_IZR.
    - rewrite Ztrunc_ceil by lra. destruct (Req_EM_T c (IZR f)) as [->|N].
      + left. apply Zceil_IZR.
      + right. apply Zceil_imp. replace (f + 1 - 1) with f by lia. rewrite plus_IZR. lra. }
  assert (Lf : lo <= f) by (apply le_IZR; lra).
  assert (Lf0 : lo <= f - 1 \/ lo <= f) by now right.
  assert (Hf1 : f + 1 <= hi) by (apply le_IZR; rewrite plus_IZR; lra).
  assert (Rp : forall k, lo <= k <= hi -> represent lo hi k = Ok k).
  { intros k [K1 K2]. unfold represent. now rewrite (proj2 (Z.leb_le _ _) K1), (proj2 (Z.leb_le _ _) K2). }
  assert (Step : bind (represent lo hi (Ztrunc c)) (fun to =>
      if Rlt_dec D (rnd (rnd (IZR to) * IZR den)) then represent lo hi (to - 1) else Ok to) = Ok f).
  { rewrite Rp by (destruct Tr as [-> | ->]; lia). cbn [bind]. destruct Tr as [-> | ->].
    - rewrite T by (auto; lia). destruct (Rlt_dec D _) as [L|L]; [exfalso|reflexivity]. rewrite Dq in L. nra.
    - rewrite T by (auto; lia). destruct (Rlt_dec D _) as [L|L].
      + rewrite Rp by lia. f_equal. lia.
      + exfalso. apply L. rewrite Dq, plus_IZR. nra. }
  destruct (represent lo hi (Ztrunc c)) as [to| | |]; cbn [bind] in Step |- *; try discriminate Step.
  rewrite Step. cbn [bind]. rewrite Rp by lia. cbn [bind]. rewrite !T by (auto; lia).
  (* the two differences *)
  set (a := (D - IZR f * IZR den)%R). set (b := (IZR (f + 1) * IZR den - D)%R).
  assert (Ha : (0 <= a < IZR den)%R) by (unfold a; rewrite Dq; nra).
  assert (Hab : (a + b = IZR den)%R) by (unfold a, b; rewrite plus_IZR; lra).
  assert (Ffd : F64 (IZR f * IZR den)) by (rewrite <- mult_IZR; apply F64_int; now rewrite Z.abs_mul).
  assert (Ffd1 : F64 (IZR (f + 1) * IZR den)) by (rewrite <- mult_IZR; apply F64_int; now rewrite Z.abs_mul).
  assert (Ex : rnd a = a \/ rnd b = b).
  { destruct (Rle_lt_dec 0 D) as [P|P].
    - left. apply rnd_exact.
      assert (F0 : 0 <= f).
      { apply Zfloor_lub. rewrite Dq in P. assert (0 <= q)%R by nra. exact H. }
      destruct (Z.eq_dec f 0) as [Z0|Z0].
      { unfold a. rewrite Z0. replace (D - 0 * IZR den)%R with D by lra. exact FD. }
      unfold a, Rminus. assert (G : (1 <= IZR f)%R) by (apply (IZR_le 1); lia).
      apply F64_plus; auto using F64_opp.
      + rewrite !Rabs_pos_eq; unfold a in Ha; nra.
      + rewrite Rabs_Ropp, !Rabs_pos_eq; unfold a in Ha; nra.
    - right. apply rnd_exact.
      assert (F0 : f + 1 <= 0).
      { assert (f < 0); [|lia]. apply lt_IZR. apply Rle_lt_trans with q; [lra|]. rewrite Dq in P. nra. }
      destruct (Z.eq_dec (f + 1) 0) as [Z0|Z0].
      { unfold b. rewrite Z0. replace (0 * IZR den - D)%R with (- D)%R by lra. now apply F64_opp. }
      assert (G : (IZR (f + 1) <= -1)%R) by (apply (IZR_le _ (-1)); lia).
      assert (Bb : (0 < b <= IZR den)%R) by lra.
      unfold b, Rminus in *. apply F64_plus; auto using F64_opp.
      + rewrite (Rabs_pos_eq (_ + _)) by lra. rewrite Rabs_left1 by nra. nra.
      + rewrite (Rabs_pos_eq (_ + _)) by lra. rewrite Rabs_Ropp, Rabs_left1 by lra. nra. }
  assert (Hh : rnd (IZR den / 2) = (IZR den / 2)%R).
  { apply rnd_exact. replace (IZR den / 2)%R with (IZR den * bpow radix2 (-1))%R by (cbn; lra).
    assert (den <= 2 ^ 53) by (apply le_IZR; pose proof (Rabs_pos D); lra).
    destruct (Z.eq_dec den (2 ^ 53)) as [E|E].
    - rewrite E. change (IZR (2 ^ 53)) with (bpow radix2 53). rewrite <- bpow_plus.
      replace (bpow radix2 (53 + -1)) with (IZR 1 * bpow radix2 (53 + -1))%R by lra. apply F64_scaled; lia.
    - apply F64_scaled; lia. }
  assert (qf : (q - IZR f = a / IZR den)%R) by (unfold a; rewrite Dq; field; lra).
  assert (Zn : ZnearestE q = match Rcompare (q - IZR f) (/ 2) with Lt => f | Eq => if negb (Z.even f) then Zceil q else f | Gt => Zceil q end) by reflexivity.
  assert (Hc : (0 < a)%R -> Zceil q = f + 1).
  { intros P. apply Zceil_imp. replace (f + 1 - 1) with f by lia. rewrite plus_IZR.
    assert (0 < a / IZR den)%R by (apply Rdiv_lt_0_compat; lra). lra. }
  rewrite Zn. clear Zn.
  destruct (Rtotal_order a (IZR den / 2)) as [L|[E|G]].
  - assert (R1 : (rnd a <= IZR den / 2)%R) by (rewrite <- Hh; apply rnd_le; lra).
    assert (R2 : (IZR den / 2 <= rnd b)%R) by (rewrite <- Hh; apply rnd_le; lra).
    assert (S : (rnd a < rnd b)%R) by (destruct Ex as [-> | ->]; lra).
    destruct (Req_EM_T (rnd a) (rnd b)); [lra|]. destruct (Rlt_dec (rnd a) (rnd b)); [|lra].
    rewrite Rcompare_Lt; [reflexivity|]. rewrite qf. apply Rmult_lt_reg_r with (IZR den); [lra|]. unfold Rdiv. rewrite Rmult_assoc, Rinv_l by lra. lra.
  - assert (Eb : b = a) by lra. rewrite Eb. destruct (Req_EM_T (rnd a) (rnd a)); [|congruence].
    rewrite Rcompare_Eq by (rewrite qf, E; field; lra). rewrite Hc by lra.
    rewrite <- Z.negb_even. reflexivity.
  - assert (R1 : (IZR den / 2 <= rnd a)%R) by (rewrite <- Hh; apply rnd_le; lra).
    assert (R2 : (rnd b <= IZR den / 2)%R) by (rewrite <- Hh; apply rnd_le; lra).
    assert (S : (rnd b < rnd a)%R) by (destruct Ex as [-> | ->]; lra).
    destruct (Req_EM_T (rnd a) (rnd b)); [lra|]. destruct (Rlt_dec (rnd a) (rnd b)); [lra|].
    rewrite Rcompare_Gt; [now rewrite Hc by lra|]. rewrite qf. apply Rmult_lt_reg_r with (IZR den); [lra|]. unfold Rdiv. rewrite (Rmult_assoc a), Rinv_l by lra. lra.
Qed.
