(** %g writes the nearest decimal. *)
From Flocq Require Import Core.
From Coq Require Import Reals Lra.
From Verif Require Import Base Bytes Duration_Model Duration_Spec Csv_Numbers Print_Model Print_Ints FloatIO_Model FloatIO_Spec FloatIO_Proofs FloatStr_Spec PrintfG_Model.
From Verif Require FloatStr_Props.
Local Open Scope Z_scope.
Local Arguments Z.eqb : simpl never.

Lemma value_app a : forall b, value (a ++ b) = value a * 10 ^ Z.of_nat (length b) + value b.
Proof.
  induction a as [|c a IH]; intros b; cbn [app value]; [lia|]. rewrite IH, app_length, Nat2Z.inj_add, Z.pow_add_r by lia. ring.
Qed.
Lemma value_zeros k : value (repeat 48 k) = 0.
Proof. induction k as [|k IH]; cbn [repeat value]; [reflexivity|]. rewrite IH. lia. Qed.
Lemma strip_ok l : exists k, l = strip l ++ repeat 48 k.
Proof.
  induction l as [|c l (k & E)]; [now exists 0%nat|]. cbn [strip]. destruct (strip l) as [|d l'] eqn:Sl.
  - destruct (Z.eqb_spec c 48) as [->|N].
    + exists (S k). cbn [app] in *. now rewrite E.
    + exists k. cbn [app] in *. now rewrite E at 1.
  - exists k. rewrite E at 1. reflexivity.
Qed.
Lemma strip_digits l : Forall Duration_Spec.digit l -> Forall Duration_Spec.digit (strip l).
Proof. intros H. destruct (strip_ok l) as (k & E). rewrite E in H. now apply Forall_app in H. Qed.
Lemma strip_last l : strip l <> [] -> exists a c, strip l = a ++ [c] /\ c <> 48.
Proof.
  induction l as [|c l IH]; cbn [strip]; [congruence|]. destruct (strip l) as [|d l'] eqn:Sl.
  - destruct (Z.eqb_spec c 48); [congruence|]. intros _. now exists [], c.
  - intros _. destruct IH as (a & z & E & N); [discriminate|]. exists (c :: a), z. rewrite E. now split.
Qed.

Lemma pow_shift m k e : (IZR (m * 10 ^ Z.of_nat k) * powerRZ 10 (e - Z.of_nat k) = IZR m * powerRZ 10 e)%R.
Proof.
  rewrite mult_IZR. replace (IZR (10 ^ Z.of_nat k)) with (powerRZ 10 (Z.of_nat k)).
  - rewrite Rmult_assoc, <- powerRZ_add by lra. do 2 f_equal. lia.
  - change 10%R with (IZR radix10). rewrite <- bpow_powerRZ. now rewrite bpow10_Z by lia.
Qed.

(** What may follow the digits: nothing or an exponent. *)
Definition ending (tail : list Z) (e : Z) : Prop := (tail = [] /\ e = 0) \/ tail = exponent_text e.
Lemma ending_no_digit tail e : ending tail e -> ~ starts_with Duration_Spec.digit tail.
Proof.
  intros [[-> _]| ->]; [intros (c & r & E & _); discriminate E|]. apply no_digit_first. unfold Duration_Spec.digit; lia.
Qed.
Lemma ending_no_point tail e : ending tail e -> ~ starts_with (eq 46) tail.
Proof. intros [[-> _]| ->]; intros (c & r & E & <-); [discriminate E|]. unfold exponent_text in E. discriminate E. Qed.
Lemma ending_exponent tail e : ending tail e -> Duration_Spec.exponent tail e [] \/ (e = 0 /\ [] = tail /\ ~ exists e' r, Duration_Spec.exponent tail e' r).
Proof.
  intros [[-> ->]| ->]; [right|left; apply exponent_text_ok]. split; [auto|]. split; [auto|]. intros (e' & r & X). inversion X.
Qed.
Lemma with_fraction ip fp tail e : Forall Duration_Spec.digit ip -> ip <> [] -> Forall Duration_Spec.digit fp -> ending tail e ->
  unsigned_at (ip ++ 46 :: fp ++ tail) (value (ip ++ fp)) (e - Z.of_nat (length fp)) [].
Proof.
  intros Fi Ni Ff E. apply (Unsigned ip fp _ tail e []).
  - split; [exact Fi|]. apply no_digit_first. unfold Duration_Spec.digit; lia.
  - right. split; [reflexivity|]. split; [exact Ff|]. now apply (ending_no_digit _ e).
  - destruct ip; [congruence|discriminate].
  - now apply ending_exponent.
Qed.
Lemma without_fraction ip tail e : Forall Duration_Spec.digit ip -> ip <> [] -> ending tail e -> unsigned_at (ip ++ tail) (value ip) e [].
Proof.
  intros Fi Ni E. replace e with (e - Z.of_nat (length (@nil Z))) by (cbn [length]; lia). rewrite <- (app_nil_r ip) at 2.
  apply (Unsigned ip [] tail tail e []).
  - split; [exact Fi|]. now apply (ending_no_digit _ e).
  - left. split; [auto|]. split; [auto|]. now apply (ending_no_point _ e).
  - rewrite app_nil_r. exact Ni.
  - now apply ending_exponent.
Qed.
Lemma fraction_at alt ip fp tail e : Forall Duration_Spec.digit ip -> ip <> [] -> Forall Duration_Spec.digit fp -> ending tail e ->
  exists m' e', unsigned_at (ip ++ fraction alt fp ++ tail) m' e' [] /\
    (IZR m' * powerRZ 10 e' = IZR (value (ip ++ fp)) * powerRZ 10 (e - Z.of_nat (length fp)))%R.
Proof.
  intros Fi Ni Ff E. unfold fraction. destruct alt.
  { exists (value (ip ++ fp)), (e - Z.of_nat (length fp)). split; [now apply with_fraction|reflexivity]. }
  destruct (strip_ok fp) as (k & Sk). pose proof (strip_digits fp Ff) as Fs.
  assert (V : value (ip ++ fp) = value (ip ++ strip fp) * 10 ^ Z.of_nat k).
  { rewrite Sk at 1. rewrite app_assoc, (value_app (ip ++ strip fp)), repeat_length, value_zeros. lia. }
  assert (L : Z.of_nat (length fp) = Z.of_nat (length (strip fp)) + Z.of_nat k).
  { rewrite Sk at 1. rewrite app_length, repeat_length. lia. }
  exists (value (ip ++ strip fp)), (e - Z.of_nat (length (strip fp))). split.
  - destruct (strip fp) as [|c s].
    + rewrite app_nil_r. cbn [app length]. replace (e - Z.of_nat 0) with e by lia. now apply without_fraction.
    + cbn [app]. change (46 :: c :: s ++ tail) with (46 :: (c :: s) ++ tail). now apply with_fraction.
  - rewrite V, L. replace (e - (Z.of_nat (length (strip fp)) + Z.of_nat k)) with (e - Z.of_nat (length (strip fp)) - Z.of_nat k) by lia.
    now rewrite pow_shift.
Qed.

Lemma digit48 : Duration_Spec.digit 48. Proof. unfold Duration_Spec.digit. lia. Qed.

(** The text of %g stands for the nearest decimal with P digits. *)
Lemma general_at alt P x : (1 <= P)%nat -> (0 <= x)%R ->
  exists m e, unsigned_at (general alt P x) m e [] /\ (IZR m * powerRZ 10 e = decimal_round (P - 1) x)%R.
Proof.
  intros HP Hx. unfold general. set (d := decimal_round (P - 1) x). set (X := sci_exponent d).
  destruct (sci_split (P - 1) x d eq_refl Hx) as (E1 & E2 & _). fold X in E1. set (n := sci_digits (P - 1) d) in *.
  replace (Z.of_nat (P - 1) + 1) with (Z.of_nat P) in E2 by lia.
  pose proof (fixed_length P n) as L. pose proof (fixed_digits P n) as FD. pose proof (fixed_value P n E2) as FV.
  set (ds := fixed P n) in *. clearbody ds.
  destruct ((X <? -4) || (Z.of_nat P <=? X)) eqn:Es.
  - destruct ds as [|c more]; [cbn in L; lia|]. pose proof (Forall_inv FD) as F1. pose proof (Forall_inv_tail FD) as F2.
    destruct (fraction_at alt [c] more (exponent_text X) X) as (m & e & A & B); auto; [discriminate|now right|].
    exists m, e. split; [exact A|]. rewrite B. change ([c] ++ more) with (c :: more). rewrite FV, E1. cbn [length] in L.
    do 2 f_equal. lia.
  - apply orb_false_iff in Es as [Ea Eb]. apply Z.ltb_ge in Ea. apply Z.leb_gt in Eb. destruct (Z.leb_spec 0 X) as [H0|H0].
    + set (k := (Z.to_nat X + 1)%nat). assert (Hk : (1 <= k <= P)%nat) by lia.
      assert (FS := FD). rewrite <- (firstn_skipn k ds) in FS. apply Forall_app in FS as [FS1 FS2].
      destruct (fraction_at alt (firstn k ds) (skipn k ds) [] 0) as (m & e & A & B).
      * exact FS1.
      * intros Q. apply (f_equal (@length Z)) in Q. rewrite firstn_length in Q. cbn in Q. lia.
      * exact FS2.
      * left; auto.
      * exists m, e. rewrite app_nil_r in A. split; [exact A|]. rewrite B, firstn_skipn, FV, E1, skipn_length, L. do 2 f_equal. lia.
    + set (k := Z.to_nat (- X - 1)).
      destruct (fraction_at alt [48] (repeat 48 k ++ ds) [] 0) as (m & e & A & B).
      * constructor; [apply digit48|constructor].
      * discriminate.
      * apply Forall_app. split; [apply Forall_forall; intros c Hc; apply repeat_spec in Hc as ->; apply digit48|exact FD].
      * left; auto.
      * exists m, e. rewrite app_nil_r in A. split; [exact A|]. rewrite B. change [48] with (repeat 48 1).
        rewrite app_assoc, <- repeat_app, value_app, value_zeros, FV, E1, app_length, repeat_length, L. rewrite Z.mul_0_l, Z.add_0_l. do 2 f_equal. lia.
Qed.

(** Its length. *)
Lemma fraction_alt_length l : length (fraction true l) = S (length l).
Proof. reflexivity. Qed.
Lemma general_alt_length P x : (1 <= P)%nat -> let X := sci_exponent (decimal_round (P - 1) x) in
  length (general true P x) = (P + 1 + (if ((X <? -4) || (Z.of_nat P <=? X))%Z then length (exponent_text X) else if (0 <=? X)%Z then 0 else Z.to_nat (- X)))%nat.
Proof.
  intros HP X. unfold general. fold X. set (ds := fixed P _). assert (L : length ds = P) by apply fixed_length.
  destruct ((X <? -4) || (Z.of_nat P <=? X)) eqn:Es.
  - destruct ds as [|c more]; [cbn in L; lia|]. cbn [length] in *. rewrite app_length, fraction_alt_length. lia.
  - apply orb_false_iff in Es as [Ea Eb]. apply Z.ltb_ge in Ea. apply Z.leb_gt in Eb. destruct (Z.leb_spec 0 X) as [H0|H0].
    + rewrite app_length, fraction_alt_length, firstn_length, skipn_length, L. lia.
    + cbn [length]. rewrite fraction_alt_length, app_length, repeat_length, L. lia.
Qed.
