(** Decimal integers: what is printed and what is read. *)
From Verif Require Import Base Bytes Csv_Spec Csv_Model Csv_Proofs Csv_Numbers Print_Spec Print_Model.
Local Open Scope Z_scope.

Lemma digits_rev_ok fuel : forall n, 0 <= n < 2 ^ Z.of_nat fuel -> (1 <= fuel)%nat ->
  digits_rev fuel n <> [] /\ Forall (fun c => 48 <= c <= 57) (digits_rev fuel n) /\
  decimal (rev (digits_rev fuel n)) = n /\ (forall k, (1 <= k)%nat -> n < 10 ^ Z.of_nat k -> (length (digits_rev fuel n) <= k)%nat) /\
  (hd 48 (rev (digits_rev fuel n)) = 48 -> digits_rev fuel n = [48]).
Proof.
  induction fuel as [|fuel IH]; intros n Hn Hf; [lia|]. cbn [digits_rev]. destruct (Z.ltb_spec n 10) as [L|L].
  - split; [discriminate|]. split; [constructor; [lia|constructor]|]. split; [unfold decimal; cbn [rev app fold_left]; lia|]. split; [intros k Hk _; cbn [length]; lia|].
    cbn [rev app hd]. intros H. now rewrite H.
  - assert (Hd : 0 <= n / 10 < 2 ^ Z.of_nat fuel).
    { split; [apply Z.div_pos; lia|]. apply Z.div_lt_upper_bound; [lia|]. replace (Z.of_nat (S fuel)) with (Z.succ (Z.of_nat fuel)) in Hn by lia.
      rewrite Z.pow_succ_r in Hn by lia. lia. }
    assert (Hf2 : (1 <= fuel)%nat). { destruct fuel; [|lia]. cbn in Hn. lia. }
    destruct (IH (n / 10) Hd Hf2) as (I1 & I2 & I3 & I4 & I5). pose proof (Z.mod_pos_bound n 10 ltac:(lia)) as Hm.
    split; [discriminate|]. split; [constructor; [lia|exact I2]|]. cbn [rev]. split; [|split].
    + rewrite decimal_app, I3. pose proof (Z.div_mod n 10 ltac:(lia)). lia.
    + intros k Hk H. destruct k as [|k]; [lia|]. cbn [length]. assert (Hk1 : (1 <= k)%nat) by (destruct k; [cbn in H; lia|lia]).
      assert (Hk2 : n / 10 < 10 ^ Z.of_nat k).
      { apply Z.div_lt_upper_bound; [lia|]. replace (Z.of_nat (S k)) with (Z.succ (Z.of_nat k)) in H by lia. rewrite Z.pow_succ_r in H by lia. exact H. }
      specialize (I4 k Hk1 Hk2). lia.
    + intros H. exfalso. destruct (rev (digits_rev fuel (n / 10))) as [|c t] eqn:Er.
      * apply I1. rewrite <- (rev_involutive (digits_rev fuel (n / 10))), Er. reflexivity.
      * cbn [app hd] in H. subst c. cbn [hd] in I5. specialize (I5 eq_refl). rewrite I5 in Er. cbn in Er. injection Er as <-. unfold decimal in I3. cbn [rev app fold_left] in I3.
        assert (n / 10 < 1) by lia. assert (n < 10). { apply Z.nle_gt. intros K. apply (Z.div_le_lower_bound n 10 1) in K; lia. } lia.
Qed.
Lemma log2_fuel n : 0 <= n -> n < 2 ^ Z.of_nat (S (Z.to_nat (Z.log2 n))).
Proof.
  intros H. replace (Z.of_nat (S (Z.to_nat (Z.log2 n)))) with (Z.succ (Z.log2 n)) by (pose proof (Z.log2_nonneg n); lia).
  destruct (Z.eq_dec n 0) as [->|N]; [reflexivity|]. apply Z.log2_spec. lia.
Qed.
Lemma show_nat_ok n : 0 <= n ->
  show_nat n <> [] /\ Forall (fun c => 48 <= c <= 57) (show_nat n) /\ decimal (show_nat n) = n /\
  (forall k, (1 <= k)%nat -> n < 10 ^ Z.of_nat k -> (length (show_nat n) <= k)%nat) /\ (hd 48 (show_nat n) = 48 -> show_nat n = [48]).
Proof.
  intros H. pose proof (log2_fuel n H) as L. unfold show_nat. destruct (digits_rev_ok (S (Z.to_nat (Z.log2 n))) n ltac:(lia) ltac:(lia)) as (I1 & I2 & I3 & I4 & I5).
  split; [|split; [now apply Forall_rev|split; [exact I3|split]]].
  - intros E. apply I1. rewrite <- (rev_involutive (digits_rev _ n)), E. reflexivity.
  - intros k. rewrite rev_length. apply I4.
  - intros E. rewrite (I5 E). reflexivity.
Qed.
Lemma show_int_decimal n : is_decimal n (show_int n).
Proof.
  unfold is_decimal, show_int. destruct (Z.ltb_spec n 0) as [L|L].
  - destruct (show_nat_ok (- n) ltac:(lia)) as (I1 & I2 & I3 & _ & I5). exists (show_nat (- n)). split; [reflexivity|]. split; [auto|]. split; [auto|]. split; [|auto].
    replace (Z.abs n) with (- n) by lia. exact I3.
  - destruct (show_nat_ok n L) as (I1 & I2 & I3 & _ & I5). exists (show_nat n). split; [reflexivity|]. split; [auto|]. split; [auto|]. split; [|auto].
    replace (Z.abs n) with n by lia. exact I3.
Qed.
Lemma leading_digits_of d : Forall (fun c => 48 <= c <= 57) d -> leading_digits d = d.
Proof. induction 1 as [|c d H Hd IH]; cbn; auto. unfold digit. rewrite (proj2 (Z.leb_le 48 c)), (proj2 (Z.leb_le c 57)) by lia. cbn. now rewrite IH. Qed.
Lemma show_int_value lo hi n : lo <= n <= hi -> value_of (integer lo hi) (show_int n) = Some n.
Proof.
  intros Hn. unfold show_int, value_of. destruct (Z.ltb_spec n 0) as [L|L].
  - destruct (show_nat_ok (- n) ltac:(lia)) as (I1 & I2 & I3 & _ & _). remember (show_nat (- n)) as d eqn:Ed0.
    unfold strip_plus. change (45 =? plus) with false. cbv iota. unfold integer. rewrite (proj2 (Z.ltb_lt lo 0)) by lia. change (45 =? 45) with true. cbn [andb]. cbv beta iota zeta. rewrite (leading_digits_of d I2). destruct d as [|c d]; [congruence|]. rewrite I3.
    rewrite (proj2 (Z.leb_le lo (- - n))), (proj2 (Z.leb_le (- - n) hi)) by lia. cbn [andb length].
    replace (S (S (length d)) - S (length d) + S (length d))%nat with (S (S (length d))) by lia. rewrite Nat.eqb_refl. f_equal. lia.
  - destruct (show_nat_ok n L) as (I1 & I2 & I3 & _ & _). remember (show_nat n) as d eqn:Ed0. destruct d as [|c d]; [congruence|].
    pose proof (Forall_inv I2) as Hc. cbn beta in Hc. unfold strip_plus. replace (c =? plus) with false by (symmetry; apply Z.eqb_neq; unfold plus; lia).
    unfold integer. replace (c =? 45) with false by (symmetry; apply Z.eqb_neq; lia). cbn [andb]. cbv beta iota zeta.
    rewrite (leading_digits_of (c :: d) I2). rewrite I3. rewrite (proj2 (Z.leb_le lo n)), (proj2 (Z.leb_le n hi)) by lia. cbn [andb].
    rewrite Nat.sub_diag. cbn [Nat.add]. now rewrite Nat.eqb_refl.
Qed.
Lemma show_int_chars n c : In c (show_int n) -> c = 45 \/ 48 <= c <= 57.
Proof.
  unfold show_int. destruct (Z.ltb_spec n 0) as [L|L].
  - destruct (show_nat_ok (- n) ltac:(lia)) as (_ & I2 & _). rewrite Forall_forall in I2. intros [H|H]; [left; auto|right; now apply I2].
  - destruct (show_nat_ok n L) as (_ & I2 & _). rewrite Forall_forall in I2. intros H. right. now apply I2.
Qed.
Lemma show_int_nonempty n : show_int n <> [].
Proof. unfold show_int. destruct (Z.ltb_spec n 0); [discriminate|]. now apply show_nat_ok. Qed.
Lemma show_int_length n : - 10 ^ 60 < n < 10 ^ 60 -> (length (show_int n) < 64)%nat.
Proof.
  intros H. unfold show_int. destruct (Z.ltb_spec n 0) as [L|L]; cbn [length].
  - destruct (show_nat_ok (- n) ltac:(lia)) as (_ & _ & _ & I4 & _). specialize (I4 60%nat ltac:(lia)). change (Z.of_nat 60) with 60 in I4. specialize (I4 ltac:(lia)). lia.
  - destruct (show_nat_ok n L) as (_ & _ & _ & I4 & _). specialize (I4 60%nat ltac:(lia)). change (Z.of_nat 60) with 60 in I4. specialize (I4 ltac:(lia)). lia.
Qed.
