(** C83: Timed with integral durations: when is the measurement exact, and undefined? CPU time on both platforms. *)
From Verif Require Import Base TimersRange_Model.
Local Open Scope Z_scope.

(** Values of an integral type of w bits. *)
Definition fits (w z : Z) : Prop := - 2 ^ (w - 1) <= z < 2 ^ (w - 1).

Lemma in_range_iff w z : in_range w z = true <-> fits w z.
Proof. unfold in_range, fits. rewrite andb_true_iff, Z.leb_le, Z.ltb_lt. tauto. Qed.
Lemma in_range_false w z : ~ fits w z -> in_range w z = false.
Proof. intros H. apply not_true_is_false. rewrite in_range_iff. exact H. Qed.
Lemma half w : 1 <= w -> 2 ^ w = 2 * 2 ^ (w - 1).
Proof. intros H. rewrite <- Z.pow_succ_r by lia. f_equal. lia. Qed.
Lemma wrap_id w z : 1 <= w -> fits w z -> wrap w z = z.
Proof. intros W [A B]. unfold wrap. rewrite Z.mod_small; [lia|]. rewrite (half w W). lia. Qed.
Lemma wrap_fits w z : 1 <= w -> fits w (wrap w z).
Proof.
  intros W. unfold wrap, fits. pose proof (Z.pow_pos_nonneg 2 (w - 1) ltac:(lia) ltac:(lia)).
  pose proof (Z.mod_pos_bound (z + 2 ^ (w - 1)) (2 ^ w) ltac:(rewrite half by lia; lia)) as B. rewrite (half w W) in *. lia.
Qed.
Lemma wrap_mod w z : 1 <= w -> wrap w z mod 2 ^ w = z mod 2 ^ w.
Proof.
  intros W. unfold wrap. pose proof (Z.pow_pos_nonneg 2 w ltac:(lia) ltac:(lia)).
  rewrite Zminus_mod_idemp_l. f_equal. lia.
Qed.
Lemma wrap_eq w a b : 1 <= w -> a mod 2 ^ w = b mod 2 ^ w -> wrap w a = wrap w b.
Proof. intros W H. unfold wrap. f_equal. rewrite (Zplus_mod a), (Zplus_mod b), H. reflexivity. Qed.

(** C83, 64 bits: the measurement is defined exactly if the clock readings fit after the conversion and neither
    the intermediate value (time minus uptime) nor the result overflows, and then it is exact. *)
Theorem C83_int64_exact :
  forall k time t0 t1, fits 64 time ->
    (forall r, measure 64 k time t0 t1 = Ok r <->
       fits 64 (k * t0) /\ fits 64 (k * t1) /\ fits 64 (time - k * t0) /\ r = time + k * (t1 - t0) /\ fits 64 r) /\
    (measure 64 k time t0 t1 = UB <->
       ~ (fits 64 (k * t0) /\ fits 64 (k * t1) /\ fits 64 (time - k * t0) /\ fits 64 (time + k * (t1 - t0)))).
Proof.
  intros k time t0 t1 Ft. unfold measure, timed_start, timed_end, conv, arith. change (64 <? 32) with false. cbv iota.
  assert (D : forall z, {fits 64 z} + {~ fits 64 z}).
  { intros z. destruct (in_range 64 z) eqn:E; [left; now apply in_range_iff|right]. rewrite <- in_range_iff. congruence. }
  assert (R : time - k * t0 + k * t1 = time + k * (t1 - t0)) by ring.
  destruct (D (k * t0)) as [A|A]; [rewrite (proj2 (in_range_iff _ _) A)|rewrite (in_range_false _ _ A); cbn [bind]; split; [intros r; split; [discriminate|tauto]|tauto]].
  cbn [bind]. rewrite wrap_id by (auto; lia).
  destruct (D (time - k * t0)) as [B|B]; [rewrite (proj2 (in_range_iff _ _) B)|rewrite (in_range_false _ _ B); cbn [bind]; split; [intros r; split; [discriminate|tauto]|tauto]].
  cbn [bind].
  destruct (D (k * t1)) as [C|C]; [rewrite (proj2 (in_range_iff _ _) C)|rewrite (in_range_false _ _ C); cbn [bind]; split; [intros r; split; [discriminate|tauto]|tauto]].
  cbn [bind]. rewrite wrap_id by (auto; lia). rewrite R.
  destruct (D (time + k * (t1 - t0))) as [E|E]; [rewrite (proj2 (in_range_iff _ _) E)|rewrite (in_range_false _ _ E)].
  - split; [intros r; split|split; [discriminate|tauto]].
    + intros [= <-]. auto.
    + intros (_ & _ & _ & -> & _). reflexivity.
  - split; [intros r; split|tauto].
    + discriminate.
    + intros (_ & _ & _ & -> & H). tauto.
Qed.
Print Assumptions C83_int64_exact.

(** Nanoseconds: no condition on the uptime. *)
Theorem C83_nanoseconds_always :
  forall time t0 t1, 0 <= time -> 0 <= t0 <= t1 -> fits 64 t1 -> fits 64 (time + (t1 - t0)) ->
    measure 64 1 time t0 t1 = Ok (time + (t1 - t0)).
Proof.
  intros time t0 t1 Ht H0 H1 Hr. unfold fits in *. change (2 ^ (64 - 1)) with 9223372036854775808 in *.
  apply (proj1 (C83_int64_exact 1 time t0 t1 ltac:(unfold fits; change (2 ^ (64 - 1)) with 9223372036854775808; lia))).
  unfold fits. change (2 ^ (64 - 1)) with 9223372036854775808. rewrite !Z.mul_1_l. lia.
Qed.
Print Assumptions C83_nanoseconds_always.

(** Finer units: undefined behaviour whatever the elapsed time, once the uptime is too long. *)
Theorem C83_finer_units_refuted :
  forall k time t0 t1, 1 <= k -> fits 64 time -> 2 ^ 63 <= k * t0 -> measure 64 k time t0 t1 = UB.
Proof.
  intros k time t0 t1 Hk Ft H. apply (C83_int64_exact k time t0 t1 Ft). intros (A & _). unfold fits in A.
  change (64 - 1) with 63 in A. lia.
Qed.
Print Assumptions C83_finer_units_refuted.

(** Smaller types (nanoseconds in w < 64 bits; the elapsed time and the result fit although the uptime does not).
    Below 32 bits the result is exact. *)
Theorem C83_small_types :
  forall w k time t0 t1, 1 <= w < 32 -> fits 64 (k * t0) -> fits 64 (k * t1) -> fits w time -> fits w (time + k * (t1 - t0)) ->
    measure w k time t0 t1 = Ok (time + k * (t1 - t0)).
Proof.
  intros w k time t0 t1 W A B Ft Fr. unfold measure, timed_start, timed_end, conv, arith.
  rewrite (proj2 (in_range_iff _ _) A), (proj2 (in_range_iff _ _) B). replace (w <? 32) with true by lia. cbn [bind].
  f_equal. rewrite <- (wrap_id w (time + k * (t1 - t0))) by (auto; lia). apply wrap_eq; [lia|].
  rewrite Zplus_mod, wrap_mod by lia. rewrite <- Zplus_mod. rewrite Zplus_mod, wrap_mod, Zminus_mod, wrap_mod, <- Zminus_mod by lia.
  rewrite Zplus_mod_idemp_r, Zplus_mod_idemp_l. f_equal. ring.
Qed.
Print Assumptions C83_small_types.

(** 32 to 63 bits: exact if and only if the two intermediate sums happen not to overflow; otherwise undefined. *)
Theorem C83_int32_exact :
  forall w k time t0 t1, 32 <= w < 64 -> fits 64 (k * t0) -> fits 64 (k * t1) -> fits w time -> fits w (time + k * (t1 - t0)) ->
    (fits w (time - wrap w (k * t0)) /\ fits w (time - wrap w (k * t0) + wrap w (k * t1)) ->
       measure w k time t0 t1 = Ok (time + k * (t1 - t0))) /\
    (~ (fits w (time - wrap w (k * t0)) /\ fits w (time - wrap w (k * t0) + wrap w (k * t1))) -> measure w k time t0 t1 = UB).
Proof.
  intros w k time t0 t1 W A B Ft Fr. unfold measure, timed_start, timed_end, conv, arith.
  rewrite (proj2 (in_range_iff _ _) A), (proj2 (in_range_iff _ _) B). replace (w <? 32) with false by lia. cbn [bind].
  split.
  - intros [C D]. rewrite (proj2 (in_range_iff _ _) C). cbn [bind]. rewrite (proj2 (in_range_iff _ _) D). f_equal.
    rewrite <- (wrap_id w _ ltac:(lia) D), <- (wrap_id w _ ltac:(lia) Fr). apply wrap_eq; [lia|].
    rewrite Zplus_mod, (wrap_mod w (k * t1)), Zminus_mod, wrap_mod, <- Zminus_mod by lia.
    rewrite Zplus_mod_idemp_r, Zplus_mod_idemp_l. f_equal. ring.
  - intros H. destruct (in_range w (time - wrap w (k * t0))) eqn:E1; [|reflexivity]. cbn [bind].
    destruct (in_range w (time - wrap w (k * t0) + wrap w (k * t1))) eqn:E2; [|reflexivity].
    exfalso. apply H. split; now apply in_range_iff.
Qed.
Print Assumptions C83_int32_exact.

(** duration<int, std::nano>: for every elapsed time in (0, 2^31 - 1) there is an uptime for which a timer on a zero
    duration is undefined. *)
Theorem C83_int32_refuted :
  forall elapsed days, 0 < elapsed < 2 ^ 31 - 1 -> 0 <= days < 2 ^ 30 ->
    exists t0, 2 ^ 32 * days <= t0 < 2 ^ 32 * (days + 1) /\ fits 32 (0 + 1 * elapsed) /\ measure 32 1 0 t0 (t0 + elapsed) = UB.
Proof.
  intros e d He Hd. exists (2 ^ 32 * d + 2 ^ 31). change (2 ^ 31) with 2147483648 in *. change (2 ^ 32) with 4294967296. change (2 ^ 30) with 1073741824 in *.
  assert (F : fits 32 (0 + 1 * e)) by (unfold fits; change (2 ^ (32 - 1)) with 2147483648; lia).
  split; [lia|]. split; [exact F|].
  set (t0 := 4294967296 * d + 2147483648).
  assert (W0 : wrap 32 (1 * t0) = -2147483648).
  { unfold wrap, t0. change (2 ^ (32 - 1)) with 2147483648. change (2 ^ 32) with 4294967296.
    replace (1 * (4294967296 * d + 2147483648) + 2147483648) with (0 + (d + 1) * 4294967296) by ring. rewrite Z_mod_plus_full. reflexivity. }
  apply (C83_int32_exact 32 1 0 t0 (t0 + e)); try lia.
  - unfold fits, t0. change (2 ^ (64 - 1)) with 9223372036854775808. lia.
  - unfold fits, t0. change (2 ^ (64 - 1)) with 9223372036854775808. lia.
  - unfold fits. change (2 ^ (32 - 1)) with 2147483648. lia.
  - replace (0 + 1 * (t0 + e - t0)) with (0 + 1 * e) by ring. exact F.
  - rewrite W0. intros [H _]. unfold fits in H. change (2 ^ (32 - 1)) with 2147483648 in H. lia.
Qed.
Print Assumptions C83_int32_refuted.

(** CPU time, POSIX: the nanoseconds the process has used between the two calls, for 292 years of CPU time. *)
Theorem C83_cpu_posix :
  forall total s0 n0 s1 n1, 0 <= s0 -> 0 <= n0 < 1000000000 -> 0 <= s1 -> 0 <= n1 < 1000000000 ->
    let ns0 := s0 * 1000000000 + n0 in let ns1 := s1 * 1000000000 + n1 in
    ns0 <= ns1 < 2 ^ 63 -> 0 <= total -> total + (ns1 - ns0) < 2 ^ 63 ->
    exists c0 c1, cpu_posix s0 n0 = Ok c0 /\ cpu_posix s1 n1 = Ok c1 /\ add_cpu total c0 c1 = Ok (total + (ns1 - ns0)).
Proof.
  intros total s0 n0 s1 n1 Hs0 Hn0 Hs1 Hn1 ns0 ns1 H Ht Hr. change (2 ^ 63) with 9223372036854775808 in *.
  assert (X : forall z, 0 <= z < 9223372036854775808 -> in_range 64 z = true).
  { intros z Hz. apply in_range_iff. unfold fits. change (2 ^ (64 - 1)) with 9223372036854775808. lia. }
  exists ns0, ns1. subst ns0 ns1. unfold cpu_posix, add_cpu. rewrite !X by lia. auto.
Qed.
Print Assumptions C83_cpu_posix.

(** Windows: the words of a FILETIME are put together correctly, but its unit is 100 ns, and only the user time is
    taken: for u0, u1 in units of 100 ns, a hundredth of the user time is added, whatever the kernel time. *)
Theorem C83_cpu_windows_refuted :
  forall total u0 u1 (kernel0 kernel1 : Z), 0 <= u0 <= u1 -> u1 < 2 ^ 63 -> 0 <= total -> total + (u1 - u0) < 2 ^ 63 ->
    let c u := cpu_windows (u / 2 ^ 32) (u mod 2 ^ 32) in
    c u0 = u0 /\ c u1 = u1 /\ add_cpu total (c u0) (c u1) = Ok (total + (u1 - u0)) /\
    (* the nanoseconds used by the process *)
    (kernel0 <= kernel1 -> u0 < u1 \/ kernel0 < kernel1 -> u1 - u0 < 100 * ((u1 - u0) + (kernel1 - kernel0))).
Proof.
  intros total u0 u1 k0 k1 H0 H1 Ht Hr c.
  assert (X : forall u, 0 <= u < 2 ^ 63 -> c u = u).
  { intros u Hu. unfold c, cpu_windows. assert (E : Z.lor (Z.shiftl (u / 2 ^ 32) 32) (u mod 2 ^ 32) = u).
    { rewrite <- Z.land_ones, <- Z.shiftr_div_pow2 by lia. apply Z.bits_inj'. intros n Hn.
      rewrite Z.lor_spec, Z.shiftl_spec, Z.land_spec by lia. destruct (Z.lt_ge_cases n 32) as [L|L].
      - rewrite (Z.testbit_neg_r _ (n - 32)) by lia. rewrite Z.ones_spec_low by lia. now rewrite andb_true_r.
      - rewrite Z.shiftr_spec, Z.ones_spec_high by lia. rewrite andb_false_r, orb_false_r. f_equal. lia. }
    rewrite E. apply wrap_id; [lia|]. unfold fits. change (64 - 1) with 63. lia. }
  rewrite !X by lia. split; [reflexivity|]. split; [reflexivity|]. split; [|lia].
  unfold add_cpu. rewrite !(proj2 (in_range_iff 64 _)); [reflexivity|unfold fits; change (64 - 1) with 63; lia..].
Qed.
Print Assumptions C83_cpu_windows_refuted.

(** Uptime 10 days: nanoseconds and int16 durations are fine, femtoseconds are undefined. *)
Example C83_nonvacuous :
  let up := 864000000000000 in
  measure 64 1 7 up (up + 500) = Ok 507 /\ measure 16 1 7 up (up + 500) = Ok 507 /\ measure 64 1000 7 up (up + 500) = Ok 500007 /\
  measure 64 1000000 7 up (up + 500) = UB /\ measure 32 1 0 (2 ^ 31) (2 ^ 31 + 5) = UB /\ measure 32 1 0 (2 ^ 30) (2 ^ 30 + 5) = Ok 5 /\
  add_cpu 0 (cpu_windows 1 2) (cpu_windows 1 10000002) = Ok 10000000.
Proof. vm_compute. repeat split. Qed.

(** The CPU time is computed exactly when every intermediate result can be represented. *)
Theorem C83_cpu_exact : forall sec nsec total start end_,
  (forall r, cpu_posix sec nsec = Ok r <-> fits 64 (sec * 1000000000) /\ fits 64 (sec * 1000000000 + nsec) /\ r = sec * 1000000000 + nsec) /\
  (cpu_posix sec nsec = UB <-> ~ (fits 64 (sec * 1000000000) /\ fits 64 (sec * 1000000000 + nsec))) /\
  (forall r, add_cpu total start end_ = Ok r <-> fits 64 (end_ - start) /\ fits 64 (total + (end_ - start)) /\ r = total + (end_ - start)) /\
  (add_cpu total start end_ = UB <-> ~ (fits 64 (end_ - start) /\ fits 64 (total + (end_ - start)))).
Proof.
  intros sec nsec total start end_.
  assert (G : forall a b : Z, (forall r, (if in_range 64 a && in_range 64 b then Ok b else UB) = Ok r <-> fits 64 a /\ fits 64 b /\ r = b) /\
     ((if in_range 64 a && in_range 64 b then Ok b else UB) = UB <-> ~ (fits 64 a /\ fits 64 b))).
  { intros a b. pose proof (in_range_iff 64 a) as A. pose proof (in_range_iff 64 b) as B.
    destruct (in_range 64 a), (in_range 64 b); cbn [andb]; split; try (intros r); intuition congruence. }
  destruct (G (sec * 1000000000) (sec * 1000000000 + nsec)) as [A B]. destruct (G (end_ - start) (total + (end_ - start))) as [C D]. auto.
Qed.
Print Assumptions C83_cpu_exact.
Example C83_cpu_exact_nonvacuous : cpu_posix 9223372036 854775807 = Ok 9223372036854775807 /\ cpu_posix 9223372036 854775808 = UB.
Proof. split; reflexivity. Qed.
