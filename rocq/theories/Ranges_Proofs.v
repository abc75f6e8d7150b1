From Verif Require Import Base Ranges_Model.
Local Arguments Nat.eqb : simpl never.

Lemma eloop_ok {A} (rng : list A) : forall rest pre fuel,
  rng = pre ++ rest -> length rest < fuel ->
  eloop rng fuel (EIt (length pre) (length pre)) =
    Ok (Some (combine (seq (length pre) (length rest)) rest)).
Proof.
  induction rest as [|x rest IH]; intros pre fuel Hr Hf; (destruct fuel as [|fuel]; [simpl in *; lia|]);
    cbn [eloop]; unfold enot_end, eend; simpl epos.
  - replace (length rng) with (length pre) by (rewrite Hr, app_nil_r; reflexivity).
    rewrite Nat.eqb_refl. reflexivity.
  - replace (length rng =? length pre) with false
      by (symmetry; apply Nat.eqb_neq; rewrite Hr, app_length; simpl; lia).
    simpl negb. cbn iota. unfold ederef; simpl epos; simpl eindex.
    replace (nth_error rng (length pre)) with (Some x)
      by (rewrite Hr, nth_error_app2, Nat.sub_diag by lia; reflexivity).
    cbn [bind]. unfold einc; simpl.
    specialize (IH (pre ++ [x]) fuel). rewrite app_length, Nat.add_1_r in IH.
    rewrite IH.
    + reflexivity.
    + rewrite Hr, <- app_assoc. reflexivity.
    + simpl in Hf; lia.
Qed.

Lemma enumerate_ok {A} (rng : list A) fuel : length rng < fuel ->
  enumerate rng fuel = Ok (Some (combine (seq 0 (length rng)) rng)).
Proof. intros H. exact (eloop_ok rng rng [] fuel eq_refl H). Qed.

Lemma adapter_ok {St} (next : St -> St) ok n : forall s fuel,
  (forall k, k < n -> ok (Nat.iter k next s) = true) ->
  ok (Nat.iter n next s) = false -> n <= fuel ->
  adapter_loop next ok fuel s = Some (map (fun k => Nat.iter k next s) (seq 0 n)).
Proof.
  induction n as [|n IH]; intros s fuel Ht Hf Hle.
  - destruct fuel; simpl in *; now rewrite Hf.
  - destruct fuel as [|fuel]; [lia|]. cbn [adapter_loop].
    pose proof (Ht 0 ltac:(lia)) as H0; simpl in H0; rewrite H0.
    assert (Hn : forall k, Nat.iter k next (next s) = Nat.iter (S k) next s).
    { intros k. induction k as [|k IHk]; [reflexivity|]. simpl in *. now rewrite IHk. }
    rewrite (IH (next s)); [|intros k Hk; rewrite Hn; apply Ht; lia|now rewrite Hn|lia].
    cbn [option_map seq map]. f_equal. simpl. f_equal.
    rewrite <- seq_shift, map_map. apply map_ext. exact Hn.
Qed.

Lemma adapter_diverge {St} (next : St -> St) ok n : forall s,
  (forall k, k < n -> ok (Nat.iter k next s) = true) ->
  adapter_prefix next ok n s = map (fun k => Nat.iter k next s) (seq 0 n).
Proof.
  induction n as [|n IH]; intros s Ht; [reflexivity|]. cbn [adapter_prefix].
  pose proof (Ht 0 ltac:(lia)) as H0; simpl in H0; rewrite H0. cbn [seq map]. simpl. f_equal.
  assert (Hn : forall k, Nat.iter k next (next s) = Nat.iter (S k) next s).
  { intros k. induction k as [|k IHk]; [reflexivity|]. simpl in *. now rewrite IHk. }
  rewrite IH by (intros k Hk; rewrite Hn; apply Ht; lia).
  rewrite <- seq_shift, map_map. apply map_ext. exact Hn.
Qed.
