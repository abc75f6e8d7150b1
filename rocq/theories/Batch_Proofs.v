From Verif Require Import Base Batch_Model Batch_Spec.
Local Open Scope Z_scope.
Local Arguments Nat.eqb : simpl never.
Local Arguments Z.mul : simpl never.
Local Arguments Z.add : simpl never.

Lemma fold_perm {A S} (f : A -> S -> S) l l' :
  Permutation l l' -> (forall x y s, In x l -> In y l -> x <> y -> f x (f y s) = f y (f x s)) -> NoDup l ->
  forall s, fold_left (fun s x => f x s) l s = fold_left (fun s x => f x s) l' s.
Proof.
  induction 1 as [|x l l' P IH|x y l|l l' l'' P IH P' IH']; intros C N s; cbn [fold_left].
  - reflexivity.
  - apply IH; [intros; apply C; auto; now right|now inversion N].
  - inversion N as [|? ? Nx N']; subst. rewrite (C x y) by (cbn; auto; intros ->; apply Nx; now left). reflexivity.
  - rewrite IH by auto. apply IH'.
    + intros x y s' Hx Hy. apply C; apply (Permutation_in _ (Permutation_sym P)); assumption.
    + eapply Permutation_NoDup; eauto.
Qed.

Lemma indices_nodup n : NoDup (indices n).
Proof. unfold indices. apply FinFun.Injective_map_NoDup; [|apply seq_NoDup]. intros x y. lia. Qed.

Lemma gemv_any_order {S} (gemv : Z * Z * Z -> S -> S) sa sx sy a x y n order s :
  Permutation order (indices n) ->
  (forall i j s, In i (indices n) -> In j (indices n) -> i <> j ->
     gemv (a + i * sa, x + i * sx, y + i * sy) (gemv (a + j * sa, x + j * sx, y + j * sy) s) =
     gemv (a + j * sa, x + j * sx, y + j * sy) (gemv (a + i * sa, x + i * sx, y + i * sy) s)) ->
  xgemv_batch gemv sa sx sy a x y order s =
  fold_left (fun s i => gemv (a + i * sa, x + i * sx, y + i * sy) s) (indices n) s.
Proof.
  intros P C. unfold xgemv_batch, xgemv_iter.
  apply (fold_perm (fun i s => gemv (a + i * sa, x + i * sx, y + i * sy) s) order (indices n) P).
  - intros i j s' Hi Hj. apply C; apply (Permutation_in _ P); assumption.
  - eapply Permutation_NoDup; [apply Permutation_sym; eauto|apply indices_nodup].
Qed.

Lemma gemv_calls sa sx sy a x y order :
  xgemv_batch (fun c (log : list _) => log ++ [c]) sa sx sy a x y order [] =
  map (fun i => (a + i * sa, x + i * sx, y + i * sy)) order.
Proof.
  unfold xgemv_batch, xgemv_iter.
  enough (H : forall l log, fold_left (fun s i => s ++ [(a + i * sa, x + i * sx, y + i * sy)]) l log =
     log ++ map (fun i => (a + i * sa, x + i * sx, y + i * sy)) l) by (now rewrite H).
  induction l as [|i l IH]; intros log; cbn [fold_left map]; [now rewrite app_nil_r|].
  now rewrite IH, <- app_assoc.
Qed.

(** ** xpotrf *)
Definition Zsum (l : list Z) := fold_right Z.add 0 l.
Definition clip (x : Z) := if 0 <? x then 0 else x.

Lemma fold_sum l (p : nat -> Z) z : fold_left (fun acc t => acc + p t) l z = z + Zsum (map p l).
Proof. revert z; induction l as [|t l IH]; intros z; cbn [fold_left map]; [cbn; lia|]. rewrite IH. unfold Zsum; cbn [fold_right]. lia. Qed.

Lemma sum_upd (p : nat -> Z) t v l : NoDup l -> In t l ->
  Zsum (map (fun u => if Nat.eqb u t then p u + v else p u) l) = Zsum (map p l) + v.
Proof.
  unfold Zsum. induction l as [|u l IH]; intros N H; [contradiction|]. cbn [map fold_right]. inversion N as [|? ? Nu N']; subst.
  destruct H as [->|H].
  - rewrite Nat.eqb_refl. enough (E : map (fun u => if Nat.eqb u t then p u + v else p u) l = map p l) by (rewrite E; lia).
    apply map_ext_in. intros w Hw. destruct (Nat.eqb_spec w t) as [->|]; [contradiction|reflexivity].
  - rewrite IH by auto. destruct (Nat.eqb_spec u t) as [->|]; [contradiction|]. lia.
Qed.

Lemma potrf_loop_sum {S} (potrf : Z -> S -> S * Z) stridea A order threads partial s partial' s' :
  NoDup threads -> (forall i t, In (i, t) order -> In t threads) ->
  xpotrf_loop potrf stridea A order partial s = (partial', s') ->
  Zsum (map partial' threads) = Zsum (map partial threads) + Zsum (map clip (infos potrf stridea A (map fst order) s)).
Proof.
  intros N. revert partial s. induction order as [|[i t] order IH]; intros partial s Ht H; cbn [xpotrf_loop] in H.
  - injection H as <- _. cbn. lia.
  - unfold xpotrf_iter in H. cbn [map fst infos]. destruct (potrf (A + i * stridea) s) as [s1 info].
    apply IH in H; [|intros; eapply Ht; right; eauto]. rewrite H.
    rewrite (sum_upd partial t (if 0 <? info then 0 else info) threads N) by (eapply Ht; left; eauto).
    change (if 0 <? info then 0 else info) with (clip info).
    unfold Zsum; cbn [map fold_right]. lia.
Qed.

Lemma clip_le x : clip x <= 0.
Proof. unfold clip. destruct (Z.ltb_spec 0 x); lia. Qed.
Lemma clip_sum_zero l : Zsum (map clip l) = 0 <-> forall x, In x l -> 0 <= x.
Proof.
  assert (L : forall l, Zsum (map clip l) <= 0).
  { unfold Zsum. induction l0 as [|x l0 IH]; cbn [map fold_right]; [lia|]. pose proof (clip_le x). lia. }
  unfold Zsum in *. induction l as [|x l IH]; cbn [map fold_right].
  - split; [intros _ y []|reflexivity].
  - pose proof (L l) as Ll. pose proof (clip_le x) as Lx. split.
    + intros H y [->|Hy]; [|apply IH; [lia|exact Hy]]. unfold clip in *. destruct (Z.ltb_spec 0 y); lia.
    + intros H. assert (H0 : clip x = 0) by (unfold clip; specialize (H x (or_introl eq_refl)); destruct (Z.ltb_spec 0 x); lia).
      rewrite H0, (proj2 IH); [reflexivity|]. intros y Hy. apply H. now right.
Qed.

Lemma potrf_loop_state {S} (potrf : Z -> S -> S * Z) stridea A order partial s :
  snd (xpotrf_loop potrf stridea A order partial s) =
  fold_left (fun s i => fst (potrf (A + i * stridea) s)) (map fst order) s.
Proof.
  revert partial s. induction order as [|[i t] order IH]; intros partial s; cbn [xpotrf_loop map fst fold_left]; [reflexivity|].
  unfold xpotrf_iter. destruct (potrf (A + i * stridea) s) as [s1 info]. now rewrite IH.
Qed.

Lemma sum_zero (l : list nat) : Zsum (map (fun _ => 0) l) = 0.
Proof. unfold Zsum. induction l as [|t l IH]; [reflexivity|]. cbn [map fold_right]. rewrite IH. lia. Qed.

Lemma potrf_main {S} (potrf : Z -> S -> S * Z) stridea A order threads s :
  NoDup threads -> (forall i t, In (i, t) order -> In t threads) ->
  let '(s', res) := xpotrf_batch potrf stridea A order threads s in
  s' = fold_left (fun s i => fst (potrf (A + i * stridea) s)) (map fst order) s /\
  (res = Ok tt <-> forall x, In x (infos potrf stridea A (map fst order) s) -> 0 <= x) /\
  (res = Throw lapack_error <-> exists x, In x (infos potrf stridea A (map fst order) s) /\ x < 0).
Proof.
  intros N Ht. unfold xpotrf_batch.
  pose proof (potrf_loop_state potrf stridea A order (fun _ => 0) s) as Hs.
  destruct (xpotrf_loop potrf stridea A order (fun _ => 0) s) as [partial s'] eqn:E. cbn [snd] in Hs.
  split; [exact Hs|].
  pose proof (potrf_loop_sum _ _ _ _ threads _ _ _ _ N Ht E) as Sum. rewrite fold_sum, Sum, sum_zero.
  set (l := infos potrf stridea A (map fst order) s) in *.
  pose proof (clip_sum_zero l) as CZ.
  destruct (Z.eqb_spec (0 + (0 + Zsum (map clip l))) 0) as [H|H]; split; split; try discriminate; try reflexivity.
  - intros _. apply CZ. lia.
  - intros (x & Hx & Lx). exfalso. assert (G : 0 <= x) by (apply CZ; [lia|exact Hx]). lia.
  - intros G. apply CZ in G. lia.
  - intros _. destruct (Exists_dec (fun x => x < 0) l) as [Ex|Nx].
    + intros x. destruct (Z_lt_dec x 0); [left|right]; assumption.
    + apply Exists_exists in Ex. exact Ex.
    + exfalso. apply H. enough (Zsum (map clip l) = 0) by lia. apply CZ. intros x Hx.
      destruct (Z_lt_dec x 0); [|lia]. exfalso. apply Nx. apply Exists_exists. eauto.
Qed.

(** No intermediate sum is out of range: infos are at least -b (LAPACK reports
    minus the position of the bad argument). *)
Lemma potrf_no_overflow l b : (forall x, In x l -> - b <= x) -> 0 <= b -> - (b * Z.of_nat (length l)) <= Zsum (map clip l) <= 0.
Proof.
  unfold Zsum. induction l as [|x l IH]; intros H Hb; cbn [map fold_right length]; [lia|].
  assert (G : forall y, In y l -> - b <= y) by (intros; apply H; now right). specialize (IH G Hb).
  specialize (H x (or_introl eq_refl)). unfold clip at 1 3. destruct (Z.ltb_spec 0 x); lia.
Qed.

(** ** Shared pointers, one thread *)
Lemma nth_map_seq (f : nat -> Z) n j : (j < n)%nat -> nth j (map f (seq 0 n)) 0 = f j.
Proof.
  intros H. rewrite (nth_indep (map f (seq 0 n)) 0 (f 0%nat)) by (rewrite map_length, seq_length; lia).
  rewrite map_nth, seq_nth by lia. reflexivity.
Qed.
Lemma incs (strides : list Z) k n : forall base (cs : list (list Z)), length base = length strides -> (k < length strides)%nat ->
  run strides (repeat 0%nat (length strides - k)) (Mach base cs [(S n, S k)]) =
  Mach (map (fun j => nth j base 0 + if Nat.leb k j then nth j strides 0 else 0) (seq 0 (length strides))) cs [(n, 0%nat)].
Proof.
  intros base cs L. remember (length strides - k)%nat as m eqn:Em. revert k base L Em.
  induction m as [|m IH]; intros k base L Em Lk; [lia|].
  cbn [repeat run fold_left]. unfold step at 2; cbn [threads nth_error ptrs calls].
  destruct (Nat.eqb_spec (S k) (length strides)) as [E|N].
  - assert (m = 0)%nat by lia. subst m. cbn [repeat fold_left upd]. f_equal.
    apply nth_ext with (d := 0) (d' := 0); [now rewrite upd_length, map_length, seq_length|].
    intros j Hj. rewrite upd_length in Hj. rewrite nth_map_seq by lia.
    destruct (Nat.eq_dec j k) as [->|Nj].
    + rewrite (nth_error_nth (upd base k (nth k base 0 + nth k strides 0)) k 0 (upd_same _ _ _ Hj)).
      now rewrite Nat.leb_refl.
    + destruct (Nat.leb_spec k j); [lia|]. rewrite Z.add_0_r.
      destruct (nth_error base j) as [x|] eqn:Ex; [|apply nth_error_None in Ex; lia].
      rewrite (nth_error_nth base j 0 Ex). apply nth_error_nth. rewrite upd_other; auto.
  - cbn [upd]. change (fold_left (fun m t => step strides t m) (repeat 0%nat m)) with (run strides (repeat 0%nat m)).
    rewrite IH; [|now rewrite upd_length|lia|lia]. f_equal.
    apply map_ext_in. intros j Hj. apply in_seq in Hj.
    destruct (Nat.eq_dec j k) as [->|Nj].
    + assert (Hk : (k < length base)%nat) by lia. rewrite (nth_error_nth (upd base k (nth k base 0 + nth k strides 0)) k 0 (upd_same _ _ _ Hk)).
      rewrite Nat.leb_refl. destruct (Nat.leb_spec (S k) k); lia.
    + destruct (nth_error base j) as [x|] eqn:Ex; [|apply nth_error_None in Ex; lia].
      rewrite (nth_error_nth base j 0 Ex). assert (Ex' : nth_error (upd base k (nth k base 0 + nth k strides 0)) j = Some x) by (rewrite upd_other; auto). rewrite (nth_error_nth _ j 0 Ex').
      destruct (Nat.leb_spec k j), (Nat.leb_spec (S k) j); lia.
Qed.

Definition advance (base strides : list Z) (i : nat) : list Z :=
  map (fun j => nth j base 0 + Z.of_nat i * nth j strides 0) (seq 0 (length strides)).

Lemma advance_length base strides i : length (advance base strides i) = length strides.
Proof. unfold advance. now rewrite map_length, seq_length. Qed.
Lemma nth_advance base strides i j : (j < length strides)%nat -> nth j (advance base strides i) 0 = nth j base 0 + Z.of_nat i * nth j strides 0.
Proof.
  intros H. unfold advance. now rewrite nth_map_seq.
Qed.

Lemma run_app strides a b m : run strides (a ++ b) m = run strides b (run strides a m).
Proof. unfold run. apply fold_left_app. Qed.
Lemma run_cons strides t b m : run strides (t :: b) m = run strides b (step strides t m).
Proof. reflexivity. Qed.

Lemma seq_run strides base : length base = length strides -> (0 < length strides)%nat ->
  forall n k, run strides (repeat 0%nat (n * S (length strides))) (Mach (advance base strides k) (map (advance base strides) (seq 0 k)) [(n, 0%nat)]) =
  Mach (advance base strides (k + n)) (map (advance base strides) (seq 0 (k + n))) [(0%nat, 0%nat)].
Proof.
  intros L P. induction n as [|n IH]; intros k.
  - cbn [Nat.mul repeat run fold_left]. now rewrite Nat.add_0_r.
  - cbn [Nat.mul]. rewrite repeat_app, run_app. cbn [repeat]. rewrite run_cons.
    unfold step; cbn [threads nth_error ptrs calls upd].
    pose proof (incs strides 0 n (advance base strides k) (map (advance base strides) (seq 0 k) ++ [advance base strides k])) as Hi.
    rewrite Nat.sub_0_r in Hi. rewrite Hi; [|now rewrite advance_length|exact P].
    replace (map (fun j => nth j (advance base strides k) 0 + (if Nat.leb 0 j then nth j strides 0 else 0)) (seq 0 (length strides))) with (advance base strides (S k)).
    2:{ unfold advance at 1. apply map_ext_in. intros j Hj. apply in_seq in Hj. rewrite nth_advance by lia. cbn [Nat.leb]. lia. }
    replace (map (advance base strides) (seq 0 k) ++ [advance base strides k]) with (map (advance base strides) (seq 0 (S k))).
    2:{ now rewrite seq_S, map_app. }
    rewrite IH. now rewrite <- !Nat.add_succ_comm.
Qed.

Lemma seq_all strides base n : length base = length strides -> (0 < length strides)%nat ->
  let m := run strides (repeat 0%nat (n * S (length strides))) (start base [n]) in
  finished m /\ calls m = map (fun i => map (fun j => nth j base 0 + Z.of_nat i * nth j strides 0) (seq 0 (length strides))) (seq 0 n).
Proof.
  intros L P. cbn zeta. unfold start; cbn [map].
  assert (E : base = advance base strides 0).
  { apply nth_ext with (d := 0) (d' := 0); [now rewrite advance_length|]. rewrite L. intros j Hj. rewrite nth_advance by exact Hj. lia. }
  pose proof (seq_run strides base L P n 0) as R. cbn [seq map Nat.add] in R. rewrite <- E in R. rewrite R.
  split; [|reflexivity].
  intros [|[|t]] x; cbn; congruence.
Qed.
