(** Proofs about data races of the trace logger. *)
From Verif Require Import Base TraceRace_Model TraceRace_Spec.
Import Trace_Model (field, FName, FInstance, FStart, FDuration, FThread, FFlops).

(** ** Positions *)
Lemma pos_in k l : In k l -> pos k l < length l /\ nth_error l (pos k l) = Some k.
Proof.
  induction l as [|a l IH]; [intros []|]. intros H. cbn [pos length]. destruct (Nat.eqb_spec a k) as [->|N]; [split; [lia|reflexivity]|].
  destruct H as [H|H]; [congruence|]. destruct (IH H). split; [lia|]. exact H1.
Qed.
Lemma pos_nth l : NoDup l -> forall i k, nth_error l i = Some k -> pos k l = i.
Proof.
  induction 1 as [|a l Ha Hl IH]; intros [|i] k H; cbn in *; try discriminate.
  - injection H as ->. now rewrite Nat.eqb_refl.
  - destruct (Nat.eqb_spec a k) as [->|N]; [|f_equal; auto]. exfalso. apply Ha. eapply nth_error_In, H.
Qed.
Lemma pos_inj l k k' : In k l -> In k' l -> pos k l = pos k' l -> k = k'.
Proof. intros H H' E. apply pos_in in H, H'. rewrite E in H. destruct H as [_ H], H' as [_ H']. congruence. Qed.
Lemma pos_middle l a b : NoDup l -> a <= b -> b <= length l ->
  exists m, firstn b l = firstn a l ++ m /\ length m = b - a /\ forall k, In k m <-> In k l /\ a <= pos k l < b.
Proof.
  intros Hn Hab Hb. exists (firstn (b - a) (skipn a l)). split; [|split].
  - rewrite <- (firstn_skipn a l) at 1. rewrite firstn_app, firstn_length, Nat.min_l by lia. f_equal. rewrite firstn_firstn. f_equal. lia.
  - rewrite firstn_length, skipn_length. lia.
  - intros k. split.
    + intros H. apply In_nth_error in H. destruct H as (i & H).
      assert (Hi : i < b - a). { assert (i < length (firstn (b - a) (skipn a l))) by (apply nth_error_Some; congruence). rewrite firstn_length in H0. lia. }
      assert (E : nth_error l (a + i) = Some k).
      { rewrite <- H. rewrite <- (firstn_skipn a l) at 1. rewrite nth_error_app2; rewrite firstn_length; [|lia]. rewrite Nat.min_l by lia. replace (a + i - a) with i by lia.
        rewrite <- (firstn_skipn (b - a) (skipn a l)) at 1. rewrite nth_error_app1; [reflexivity|]. rewrite firstn_length, skipn_length. lia. }
      rewrite (pos_nth l Hn _ _ E). split; [eapply nth_error_In, E|lia].
    + intros [Hk Hp]. destruct (pos_in k l Hk) as [_ E]. set (p := pos k l) in *.
      apply (nth_error_In _ (p - a)). rewrite <- E. rewrite <- (firstn_skipn a l) at 2. rewrite nth_error_app2; rewrite firstn_length; [|lia]. rewrite Nat.min_l by lia.
      rewrite <- (firstn_skipn (b - a) (skipn a l)) at 2. rewrite nth_error_app1; [reflexivity|]. rewrite firstn_length, skipn_length. lia.
Qed.

Lemma NoDup_app_remove_r {A} (l m : list A) : NoDup (l ++ m) -> NoDup l.
Proof. induction l as [|a l IH]; intros H; [constructor|]. inversion H as [|? ? H1 H2]; subst. constructor; [|auto]. intros K. apply H1. apply in_or_app. now left. Qed.
Lemma NoDup_app_remove_l {A} (l m : list A) : NoDup (l ++ m) -> NoDup m.
Proof. induction l as [|a l IH]; intros H; [exact H|]. inversion H; subst. auto. Qed.
Section Proofs.
Context (M cap : nat) (x : execution).
(** ** The counter *)
Lemma run_count_app l m : run_count M x (l ++ m) = fold_left (fun v k => match nth_error (ops x) k with Some o => modify M o v | None => v end) m (run_count M x l).
Proof. unfold run_count. now rewrite fold_left_app. Qed.
Lemma run_count_bound l : 0 < M -> run_count M x l < M.
Proof.
  intros HM. induction l as [|k l IH] using rev_ind; [exact HM|]. rewrite run_count_app. cbn [fold_left].
  destruct (nth_error (ops x) k) as [[]|]; cbn [modify]; auto. apply Nat.mod_upper_bound. lia.
Qed.
Lemma run_count_traces l m : 0 < M -> (forall k, In k m -> is_op x k OTrace) -> run_count M x (l ++ m) = (run_count M x l + length m) mod M.
Proof.
  intros HM. induction m as [|k m IH] using rev_ind; intros H.
  - rewrite app_nil_r. cbn [length]. rewrite Nat.add_0_r, Nat.mod_small; [reflexivity|]. now apply run_count_bound.
  - rewrite app_assoc, run_count_app. cbn [fold_left]. rewrite (H k) by (apply in_or_app; right; now left). cbn [modify].
    rewrite IH by (intros k' K; apply H; apply in_or_app; now left). rewrite app_length. cbn [length].
    rewrite Nat.add_mod_idemp_l by lia. f_equal. lia.
Qed.
Lemma run_count_reset l r : is_op x r OReset -> run_count M x (l ++ [r]) = 0.
Proof. intros H. rewrite run_count_app. cbn [fold_left]. now rewrite H. Qed.
Lemma calls_bound l : NoDup l -> (forall k, In k l -> is_op x k OTrace) -> length l <= number_of_calls x.
Proof.
  intros Hn H. unfold number_of_calls.
  assert (E : forall o, length (filter is_trace o) = length (filter (fun k => match nth_error o k with Some o' => is_trace o' | None => false end) (seq 0 (length o)))).
  { induction o as [|o os IH]; [reflexivity|]. cbn [length seq]. rewrite <- seq_shift. cbn [filter nth_error].
    assert (K : forall s, length (filter (fun k => match nth_error (o :: os) k with Some o' => is_trace o' | None => false end) (map S s))
      = length (filter (fun k => match nth_error os k with Some o' => is_trace o' | None => false end) s)).
    { induction s as [|a s IHs]; [reflexivity|]. cbn [map filter nth_error]. destruct (match nth_error os a with Some o' => is_trace o' | None => false end); cbn [length]; auto. }
    destruct (is_trace o); cbn [length]; rewrite K, <- IH; reflexivity. }
  rewrite E. apply NoDup_incl_length; [exact Hn|]. intros k K. apply filter_In. pose proof (H k K) as Hk. unfold is_op in Hk. split.
  - apply in_seq. assert (k < length (ops x)) by (apply nth_error_Some; congruence). lia.
  - now rewrite Hk.
Qed.

Context (C : consistent M cap x) (HM : 0 < M) (Hcalls : number_of_calls x <= M).
Lemma trace_not_reset k : is_op x k OTrace -> is_op x k OReset -> False.
Proof. unfold is_op. congruence. Qed.
Lemma mo_modification k : In k (mo x) -> is_op x k OTrace \/ is_op x k OReset.
Proof using C. apply (mo_all _ _ _ C). Qed.
(** A list of modifications has a last reset, or consists of calls. *)
Lemma last_reset m : (forall k, In k m -> modification x k) ->
  (forall k, In k m -> is_op x k OTrace) \/ exists a r b, m = a ++ r :: b /\ is_op x r OReset /\ forall k, In k b -> is_op x k OTrace.
Proof.
  induction m as [|k m IH] using rev_ind; intros H; [left; intros k []|].
  destruct (H k) as [Hk|Hk]; [apply in_or_app; right; now left| |].
  - destruct IH as [IH|(a & r & b & -> & Hr & Hb)]; [intros k' K; apply H; apply in_or_app; now left| |].
    + left. intros k' K. apply in_app_or in K. destruct K as [K|[<-|[]]]; auto.
    + right. exists a, r, (b ++ [k]). split; [now rewrite <- app_assoc|]. split; [exact Hr|]. intros k' K. apply in_app_or in K. destruct K as [K|[<-|[]]]; auto.
  - right. exists m, k, []. split; [reflexivity|]. split; [exact Hk|]. intros k' [].
Qed.
(** Two calls with the same index: a reset in between. *)
Lemma reset_between c c' : is_op x c OTrace -> is_op x c' OTrace -> pos c (mo x) < pos c' (mo x) -> index M x c = index M x c' ->
  exists r, is_op x r OReset /\ pos c (mo x) < pos r (mo x) < pos c' (mo x).
Proof using C HM Hcalls.
  intros Hc Hc' Hp E. assert (Ic : In c (mo x)) by (apply (mo_all _ _ _ C); now left). assert (Ic' : In c' (mo x)) by (apply (mo_all _ _ _ C); now left).
  destruct (pos_in c' _ Ic') as [Lc' Nc']. destruct (pos_middle (mo x) (pos c (mo x)) (pos c' (mo x)) (mo_once _ _ _ C)) as (m & Em & Lm & Im); [lia|lia|].
  destruct (last_reset m) as [H|(a & r & b & -> & Hr & _)].
  - intros k K. apply mo_modification. now apply Im.
  - exfalso. unfold index in E. rewrite Em in E. rewrite run_count_traces in E by auto. set (v := run_count M x (firstn (pos c (mo x)) (mo x))) in *.
    assert (Hv : v < M) by now apply run_count_bound.
    assert (Hm : length m + 1 <= M).
    { etransitivity; [|exact Hcalls]. assert (Hnd : NoDup (m ++ [c'])).
      { assert (K : NoDup (firstn (S (pos c' (mo x))) (mo x))).
        { pose proof (mo_once _ _ _ C) as K. rewrite <- (firstn_skipn (S (pos c' (mo x))) (mo x)) in K. apply NoDup_app_remove_r in K. exact K. }
        assert (E2 : firstn (S (pos c' (mo x))) (mo x) = firstn (pos c' (mo x)) (mo x) ++ [c']).
        { clear - Nc'. revert Nc'. generalize (pos c' (mo x)). induction (mo x) as [|a l IH]; intros [|p] H; cbn in *; try discriminate; [now injection H as ->|]. f_equal. now apply IH. }
        rewrite E2, Em, <- app_assoc in K. now apply NoDup_app_remove_l in K. }
      replace (length m + 1) with (length (m ++ [c'])) by (rewrite app_length; reflexivity). apply calls_bound; [exact Hnd|].
      intros k K. apply in_app_or in K. destruct K as [K|[<-|[]]]; auto. }
    assert (0 < length m) by lia. destruct (Nat.lt_ge_cases (v + length m) M) as [L|L].
    + rewrite Nat.mod_small in E by lia. lia.
    + replace (v + length m) with (v + length m - M + 1 * M) in E by lia. rewrite Nat.mod_add in E by lia. rewrite Nat.mod_small in E by lia. lia.
  - exists r. split; [exact Hr|]. destruct (proj1 (Im r) ltac:(apply in_or_app; right; now left)) as [Hin Hpr]. split; [|lia].
    destruct (Nat.eq_dec (pos r (mo x)) (pos c (mo x))) as [Q|Q]; [|lia]. exfalso. apply (pos_inj (mo x)) in Q; auto. subst r. now apply (trace_not_reset c).
Qed.
Lemma modification_event k : modification x k -> access_at M cap x (k, 0) <> None.
Proof. intros [H|H]; unfold access_at, accesses; cbn [fst snd]; rewrite H; discriminate. Qed.
Lemma get_event k : is_op x k OGet -> access_at M cap x (k, 0) <> None.
Proof. intros H; unfold access_at, accesses; cbn [fst snd]; rewrite H; discriminate. Qed.
Lemma before_pos k k' : modification x k -> modification x k' -> before M cap x k k' -> pos k (mo x) < pos k' (mo x).
Proof using C. intros H H' B. apply (write_write _ _ _ C); auto. apply B; now apply modification_event. Qed.
Lemma before_trans a b c : (exists j, access_at M cap x (b, j) <> None) -> before M cap x a b -> before M cap x b c -> before M cap x a c.
Proof using C. intros (j & Hj) H H' i k Hi Hk. apply (hb_trans _ _ _ C _ (b, j)); auto. Qed.
Lemma trace_event k : is_op x k OTrace -> exists j, access_at M cap x (k, j) <> None.
Proof. intros H. exists 0. apply modification_event. now left. Qed.
Lemma reset_event k : is_op x k OReset -> exists j, access_at M cap x (k, j) <> None.
Proof. intros H. exists 0. apply modification_event. now right. Qed.

(** ** Who accesses what *)
Definition owner (k c : nat) : Prop := (k = c /\ is_op x c OTrace) \/ is_op x k (OEnd c).
Lemma write_owner k j s f : access_at M cap x (k, j) = Some (Write s f) ->
  exists c, owner k c /\ is_op x c OTrace /\ index M x c = s /\ s < cap /\
    (k = c -> f <> FDuration) /\ (k <> c -> f = FDuration).
Proof using C.
  unfold access_at, accesses. cbn [fst snd]. destruct (nth_error (ops x) k) as [[|c| |]|] eqn:Eo; intros H.
  - exists k. unfold trace_accesses in H. destruct j as [|j]; [discriminate|]. cbn [nth_error] in H. destruct (Nat.leb_spec cap (index M x k)) as [L|L]; [destruct j; discriminate|].
    apply nth_error_In in H. apply in_map_iff in H. destruct H as (g & Eg & Hg). injection Eg as <- <-. split; [left; auto|]. split; [exact Eo|]. split; [reflexivity|]. split; [exact L|].
    split; [|congruence]. intros _ ->. unfold Trace_Model.write_order in Hg. cbn in Hg. intuition discriminate.
  - destruct (end_of _ _ _ C k c Eo) as [Hc _]. exists c. unfold end_accesses in H. destruct (Nat.leb_spec cap (index M x c)) as [L|L]; [destruct j; discriminate|].
    apply nth_error_In in H. destruct H as [H|[]]. injection H as <- <-. split; [right; exact Eo|]. split; [exact Hc|]. split; [reflexivity|]. split; [exact L|].
    split; [|reflexivity]. intros ->. unfold is_op in Hc. congruence.
  - unfold get_accesses in H. apply nth_error_In in H. destruct H as [H|H]; [discriminate|]. apply in_flat_map in H. destruct H as (i & _ & H). apply in_map_iff in H. destruct H as (g & K & _). discriminate.
  - unfold reset_accesses in H. apply nth_error_In in H. destruct H as [H|[]]. discriminate.
  - destruct j; discriminate.
Qed.
Lemma read_get k j s f : access_at M cap x (k, j) = Some (Read s f) -> is_op x k OGet /\ s < Nat.min cap (loaded M x k).
Proof.
  unfold access_at, accesses. cbn [fst snd]. destruct (nth_error (ops x) k) as [[|c| |]|] eqn:Eo; intros H.
  - unfold trace_accesses in H. apply nth_error_In in H. destruct H as [H|H]; [discriminate|]. destruct (Nat.leb cap (index M x k)); [destruct H|]. apply in_map_iff in H. destruct H as (g & K & _). discriminate.
  - unfold end_accesses in H. apply nth_error_In in H. destruct (Nat.leb cap (index M x c)); [destruct H|]. destruct H as [H|[]]. discriminate.
  - unfold get_accesses in H. apply nth_error_In in H. destruct H as [H|H]; [discriminate|]. apply in_flat_map in H. destruct H as (i & Hi & H). apply in_map_iff in H. destruct H as (g & K & _).
    injection K as <- <-. apply in_seq in Hi. split; [exact Eo|clear - Hi; lia].
  - unfold reset_accesses in H. apply nth_error_In in H. destruct H as [H|[]]. discriminate.
  - destruct j; discriminate.
Qed.
(** ** No races *)
Lemma different_calls c c' k k' : resets_ordered M cap x -> is_op x c OTrace -> is_op x c' OTrace -> pos c (mo x) < pos c' (mo x) ->
  index M x c = index M x c' -> owner k c -> owner k' c' -> before M cap x k k'.
Proof using C HM Hcalls.
  intros R Hc Hc' Hp E Ok Ok'. destruct (reset_between c c' Hc Hc' Hp E) as (r & Hr & Hr1 & Hr2).
  assert (B1 : before M cap x k r).
  { destruct (R r c Hr Hc) as [B|[B Be]]; [apply before_pos in B; [lia|now right|now left]|]. destruct Ok as [[-> _]|Ok]; auto. }
  assert (B2 : before M cap x r k').
  { destruct (R r c' Hr Hc') as [B|[B _]]; [|apply before_pos in B; [lia|now left|now right]]. destruct Ok' as [[-> _]|Ok']; auto.
    apply (before_trans r c' k' (trace_event c' Hc') B). now apply (end_of _ _ _ C). }
  exact (before_trans k r k' (reset_event r Hr) B1 B2).
Qed.
Lemma no_race : resets_ordered M cap x -> reads_ordered M cap x -> ~ race M cap x.
Proof using C HM Hcalls.
  intros R G ([k j] & [k' j'] & a & a' & Ha & Ha' & K & Hne & N1 & N2). destruct K as [s f|s f].
  - destruct (write_owner k j s f Ha) as (c & Ok & Hc & Ei & Hs & F1 & F2). destruct (write_owner k' j' s f Ha') as (c' & Ok' & Hc' & Ei' & _ & F1' & F2').
    destruct (lt_eq_lt_dec (pos c (mo x)) (pos c' (mo x))) as [[L|L]|L].
    + apply N1. apply (different_calls c c' k k' R Hc Hc' L); congruence || auto.
    + assert (c = c') by (apply (pos_inj (mo x)); auto; apply (mo_all _ _ _ C); now left). subst c'.
      assert (k = k').
      { destruct Ok as [[-> _]|Ok], Ok' as [[-> _]|Ok']; auto.
        - exfalso. apply (F1 eq_refl). apply F2'. intros ->. unfold is_op in *. congruence.
        - exfalso. apply (F1' eq_refl). apply F2. intros ->. unfold is_op in *. congruence.
        - now apply (end_once _ _ _ C k k' c). }
      subst k'. destruct (lt_eq_lt_dec j j') as [[Lj|Lj]|Lj]; [apply N1|congruence|apply N2]; apply (hb_program _ _ _ C); congruence || auto.
    + apply N2. apply (different_calls c' c k' k R Hc' Hc L); congruence || auto.
  - destruct (write_owner k j s f Ha) as (c & Ok & Hc & _). destruct (read_get k' j' s f Ha') as [Hg _].
    destruct (G k' k Hg) as [B|B]; [destruct Ok as [[-> _]|Ok]; [now left|right; eauto]|apply N2|apply N1]; apply B; congruence.
Qed.

(** ** What get_logs returns *)
Lemma loaded_calls g : is_op x g OGet -> resets_ordered M cap x ->
  (forall k, modification x k -> before M cap x k g \/ before M cap x g k) ->
  number_of_calls x < M ->
  exists l, NoDup l /\ (forall c, In c l <-> reported M cap x g c) /\ loaded M x g = length l /\ forall i c, nth_error l i = Some c -> index M x c = i.
Proof using C HM.
  intros Hg R G Hlt. clear Hcalls. set (p := firstn (seen x g) (mo x)).
  assert (Hs : seen x g <= length (mo x)) by now apply (seen_range _ _ _ C).
  assert (Gev : access_at M cap x (g, 0) <> None) by now apply get_event.
  (* the modifications seen are those before g *)
  assert (Hp : forall k, In k p <-> In k (mo x) /\ before M cap x k g).
  { destruct (pos_middle (mo x) 0 (seen x g) (mo_once _ _ _ C)) as (m & Em & _ & Im); [lia|exact Hs|]. cbn [firstn app] in Em. unfold p. rewrite Em. intros k. rewrite Im. split.
    - intros [Hk Hq]. split; [exact Hk|]. apply (mo_all _ _ _ C) in Hk. destruct (G k Hk) as [B|B]; [exact B|].
      exfalso. assert (hb x (g, 0) (k, 0)) as Hb by (apply B; [exact Gev|now apply modification_event]). apply (read_write _ _ _ C) in Hb; auto. lia.
    - intros [Hk B]. split; [exact Hk|]. split; [lia|]. apply (mo_all _ _ _ C) in Hk. apply (write_read _ _ _ C); auto. apply B; [now apply modification_event|exact Gev]. }
  assert (Hnd : NoDup (mo x)) by apply (mo_once _ _ _ C).
  assert (Hpn : forall i k, nth_error p i = Some k -> pos k (mo x) = i).
  { intros i k H. apply pos_nth; auto. rewrite <- (firstn_skipn (seen x g) (mo x)). rewrite nth_error_app1; [exact H|]. apply nth_error_Some. unfold p in H. congruence. }
  assert (Hpos : forall a b, p = a ++ b -> forall i k, nth_error b i = Some k -> firstn (pos k (mo x)) (mo x) = a ++ firstn i b).
  { intros a b E i k H. assert (nth_error p (length a + i) = Some k) as Hk by (rewrite E, nth_error_app2 by lia; now replace (length a + i - length a) with i by lia).
    rewrite (Hpn _ _ Hk). assert (L : length a + i < length p) by (apply nth_error_Some; congruence).
    transitivity (firstn (length a + i) p).
    - unfold p. rewrite firstn_firstn. f_equal. unfold p in L. rewrite firstn_length in L. lia.
    - rewrite E, firstn_app, firstn_all2 by lia. f_equal. f_equal. lia. }
  assert (Hpnd : NoDup p). { unfold p. rewrite <- (firstn_skipn (seen x g) (mo x)) in Hnd. now apply NoDup_app_remove_r in Hnd. }
  destruct (last_reset p) as [H|(a & r & b & E & Hr & Hb)].
  { intros k K. apply mo_modification. now apply Hp. }
  - exists p. split; [exact Hpnd|]. split; [|split].
    + intros c. rewrite Hp. split.
      * intros [Hc B]. assert (Hpc : In c p) by (apply Hp; auto). split; [now apply H|]. split; [exact B|]. intros r Hr Br. exfalso.
        apply (trace_not_reset r); [|exact Hr]. apply H. apply Hp. split; [|exact Br]. apply (mo_all _ _ _ C). now right.
      * intros (Hc & B & _). split; [|exact B]. apply (mo_all _ _ _ C). now left.
    + unfold loaded. fold p. change p with ([] ++ p). rewrite run_count_traces by auto. cbn [run_count fold_left app]. rewrite Nat.mod_small; [reflexivity|]. cbn. pose proof (calls_bound p Hpnd H). lia.
    + intros i c Hi. unfold index. rewrite (Hpos [] p eq_refl i c Hi). assert (L : i < length p) by (apply nth_error_Some; congruence).
      rewrite run_count_traces; auto; [|intros k K; apply H; rewrite <- (firstn_skipn i p); apply in_or_app; now left].
      rewrite firstn_length, Nat.min_l by lia. cbn [run_count fold_left]. rewrite Nat.mod_small; [reflexivity|]. cbn. pose proof (calls_bound p Hpnd H). lia.
  - assert (Ep : p = (a ++ [r]) ++ b) by (rewrite E, <- app_assoc; reflexivity).
    assert (Hbn : NoDup b) by (rewrite Ep in Hpnd; now apply NoDup_app_remove_l in Hpnd).
    assert (Rin : In r p) by (rewrite E; apply in_or_app; right; now left).
    exists b. split; [exact Hbn|]. split; [|split].
    + intros c. split.
      * intros Hc. assert (Hpc : In c p) by (rewrite E; apply in_or_app; right; now right). apply Hp in Hpc as [Hcm B]. split; [now apply Hb|]. split; [exact B|].
        intros r' Hr' Br'. destruct (R r' c Hr' (Hb c Hc)) as [B'|[B' _]]; [exact B'|]. exfalso.
        apply before_pos in B'; [|now left; apply Hb|now right].
        (* r' is in p, after c, so in b *)
        assert (Rp : In r' p) by (apply Hp; split; [apply (mo_all _ _ _ C); now right|exact Br']).
        assert (Pc : pos c (mo x) >= length (a ++ [r])).
        { apply In_nth_error in Hc. destruct Hc as (i & Hc). rewrite (Hpn (length (a ++ [r]) + i) c); [lia|]. rewrite Ep, nth_error_app2 by lia. now replace (length (a ++ [r]) + i - length (a ++ [r])) with i by lia. }
        apply In_nth_error in Rp. destruct Rp as (i & Rp). rewrite (Hpn i r' Rp) in B'. rewrite Ep, nth_error_app2 in Rp by lia. apply nth_error_In in Rp. apply (trace_not_reset r'); auto.
      * intros (Hc & B & Hall). assert (Hpc : In c p) by (apply Hp; split; [apply (mo_all _ _ _ C); now left|exact B]).
        assert (Br : before M cap x r g) by now apply Hp. specialize (Hall r Hr Br). apply before_pos in Hall; [|now right|now left].
        assert (Pr : pos r (mo x) = length a). { apply Hpn. rewrite E, nth_error_app2, Nat.sub_diag by lia. reflexivity. }
        apply In_nth_error in Hpc. destruct Hpc as (i & Hi). rewrite (Hpn i c Hi), Pr in Hall. rewrite Ep, nth_error_app2 in Hi; [eapply nth_error_In, Hi|]. rewrite app_length. cbn. lia.
    + unfold loaded. fold p. rewrite Ep, run_count_traces by auto. rewrite run_count_reset by auto. rewrite Nat.mod_small; [reflexivity|]. cbn. pose proof (calls_bound b Hbn Hb). lia.
    + intros i c Hi. unfold index. rewrite (Hpos (a ++ [r]) b Ep i c Hi). assert (L : i < length b) by (apply nth_error_Some; congruence).
      rewrite run_count_traces; auto; [|intros k K; apply Hb; rewrite <- (firstn_skipn i b); apply in_or_app; now left].
      rewrite run_count_reset by auto. rewrite firstn_length, Nat.min_l by lia. rewrite Nat.mod_small; [reflexivity|]. cbn. pose proof (calls_bound b Hbn Hb). lia.
Qed.
(** The write that a reader sees: any other write to the same member happened before
    it or happens after the reading. *)
Lemma visible g c k j i f : is_op x g OGet -> resets_ordered M cap x -> reads_ordered M cap x ->
  (forall r, is_op x r OReset -> before M cap x r g \/ before M cap x g r) ->
  reported M cap x g c -> index M x c = i -> owner k c -> access_at M cap x (k, j) = Some (Write i f) ->
  forall k' j', access_at M cap x (k', j') = Some (Write i f) -> (k', j') <> (k, j) ->
  hb x (k', j') (k, j) \/ before M cap x g k'.
Proof using C HM Hcalls.
  intros Hg R G Gr (Hc & Bc & Rc) Ei Ok Ha k' j' Ha' Hne.
  destruct (write_owner k j i f Ha) as (c0 & Ok0 & Hc0 & Ei0 & Hs & F1 & F2). 
  assert (c0 = c). { destruct Ok as [[-> _]|Ok], Ok0 as [[E _]|Ok0]; unfold is_op in *; congruence. } subst c0.
  destruct (write_owner k' j' i f Ha') as (c' & Ok' & Hc' & Ei' & _ & F1' & F2').
  destruct (lt_eq_lt_dec (pos c' (mo x)) (pos c (mo x))) as [[L|L]|L].
  - left. apply (different_calls c' c k' k R Hc' Hc L); congruence || auto.
  - left. assert (c' = c) by (apply (pos_inj (mo x)); auto; apply (mo_all _ _ _ C); now left). subst c'.
    assert (k = k').
    { destruct Ok as [[-> _]|Ok], Ok' as [[-> _]|Ok']; auto.
      - exfalso. apply (F1 eq_refl). apply F2'. intros ->. unfold is_op in *. congruence.
      - exfalso. apply (F1' eq_refl). apply F2. intros ->. unfold is_op in *. congruence.
      - now apply (end_once _ _ _ C k k' c). }
    subst k'. exfalso. apply Hne. f_equal.
    assert (Hu : NoDup (accesses M cap x k) \/ ~ In (Write i f) (accesses M cap x k)).
    { left. unfold accesses. destruct Ok as [[-> _]|Ok]; [unfold is_op in Hc; rewrite Hc|unfold is_op in Ok; rewrite Ok].
      - unfold trace_accesses. destruct (Nat.leb cap (index M x c)); [repeat constructor; intros []|]. unfold Trace_Model.write_order. cbn [map].
        repeat constructor; cbn [In]; intuition discriminate.
      - unfold end_accesses. destruct (Nat.leb cap (index M x c)); repeat constructor. intros []. }
    unfold access_at in Ha, Ha'. cbn [fst snd] in Ha, Ha'. destruct Hu as [Hu|Hu]; [|exfalso; apply Hu; eapply nth_error_In, Ha].
    apply (proj1 (NoDup_nth_error _) Hu); [apply nth_error_Some; congruence|congruence].
  - right. destruct (reset_between c c' Hc Hc' L) as (r & Hr & Hr1 & Hr2); [congruence|].
    assert (Bg : before M cap x g r).
    { destruct (Gr r Hr) as [B|B]; [|exact B]. exfalso. specialize (Rc r Hr B). apply before_pos in Rc; [lia|now right|now left]. }
    assert (B2 : before M cap x r k').
    { destruct (R r c' Hr Hc') as [B|[B _]]; [|apply before_pos in B; [lia|now left|now right]]. destruct Ok' as [[-> _]|Ok']; auto.
      apply (before_trans r c' k' (trace_event c' Hc') B). now apply (end_of _ _ _ C). }
    exact (before_trans g r k' (reset_event r Hr) Bg B2).
Qed.
Lemma written c i f : is_op x c OTrace -> index M x c = i -> i < cap -> f <> FDuration -> exists j, access_at M cap x (c, j) = Some (Write i f).
Proof.
  intros Hc Ei Hi Hf. unfold access_at, accesses. cbn [fst snd]. unfold is_op in Hc. rewrite Hc, Ei. unfold trace_accesses.
  rewrite (proj2 (Nat.leb_gt _ _)) by exact Hi. apply In_nth_error. right. apply in_map. unfold Trace_Model.write_order. destruct f; cbn; tauto.
Qed.
End Proofs.

(** ** Executions without synchronisation *)
Definition program_order (thread : nat -> nat) (e e' : event) : Prop :=
  thread (fst e) = thread (fst e') /\ (fst e < fst e' \/ (fst e = fst e' /\ snd e < snd e')).
Lemma program_order_consistent M cap ops thread mo seen :
  let x := Exec ops thread (program_order thread) mo seen in
  NoDup mo -> (forall k, In k mo <-> modification x k) ->
  (forall k k', modification x k -> modification x k' -> k < k' -> thread k = thread k' -> pos k mo < pos k' mo) ->
  (forall g, is_op x g OGet -> seen g <= length mo) ->
  (forall k g, modification x k -> is_op x g OGet -> k < g -> thread k = thread g -> pos k mo < seen g) ->
  (forall k g, modification x k -> is_op x g OGet -> g < k -> thread k = thread g -> seen g <= pos k mo) ->
  (forall g g', is_op x g OGet -> is_op x g' OGet -> g < g' -> thread g = thread g' -> seen g <= seen g') ->
  (forall e c, is_op x e (OEnd c) -> is_op x c OTrace /\ c < e /\ thread c = thread e) ->
  (forall e e' c, is_op x e (OEnd c) -> is_op x e' (OEnd c) -> e = e') ->
  consistent M cap x.
Proof.
  intros x H1 H2 H3 H4 H5 H6 H7 H8 H9. constructor; cbn [TraceRace_Model.hb TraceRace_Model.mo TraceRace_Model.seen TraceRace_Model.ops TraceRace_Model.thread x]; auto.
  - intros [a a'] [b b'] [c c'] [E1 H] [E2 H']. unfold program_order in *. cbn [fst snd] in *. split; [congruence|lia].
  - intros [a a'] [_ H]. cbn in H. lia.
  - intros k j j' L _ _. split; [reflexivity|]. cbn. right. auto.
  - intros k k' L _ E j j' _ _. split; [exact E|]. now left.
  - intros k k' Hk Hk' [E L]. cbn [fst snd] in *. apply H3; auto. lia.
  - intros k g Hk Hg [E L]. cbn [fst snd] in *. apply H5; auto. lia.
  - intros g k Hg Hk [E L]. cbn [fst snd] in *. apply H6; auto. lia.
  - intros g g' Hg Hg' [E L]. cbn [fst snd] in *. apply H7; auto. lia.
  - intros e c He. destruct (H8 e c He) as (K1 & K2 & K3). split; [exact K1|]. intros j j' _ _. split; [exact K3|]. now left.
Qed.
