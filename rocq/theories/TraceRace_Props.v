(** C98: the trace logger in the C++ memory model. *)
From Verif Require Import Base TraceRace_Model TraceRace_Spec TraceRace_Proofs.
Import Trace_Model (field, FName, FInstance, FStart, FDuration, FThread, FFlops).

(** [M] is the number of values of std::size_t, [cap] the capacity. Any synchronisation
    between the threads may be in the happens-before relation of [x]. *)
Theorem C98_no_race : forall M cap x, consistent M cap x -> 0 < M -> number_of_calls x <= M ->
  resets_ordered M cap x -> reads_ordered M cap x -> ~ race M cap x.
Proof. intros M cap x HC HM Hn R G. now apply no_race. Qed.
Print Assumptions C98_no_race.
(** Only trace() and the ends of scopes, by any threads: no condition. *)
Theorem C98_tracing_never_races : forall M cap x, consistent M cap x -> 0 < M -> number_of_calls x <= M ->
  (forall k, ~ is_op x k OReset) -> (forall k, ~ is_op x k OGet) -> ~ race M cap x.
Proof.
  intros M cap x HC HM Hn R G. apply no_race; auto.
  - intros r c Hr. now elim (R r).
  - intros g k Hg. now elim (G g).
Qed.
Print Assumptions C98_tracing_never_races.
(** get_logs() when every trace(), end of a scope and reset is ordered with it: the number of
    entries is the number of calls before it since the last reset (at most the capacity);
    entry i is that of the call that got index i, and what is read from a member is what
    this call (or the end of its scope) wrote: other writes to the member are either older
    or happen after get_logs(). *)
Theorem C98_get_logs : forall M cap x g, consistent M cap x -> 0 < M -> number_of_calls x < M ->
  is_op x g OGet -> resets_ordered M cap x -> reads_ordered M cap x ->
  (forall r, is_op x r OReset -> before M cap x r g \/ before M cap x g r) ->
  exists l, NoDup l /\ (forall c, In c l <-> reported M cap x g c) /\ loaded M x g = length l /\
    forall i c, nth_error l i = Some c -> i < cap ->
      (forall f, f <> FDuration -> exists j, access_at M cap x (c, j) = Some (Write i f)) /\
      forall k j f, k = c \/ is_op x k (OEnd c) -> access_at M cap x (k, j) = Some (Write i f) ->
        forall k' j', access_at M cap x (k', j') = Some (Write i f) -> (k', j') <> (k, j) ->
        hb x (k', j') (k, j) \/ before M cap x g k'.
Proof.
  intros M cap x g HC HM Hn Hg R G Gr.
  destruct (loaded_calls M cap x HC HM g Hg R) as (l & L1 & L2 & L3 & L4); auto.
  { intros k [Hk|Hk]; [|auto]. destruct (G g k Hg) as [B|B]; auto. }
  exists l. split; [exact L1|]. split; [exact L2|]. split; [exact L3|]. intros i c Hi Hcap.
  assert (Hc : reported M cap x g c) by (apply L2; eapply nth_error_In, Hi). pose proof (L4 i c Hi) as Ei. split.
  - intros f Hf. apply written; auto. apply Hc.
  - intros k j f Ok Ha k' j' Ha' Hne. apply (visible M cap x HC HM ltac:(lia) g c k j i f Hg R G Gr Hc Ei); auto.
    destruct Ok as [->|Ok]; [left; split; [reflexivity|apply Hc]|now right].
Qed.
Print Assumptions C98_get_logs.

(** ** The conditions are necessary: executions with races *)
(** get_logs() while another thread is in trace() *)
Theorem C98_unordered_get_logs_races : forall M cap, 2 <= M -> 1 <= cap ->
  exists x, consistent M cap x /\ ops x = [OTrace; OGet] /\ race M cap x.
Proof.
  intros M cap HM Hcap. exists (Exec [OTrace; OGet] (fun k => k) (program_order (fun k => k)) [0] (fun _ => 1)). split; [|split; [reflexivity|]].
  - apply program_order_consistent; cbn; try lia.
    + repeat constructor. intros [].
    + intros k. unfold modification, is_op. cbn. split; [intros [<-|[]]; now left|]. destruct k as [|[|[|k]]]; cbn; intros [H|H]; try discriminate; auto.
    + intros e c H. unfold is_op in H. cbn in H. destruct e as [|[|[|e]]]; discriminate.
    + intros e e' c H. unfold is_op in H. cbn in H. destruct e as [|[|[|e]]]; discriminate.
  - exists (0, 1), (1, 1), (Write 0 FName), (Read 0 FName). destruct cap as [|cap]; [lia|]. split; [reflexivity|]. split.
    + unfold access_at, accesses. cbn [fst snd nth_error ops]. unfold loaded. cbn [seen mo firstn run_count fold_left nth_error ops modify].
      unfold run_count. cbn [fold_left nth_error ops modify]. rewrite Nat.mod_small by lia. reflexivity.
    + split; [constructor|]. split; [discriminate|]. split; intros [K _]; discriminate.
Qed.
Print Assumptions C98_unordered_get_logs_races.
(** reset() while another thread is in trace(): the next call writes to the same entry. *)
Theorem C98_unordered_reset_races : forall M cap, 2 <= M -> 1 <= cap ->
  exists x, consistent M cap x /\ ops x = [OTrace; OReset; OTrace] /\ race M cap x.
Proof.
  intros M cap HM Hcap. set (th := fun k => match k with 0 => 0 | _ => 1 end). exists (Exec [OTrace; OReset; OTrace] th (program_order th) [0; 1; 2] (fun _ => 0)). split; [|split; [reflexivity|]].
  - apply program_order_consistent.
    + repeat constructor; cbn; intuition discriminate.
    + intros k. unfold modification, is_op. cbn. split; [intros [<-|[<-|[<-|[]]]]; cbn; auto|]. destruct k as [|[|[|[|k]]]]; cbn; intros [H|H]; try discriminate; auto.
    + intros k k' Hk Hk' L _. assert (k' < 3). { unfold modification, is_op in Hk'. cbn in Hk'. destruct k' as [|[|[|[|k']]]]; cbn in Hk'; try lia; destruct Hk'; discriminate. }
      destruct k as [|[|[|k]]], k' as [|[|[|k']]]; cbn; lia.
    + intros g H. unfold is_op in H. cbn in H. destruct g as [|[|[|[|g]]]]; discriminate.
    + intros k g _ H. unfold is_op in H. cbn in H. destruct g as [|[|[|[|g]]]]; discriminate.
    + intros k g _ H. unfold is_op in H. cbn in H. destruct g as [|[|[|[|g]]]]; discriminate.
    + intros g g' H. unfold is_op in H. cbn in H. destruct g as [|[|[|[|g]]]]; discriminate.
    + intros e c H. unfold is_op in H. cbn in H. destruct e as [|[|[|[|e]]]]; discriminate.
    + intros e e' c H. unfold is_op in H. cbn in H. destruct e as [|[|[|[|e]]]]; discriminate.
  - exists (0, 1), (2, 1), (Write 0 FName), (Write 0 FName). destruct cap as [|cap]; [lia|]. split; [reflexivity|]. split; [reflexivity|].
    split; [constructor|]. split; [discriminate|]. split; intros [K _]; discriminate.
Qed.
Print Assumptions C98_unordered_reset_races.
(** More than 2^w calls (w bits in std::size_t): the counter wraps, and the last call races with the first. *)
Lemma pos_seq n k : forall a, a <= k < a + n -> pos k (seq a n) = k - a.
Proof.
  induction n as [|n IH]; intros a H; [lia|]. cbn [seq pos]. destruct (Nat.eqb_spec a k) as [->|N]; [lia|]. rewrite IH by lia. lia.
Qed.
Theorem C98_too_many_calls_race : forall M cap, 1 <= M -> 1 <= cap ->
  exists x, consistent M cap x /\ ops x = repeat OTrace (S M) /\ race M cap x.
Proof.
  intros M cap HM Hcap. set (x := Exec (repeat OTrace (S M)) (fun k => k) (program_order (fun k => k)) (seq 0 (S M)) (fun _ => 0)).
  assert (Hop : forall k o, is_op x k o -> o = OTrace /\ k < S M).
  { intros k o H. unfold is_op in H. cbn [ops x] in H. assert (L : k < length (repeat OTrace (S M))) by (apply nth_error_Some; congruence). rewrite repeat_length in L.
    apply nth_error_In in H. apply repeat_spec in H. auto. }
  assert (Hop' : forall k, k < S M -> is_op x k OTrace).
  { intros k H. unfold is_op. cbn [ops x]. now apply nth_error_repeat. }
  exists x. split; [|split; [reflexivity|]].
  - apply program_order_consistent; fold x.
    + apply seq_NoDup.
    + intros k. rewrite in_seq. split.
      * intros H. left. apply Hop'. lia.
      * intros [H|H]; apply Hop in H; lia.
    + intros k k' _ Hk' L E. cbn in E. lia.
    + intros g H. apply Hop in H. destruct H. discriminate.
    + intros k g _ H. apply Hop in H. destruct H. discriminate.
    + intros k g _ H. apply Hop in H. destruct H. discriminate.
    + intros g g' H. apply Hop in H. destruct H. discriminate.
    + intros e c H. apply Hop in H. destruct H. discriminate.
    + intros e e' c H. apply Hop in H. destruct H. discriminate.
  - assert (I0 : index M x 0 = 0) by reflexivity.
    assert (IM : index M x M = 0).
    { unfold index. cbn [mo x]. rewrite pos_seq by lia. rewrite Nat.sub_0_r. change (firstn M (seq 0 (S M))) with ([] ++ firstn M (seq 0 (S M))).
      rewrite run_count_traces; [|lia|].
      - rewrite firstn_length, seq_length. cbn [run_count fold_left]. unfold run_count. cbn [fold_left]. rewrite Nat.min_l by lia. apply Nat.mod_same. lia.
      - intros k K. apply Hop'. assert (K' : In k (seq 0 (S M))) by (rewrite <- (firstn_skipn M (seq 0 (S M))); apply in_or_app; now left). apply in_seq in K'. lia. }
    exists (0, 1), (M, 1), (Write 0 FName), (Write 0 FName). destruct cap as [|cap]; [lia|].
    split; [|split; [|split; [constructor|split]]].
    + unfold access_at, accesses. cbn [fst snd]. rewrite (Hop' 0) by lia. now rewrite I0.
    + unfold access_at, accesses. cbn [fst snd]. rewrite (Hop' M) by lia. now rewrite IM.
    + intros E. injection E as E. lia.
    + split; intros [K _]; cbn in K; lia.
Qed.
Print Assumptions C98_too_many_calls_race.

(** ** An example: two threads trace concurrently, a third one joins them and reads the logs. *)
Definition joined (e e' : event) : Prop := (fst e = fst e' /\ snd e < snd e') \/ (fst e < 2 /\ fst e' = 2) \/ (fst e < 3 /\ fst e' = 3) \/ (fst e = 0 /\ fst e' = 2).
Definition demo : execution := Exec [OTrace; OTrace; OEnd 0; OGet] (fun k => match k with 2 => 0 | 3 => 2 | k => k end) joined [1; 0] (fun _ => 2).
Example C98_nonvacuous : consistent (2 ^ 6) 8 demo /\ number_of_calls demo = 2 /\ resets_ordered (2 ^ 6) 8 demo /\ reads_ordered (2 ^ 6) 8 demo /\
  loaded (2 ^ 6) demo 3 = 2 /\ index (2 ^ 6) demo 0 = 1 /\ access_at (2 ^ 6) 8 demo (2, 0) = Some (Write 1 FDuration).
Proof.
  assert (Ho : forall k o, is_op demo k o -> (k = 0 /\ o = OTrace) \/ (k = 1 /\ o = OTrace) \/ (k = 2 /\ o = OEnd 0) \/ (k = 3 /\ o = OGet)).
  { intros k o H. unfold is_op in H. cbn in H. destruct k as [|[|[|[|[|k]]]]]; cbn in H; try discriminate; injection H as <-; tauto. }
  split; [|split; [reflexivity|split; [|split; [|split; [reflexivity|split; reflexivity]]]]].
  - constructor.
    + intros [a a'] [b b'] [c c']. unfold demo, joined. cbn. lia.
    + intros [a a']. unfold demo, joined. cbn. lia.
    + intros k j j' L _ _. left. auto.
    + intros k k' L L' E j j' _ _. cbn in L', E. unfold demo, joined. cbn. destruct k as [|[|[|[|k]]]], k' as [|[|[|[|k']]]]; lia.
    + repeat constructor; cbn; intuition discriminate.
    + intros k. split.
      * intros [<-|[<-|[]]]; left; reflexivity.
      * intros [H|H]; apply Ho in H; destruct H as [[-> E]|[[-> E]|[[-> E]|[-> E]]]]; try discriminate E; cbn; auto.
    + intros k k' Hk Hk' H. unfold demo, joined in H. cbn in H.
      assert (k < 2) by (destruct Hk as [K|K]; apply Ho in K; clear - K; intuition (discriminate || lia)). assert (k' < 2) by (destruct Hk' as [K|K]; apply Ho in K; clear - K; intuition (discriminate || lia)). lia.
    + intros g _. cbn. lia.
    + intros k g Hk _ _. cbn. assert (k < 2) by (destruct Hk as [K|K]; apply Ho in K; clear - K; intuition (discriminate || lia)). destruct k as [|[|k]]; cbn; lia.
    + intros g k Hg Hk H. unfold demo, joined in H. cbn in H. apply Ho in Hg. assert (k < 2) by (destruct Hk as [K|K]; apply Ho in K; clear - K; intuition (discriminate || lia)).
      assert (g = 3) by (clear - Hg; intuition (discriminate || lia)). lia.
    + intros g g' _ _ _. cbn. lia.
    + intros e c H. apply Ho in H. assert (e = 2 /\ c = 0) as [-> ->] by (clear - H; intuition (try discriminate; try congruence)). split; [reflexivity|].
      intros j j' _ _. unfold demo, joined. cbn. lia.
    + intros e e' c H H'. apply Ho in H, H'. clear - H H'. intuition (try discriminate; lia).
  - intros r c H. apply Ho in H. exfalso. clear - H. intuition discriminate.
  - intros g k H Hk. apply Ho in H. assert (g = 3) as -> by (clear - H; intuition discriminate).
    assert (L : k < 3) by (destruct Hk as [K|[c K]]; apply Ho in K; clear - K; intuition (discriminate || lia)).
    right. intros j j' _ _. unfold demo, joined. cbn. lia.
Qed.
