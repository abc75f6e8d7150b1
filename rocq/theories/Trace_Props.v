(** C50-C52: TraceLogger. *)
From Verif Require Import Base Trace_Model Trace_Spec Trace_Proofs.

(** C50, for any number of threads and any interleaving of the accesses of
    trace(), of closing scopes, and of resets at quiet moments ([quiet_resets]
    holds in particular if there is no reset): distinct calls since the last
    reset that got a slot got distinct slots; *)
Theorem C50_slots_distinct :
  forall M cap as_ i j c d,
  no_wrap M as_ -> quiet_resets M cap as_ -> let s := run M as_ (start cap) in
  nth_error (calls s) i = Some c -> nth_error (calls s) j = Some d -> i <> j ->
  has_slot s c = true -> has_slot s d = true -> index c <> index d.
Proof. exact slots_distinct. Qed.
Print Assumptions C50_slots_distinct.

(** ... exactly min(capacity, calls) of them got one; *)
Theorem C50_slots_used :
  forall M cap as_, no_wrap M as_ -> quiet_resets M cap as_ -> let s := run M as_ (start cap) in
  length (filter (has_slot s) (calls s)) = Nat.min cap (length (filter (ticketed s) (calls s))).
Proof. exact slots_used. Qed.
Print Assumptions C50_slots_used.

(** ... a call that is about to write to the log writes inside the array (calls
    beyond the capacity never write); *)
Theorem C50_no_write_outside :
  forall M cap as_ i c, no_wrap M as_ -> quiet_resets M cap as_ -> let s := run M as_ (start cap) in
  nth_error (calls s) i = Some c ->
  match at_ c with Write _ | Open => index c < length (logs s) | _ => True end.
Proof. exact no_write_outside. Qed.
Print Assumptions C50_no_write_outside.

(** ... and once a call has returned, its slot holds its own data, whatever the
    other calls did. *)
Theorem C50_entries_intact :
  forall M cap as_ i c, no_wrap M as_ -> quiet_resets M cap as_ -> let s := run M as_ (start cap) in
  nth_error (calls s) i = Some c -> has_slot s c = true -> returned c ->
  exists l, nth_error (logs s) (index c) = Some l /\ describes l c.
Proof. exact entries_intact. Qed.
Print Assumptions C50_entries_intact.

Lemma no_resets_quiet M cap as_ : ~ In Reset as_ -> quiet_resets M cap as_.
Proof. intros N pre post E. exfalso. apply N. rewrite E. apply in_or_app. right; now left. Qed.

Lemma by_pcs (P : pc -> Prop) l ps : map at_ l = ps -> Forall P ps -> forall i c, nth_error l i = Some c -> P (at_ c).
Proof. intros <- F i c H. rewrite Forall_forall in F. apply F. apply in_map. eapply nth_error_In; eauto. Qed.

(** Two threads interleaving their writes, capacity 2, a third call too many. *)
Definition demo : list action :=
  [Trace 1 10 (-1) 5; Trace 2 20 (-1) 6; Step 0 0; Step 1 0; Step 1 100; Step 0 101;
   Step 0 0; Step 1 0; Step 1 0; Step 0 0; Step 0 0; Step 1 0; Step 1 0; Step 0 0; Step 1 0; Step 0 0;
   Trace 3 30 (-1) 5; Step 2 0; Step 2 0; Step 1 150; Step 0 151].
Example C50_nonvacuous :
  no_wrap 50 demo /\ quiet_resets 50 2 demo /\
  map (fun c => (index c, has_slot (run 50 demo (start 2)) c)) (calls (run 50 demo (start 2))) = [(0, true); (1, true); (2, false)] /\
  map (fun l => (l FName, l FInstance, l FStart, l FDuration, l FThread)) (get_logs (run 50 demo (start 2))) =
    [(1, 10, 101, 50, 5); (2, 20, 100, 50, 6)]%Z.
Proof.
  repeat split.
  - unfold no_wrap, demo. cbn [length]. lia.
  - apply no_resets_quiet. unfold demo. cbn. intuition discriminate.
Qed.

(** C51 is false: get_logs() between the fetch_add and the writes of a trace()
    call returns an entry that call has not written. *)
Theorem C51_get_logs_refuted :
  exists as_ c l, let s := run 50 as_ (start 2) in
    no_wrap 50 as_ /\ ~ In Reset as_ /\
    calls s = [c] /\ get_logs s = [l] /\ index c = 0 /\ args c FName = 7%Z /\ l FName = 0%Z.
Proof.
  exists [Trace 7 1 2 3; Step 0 0]. do 2 eexists. cbn zeta. repeat split.
  - unfold no_wrap. cbn [length]. lia.
  - cbn. intuition discriminate.
Qed.
Print Assumptions C51_get_logs_refuted.

(** What holds: at a moment when no trace() call is in progress, every entry
    returned was completely written by the call that owns it. *)
Theorem C51_get_logs_partial :
  forall M cap as_, no_wrap M as_ -> quiet_resets M cap as_ -> let s := run M as_ (start cap) in
  (forall i c, nth_error (calls s) i = Some c -> ~ in_progress c) ->
  forall k l, nth_error (get_logs s) k = Some l ->
  exists i c, nth_error (calls s) i = Some c /\ has_slot s c = true /\ index c = k /\ returned c /\ describes l c.
Proof. exact get_logs_quiescent. Qed.
Print Assumptions C51_get_logs_partial.

Example C51_nonvacuous :
  length (get_logs (run 50 demo (start 2))) = 2 /\
  (forall i c, nth_error (calls (run 50 demo (start 2))) i = Some c -> ~ in_progress c).
Proof.
  split; [vm_compute; reflexivity|].
  apply (by_pcs (fun p => ~ match p with Fetched | Write _ => True | _ => False end) _ [Closed; Closed; OpenNull]); [vm_compute; reflexivity|].
  repeat constructor; exact (fun f => f).
Qed.

(** C52 is false: a scope opened before reset() and closed after it overwrites
    the duration of the entry that took its slot (and the entry then does not
    describe its call). *)
Theorem C52_reset_refuted :
  exists as_ c l, let s := run 50 as_ (start 1) in
    no_wrap 50 as_ /\ nth_error (calls s) 1 = Some c /\ has_slot s c = true /\ at_ c = Closed /\
    nth_error (logs s) 0 = Some l /\ index c = 0 /\ l FDuration <> args c FDuration /\ ~ describes l c.
Proof.
  exists ([Trace 1 1 1 1; Step 0 0; Step 0 10; Step 0 0; Step 0 0; Step 0 0; Step 0 0; Step 0 0; Reset;
           Trace 2 2 2 2; Step 1 0; Step 1 100; Step 1 0; Step 1 0; Step 1 0; Step 1 0; Step 1 0; Step 1 105;
           Step 0 1000]).
  do 2 eexists. cbn zeta. split; [|split; [vm_compute; reflexivity|split; [vm_compute; reflexivity|split; [reflexivity|split; [vm_compute; reflexivity|split; [reflexivity|split]]]]]].
  - unfold no_wrap. cbn [length]. lia.
  - vm_compute. discriminate.
  - intros [_ D]. specialize (D eq_refl). vm_compute in D. discriminate.
Qed.
Print Assumptions C52_reset_refuted.

(** What holds: if reset() is only called when every scope opened before has
    ended, entries recorded since the last reset stay intact. *)
Theorem C52_reset_partial :
  forall M cap as_ as_' i c,
  let s := run M (as_ ++ Reset :: as_') (start cap) in
  no_wrap M (as_ ++ Reset :: as_') -> quiet_resets M cap (as_ ++ Reset :: as_') ->
  nth_error (calls s) i = Some c -> has_slot s c = true -> returned c ->
  exists l, nth_error (logs s) (index c) = Some l /\ describes l c.
Proof. intros M cap as_ as_' i c s NW QR. exact (entries_intact M cap _ i c NW QR). Qed.
Print Assumptions C52_reset_partial.

Example C52_nonvacuous :
  let as_ := firstn 1 demo ++ [Step 0 0; Step 0 1; Step 0 1; Step 0 1; Step 0 1; Step 0 1; Step 0 1; Step 0 9] in
  let as_' := [Trace 4 40 0 8; Step 1 0; Step 1 20; Step 1 0; Step 1 0; Step 1 0; Step 1 0; Step 1 0] in
  quiet (run 50 as_ (start 2)) /\
  exists c, nth_error (calls (run 50 (as_ ++ Reset :: as_') (start 2))) 1 = Some c /\
    has_slot (run 50 (as_ ++ Reset :: as_') (start 2)) c = true /\ returned c /\ index c = 0.
Proof.
  cbn zeta. split.
  - refine (by_pcs (fun p => match p with Begin | Closed => True | _ => False end) _ [Closed] _ _); [vm_compute; reflexivity|].
    repeat constructor.
  - eexists. split; [vm_compute; reflexivity|]. repeat split.
Qed.
