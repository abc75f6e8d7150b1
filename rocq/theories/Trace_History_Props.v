(** C50, C51: the log entries against the history of the program. *)
From Verif Require Import Base Trace_Model Trace_Spec Trace_Proofs Trace_Props Trace_History_Spec Trace_History_Proofs.

(** C50: after its scope has ended, the slot of a call of trace() holds the arguments and
    the thread of exactly that call, the clock when it began, and the time that passed
    until its scope ended. *)
Theorem C50_records_the_call :
  forall M cap as_ i c, no_wrap M as_ -> quiet_resets M cap as_ -> let s := run M as_ (start cap) in
  nth_error (calls s) i = Some c -> has_slot s c = true -> at_ c = Closed ->
  exists name inst fl th b e l, took_place as_ i name inst fl th b e /\ nth_error (logs s) (index c) = Some l /\
    l FName = name /\ l FInstance = inst /\ l FFlops = fl /\ l FThread = th /\ l FStart = b /\ l FDuration = (e - b)%Z.
Proof.
  intros M cap as_ i c Hw Hq s Hc Hs Ha.
  destruct (C50_entries_intact M cap as_ i c Hw Hq Hc Hs) as (l & El & D1 & D2); [unfold returned; now rewrite Ha|].
  destruct (history M cap as_) as (_ & G & Hi). destruct (Hi i c Hc) as [(nm & ins & fl & th & T & A1 & A2 & A3 & A4) B]. cbv zeta in B. rewrite Ha in B.
  destruct B as [B|(e & B1 & B2 & B3)].
  - exfalso. unfold has_slot in Hs. apply andb_prop in Hs. destruct Hs as [_ Hs]. apply Nat.ltb_lt in Hs. unfold s in Hs. rewrite G in Hs. lia.
  - exists nm, ins, fl, th, (args c FStart), e, l. split; [split; [exact T|split; [exact B1|exact B2]]|]. split; [exact El|].
    rewrite !D1 by discriminate. rewrite (D2 Ha), B3. auto 10.
Qed.
Print Assumptions C50_records_the_call.

(** C51: if in addition every scope is closed when get_logs() is called, each entry it
    returns records one call of the program. *)
Theorem C51_entries_record_calls_partial :
  forall M cap as_, no_wrap M as_ -> quiet_resets M cap as_ -> let s := run M as_ (start cap) in quiet s ->
  forall k l, nth_error (get_logs s) k = Some l ->
  exists i name inst fl th b e, took_place as_ i name inst fl th b e /\
    l FName = name /\ l FInstance = inst /\ l FFlops = fl /\ l FThread = th /\ l FStart = b /\ l FDuration = (e - b)%Z.
Proof.
  intros M cap as_ Hw Hq s Hs k l Hk.
  destruct (C51_get_logs_partial M cap as_ Hw Hq) with (k := k) (l := l) as (i & c & Hc & Hsl & Hi & Hr & _); auto.
  { intros i c Hc Hp. specialize (Hs i c Hc). unfold in_progress in Hp. destruct (at_ c); auto. }
  assert (Ha : at_ c = Closed) by (specialize (Hs i c Hc); unfold returned in Hr; destruct (at_ c); easy).
  destruct (C50_records_the_call M cap as_ i c Hw Hq Hc Hsl Ha) as (nm & ins & fl & th & b & e & l' & T & El & H).
  assert (l' = l); [|subst l'; exists i, nm, ins, fl, th, b, e; auto].
  subst k. unfold get_logs in Hk. fold s in El. assert (Lk : index c < Nat.min (length (logs s)) (count s)).
  { apply Nat.lt_le_trans with (length (firstn (Nat.min (length (logs s)) (count s)) (logs s))); [apply nth_error_Some; congruence|apply firstn_le_length]. }
  assert (E2 : nth_error (logs s) (index c) = Some l); [|congruence].
  rewrite <- (firstn_skipn (Nat.min (length (logs s)) (count s)) (logs s)). rewrite nth_error_app1; [exact Hk|]. apply nth_error_Some. congruence.
Qed.
Print Assumptions C51_entries_record_calls_partial.

(** The program of C50_nonvacuous ends quietly once its third scope is closed; its second
    call ran from 100 to 150. *)
Example C50_history_nonvacuous : let p := demo ++ [Step 2 0] in quiet (run 50 p (start 2)) /\ took_place p 1 2 20 (-1) 6 100 150 /\
  nth_error (map at_ (calls (run 50 p (start 2)))) 1 = Some Closed.
Proof.
  split; [|split; [|reflexivity]].
  - unfold quiet. refine (by_pcs (fun p => match p with Begin | Closed => True | _ => False end) _ [Closed; Closed; Closed] _ _); [vm_compute; reflexivity|repeat constructor].
  - unfold took_place. vm_compute. auto.
Qed.
