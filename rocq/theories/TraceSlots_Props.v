(** C50-C52 with resets at any moment, and what get_logs() returns at any moment. *)
From Verif Require Import Base Trace_Model Trace_Spec Trace_Proofs Trace_Props TraceSlots_Proofs.
Local Arguments Nat.eqb : simpl never.
Local Arguments Nat.ltb : simpl never.
Local Arguments Nat.leb : simpl never.
Local Arguments Nat.modulo : simpl never.

(** ** C50: resets at any moment *)
Lemma any_inv M cap as_ : no_wrap M as_ -> sinv (fun _ => False) M cap (length as_) (run M as_ (start cap)).
Proof. intros NW. apply run_inv; [exact NW|]. intros k []. Qed.

Theorem C50_slots_distinct_any_reset :
  forall M cap as_ i j c d, no_wrap M as_ -> let s := run M as_ (start cap) in
  nth_error (calls s) i = Some c -> nth_error (calls s) j = Some d -> i <> j ->
  has_slot s c = true -> has_slot s d = true -> index c <> index d.
Proof.
  intros M cap as_ i j c d NW s Hi Hj N Sc Sd E. pose proof (any_inv M cap as_ NW) as I. fold s in I.
  apply andb_true_iff in Sc as [Sc _]. apply andb_true_iff in Sd as [Sd _].
  apply N. eapply tickets_inj; eauto. apply I.
Qed.
Print Assumptions C50_slots_distinct_any_reset.

Lemma tickets_perm_any M cap as_ : no_wrap M as_ -> let s := run M as_ (start cap) in Permutation (tickets s) (seq 0 (count s)).
Proof.
  intros NW s. pose proof (any_inv M cap as_ NW) as I. fold s in I. apply NoDup_Permutation_bis.
  - apply I.
  - rewrite seq_length, (i_cnt _ _ _ _ _ I). lia.
  - intros t Ht. apply in_seq. apply (i_lt _ _ _ _ _ I) in Ht. lia.
Qed.

Theorem C50_slots_used_any_reset :
  forall M cap as_, no_wrap M as_ -> let s := run M as_ (start cap) in
  length (filter (has_slot s) (calls s)) = Nat.min cap (length (filter (ticketed s) (calls s))).
Proof.
  intros M cap as_ NW s. pose proof (any_inv M cap as_ NW) as I. pose proof (tickets_perm_any M cap as_ NW) as P. fold s in I, P.
  unfold has_slot. rewrite (i_len _ _ _ _ _ I).
  rewrite <- (map_length index (filter (fun c => ticketed s c && Nat.ltb (index c) cap) (calls s))).
  rewrite <- (filter_map_index (fun t => Nat.ltb t cap)). fold (tickets s).
  rewrite (Permutation_filter_length _ _ _ P), filter_lt_seq.
  f_equal. rewrite <- (i_cnt _ _ _ _ _ I). unfold tickets. now rewrite map_length.
Qed.
Print Assumptions C50_slots_used_any_reset.

Theorem C50_no_write_outside_any_reset :
  forall M cap as_ i c, no_wrap M as_ -> let s := run M as_ (start cap) in
  nth_error (calls s) i = Some c ->
  match at_ c with Write _ | Open => index c < length (logs s) | _ => True end.
Proof.
  intros M cap as_ i c NW s Hi. pose proof (any_inv M cap as_ NW) as I. fold s in I. rewrite (i_len _ _ _ _ _ I).
  destruct (at_ c) eqn:Ea; auto.
  - eapply i_write; eauto.
  - eapply i_open; eauto.
Qed.
Print Assumptions C50_no_write_outside_any_reset.

(** ** C52, slot by slot: an entry recorded since the last reset is intact if no trace held its slot at any reset,
    whatever the traces with other slots did. *)
Theorem C52_slot_partial :
  forall M cap as_ i c, no_wrap M as_ -> let s := run M as_ (start cap) in
  nth_error (calls s) i = Some c -> has_slot s c = true -> returned c ->
  clear_resets M cap (index c) as_ ->
  exists l, nth_error (logs s) (index c) = Some l /\ describes l c.
Proof.
  intros M cap as_ i c NW s Hi Hs Hr Hc.
  pose proof (run_inv (fun k => k = index c) M cap as_ NW) as I. fold s in I.
  assert (I' : sinv (fun k => k = index c) M cap (length as_) s) by (apply I; now intros k ->). clear I. rename I' into I.
  unfold has_slot in Hs. apply andb_true_iff in Hs as [Tk Hs]. apply Nat.ltb_lt in Hs.
  destruct (nth_error (logs s) (index c)) as [l|] eqn:El; [|apply nth_error_None in El; lia].
  exists l. split; [reflexivity|]. pose proof (i_prog _ _ _ _ _ I i c l Hi eq_refl Tk El) as P.
  unfold progress in P. unfold returned in Hr. unfold describes. destruct (at_ c) eqn:Ea; try contradiction.
  - split; [exact P|discriminate].
  - exfalso. pose proof (i_null _ _ _ _ _ I i c Hi Ea). rewrite (i_len _ _ _ _ _ I) in Hs. lia.
  - split; [intros; apply P|intros _; apply P].
Qed.
Print Assumptions C52_slot_partial.

(** ** ... and otherwise it need not be: every scope open at a reset can ruin a later entry *)
Lemma run_app M a b s : run M (a ++ b) s = run M b (run M a s).
Proof. apply fold_left_app. Qed.
Lemma nth_len {A} (l : list A) x : nth_error (l ++ [x]) (length l) = Some x.
Proof. rewrite nth_error_app2, Nat.sub_diag by lia. reflexivity. Qed.
Lemma upd_len {A} (l : list A) x y : upd (l ++ [x]) (length l) y = l ++ [y].
Proof. induction l as [|z l IH]; cbn; [reflexivity|]. now rewrite IH. Qed.

(** n calls that take a ticket and are not scheduled again *)
Fixpoint takes (n first : nat) : list action :=
  match n with 0 => [] | S n' => takes n' first ++ [Trace 0 0 0 0; Step (first + n') 0] end.
Lemma takes_no_reset n first : ~ In Reset (takes n first).
Proof. induction n as [|n IH]; cbn; [tauto|]. intros H. apply in_app_or in H as [H|[H|[H|[]]]]; [now apply IH|discriminate H|discriminate H]. Qed.
Lemma takes_run M n s : count s + n < M ->
  exists extra, length extra = n /\ run M (takes n (length (calls s))) s = State (logs s) (count s + n) (calls s ++ extra) (resets s).
Proof.
  induction n as [|n IH]; intros L.
  - exists []. split; [reflexivity|]. cbn [takes]. rewrite app_nil_r, Nat.add_0_r. now destruct s.
  - destruct IH as (extra & Le & E); [lia|]. cbn [takes]. rewrite run_app, E. unfold run. cbn [fold_left act logs count calls resets].
    rewrite <- Le, <- app_length.
    rewrite nth_len. cbn [at_]. rewrite upd_len. rewrite Nat.mod_small by lia.
    eexists (extra ++ [_]). split; [rewrite app_length; cbn; lia|]. rewrite <- app_assoc. f_equal. lia.
Qed.
(** One complete call *)
Definition whole (j : nat) : list action := Trace 0 0 0 0 :: repeat (Step j 0) 8.
Lemma whole_no_reset j : ~ In Reset (whole j).
Proof. intros [H|H]; [discriminate H|]. apply repeat_spec in H. discriminate H. Qed.
Lemma run_cons M a r s : run M (a :: r) s = run M r (act M a s). Proof. reflexivity. Qed.
Lemma whole_run M s : count s + 1 < M -> count s < length (logs s) ->
  exists ls d, run M (whole (length (calls s))) s = State ls (S (count s)) (calls s ++ [d]) (resets s) /\ length ls = length (logs s) /\
    at_ d = Closed /\ index d = count s /\ era d = resets s /\ args d FDuration = 0%Z.
Proof.
  intros LM Ll. unfold whole. cbn [repeat].
  set (j := length (calls s)).
  assert (G : forall ls : list log, length ls = length (logs s) -> exists l, nth_error ls (count s) = Some l).
  { intros ls E. destruct (nth_error ls (count s)) eqn:El; [eauto|]. apply nth_error_None in El. lia. }
  assert (W : forall k f a ls, nth_error write_order k = Some f -> length ls = length (logs s) ->
     exists ls', length ls' = length (logs s) /\
       act M (Step j 0) (State ls (S (count s)) (calls s ++ [Call a (Write k) (count s) (resets s)]) (resets s))
       = State ls' (S (count s)) (calls s ++ [Call a (if Nat.eqb (S k) 5 then Open else Write (S k)) (count s) (resets s)]) (resets s)).
  { intros k f a ls0 Ef El. destruct (G ls0 El) as [l Hl]. cbn [act logs count calls resets]. unfold j. rewrite nth_len. cbn [at_ index args]. rewrite Ef, Hl, upd_len.
    eexists. split; [|reflexivity]. now rewrite upd_length. }
  rewrite run_cons. cbn [act].
  match goal with |- context [Call ?a Begin 0 0] => set (a0 := a) end.
  assert (A0 : a0 FDuration = 0%Z) by reflexivity. clearbody a0.
  rewrite run_cons.
  assert (S1 : act M (Step j 0) (State (logs s) (count s) (calls s ++ [Call a0 Begin 0 0]) (resets s))
    = State (logs s) (S (count s)) (calls s ++ [Call a0 Fetched (count s) (resets s)]) (resets s)).
  { cbn [act logs count calls resets]. unfold j. rewrite nth_len. cbn [at_ args]. now rewrite upd_len, Nat.mod_small by lia. }
  rewrite S1. clear S1. rewrite run_cons.
  assert (S2 : act M (Step j 0) (State (logs s) (S (count s)) (calls s ++ [Call a0 Fetched (count s) (resets s)]) (resets s))
    = State (logs s) (S (count s)) (calls s ++ [Call (set_field FStart 0 a0) (Write 0) (count s) (resets s)]) (resets s)).
  { cbn [act logs count calls resets]. unfold j. rewrite nth_len. cbn [at_ args index era]. now rewrite (proj2 (Nat.leb_gt _ _) Ll), upd_len. }
  rewrite S2. clear S2.
  destruct (W 0 FName (set_field FStart 0 a0) (logs s) eq_refl eq_refl) as (l1 & L1 & E1).
  rewrite run_cons, E1. clear E1. change (Nat.eqb 1 5) with false. cbn iota.
  destruct (W 1 FInstance (set_field FStart 0 a0) l1 eq_refl L1) as (l2 & L2 & E2).
  rewrite run_cons, E2. clear E2. change (Nat.eqb 2 5) with false. cbn iota.
  destruct (W 2 FFlops (set_field FStart 0 a0) l2 eq_refl L2) as (l3 & L3 & E3).
  rewrite run_cons, E3. clear E3. change (Nat.eqb 3 5) with false. cbn iota.
  destruct (W 3 FStart (set_field FStart 0 a0) l3 eq_refl L3) as (l4 & L4 & E4).
  rewrite run_cons, E4. clear E4. change (Nat.eqb 4 5) with false. cbn iota.
  destruct (W 4 FThread (set_field FStart 0 a0) l4 eq_refl L4) as (l5 & L5 & E5).
  rewrite run_cons, E5. clear E5. change (Nat.eqb 5 5) with true. cbn iota.
  destruct (G l5 L5) as [l Hl]. rewrite run_cons. cbn [act logs count calls resets]. unfold j. rewrite nth_len. cbn [at_ index args era]. rewrite Hl, upd_len.
  eexists _, _. split; [reflexivity|]. split; [now rewrite upd_length|]. split; [reflexivity|]. split; [reflexivity|]. split; reflexivity.
Qed.

(** A call that holds a slot gets to the point where its scope is open *)
Definition holds_slot (cap : nat) (c : call) : Prop :=
  index c < cap /\ match at_ c with Fetched | Write _ | Open => True | _ => False end.
Lemma reach_open M s i c : nth_error (calls s) i = Some c -> holds_slot (length (logs s)) c -> (forall k, at_ c = Write k -> k < 5) ->
  exists n ls c', run M (repeat (Step i 0) n) s = State ls (count s) (upd (calls s) i c') (resets s) /\
    length ls = length (logs s) /\ at_ c' = Open /\ index c' = index c /\ era c' = era c.
Proof.
  intros Hi [Hc Hp] Hk.
  assert (Open_ : forall s c, nth_error (calls s) i = Some c -> at_ c = Open ->
    exists n ls c', run M (repeat (Step i 0) n) s = State ls (count s) (upd (calls s) i c') (resets s) /\
      length ls = length (logs s) /\ at_ c' = Open /\ index c' = index c /\ era c' = era c).
  { clear. intros s c Hi Ea. exists 0, (logs s), c. split; [|auto]. cbn. destruct s as [ls n cs r]. cbn [logs count calls resets] in *. f_equal.
    clear - Hi. revert i Hi. induction cs as [|x cs IH]; intros [|i]; cbn; try discriminate; [now intros [= ->]|]. intros H. f_equal. now apply IH. }
  assert (Writes : forall m k s c, m + k = 5 -> nth_error (calls s) i = Some c -> index c < length (logs s) -> k < 5 -> at_ c = Write k ->
    exists n ls c', run M (repeat (Step i 0) n) s = State ls (count s) (upd (calls s) i c') (resets s) /\
      length ls = length (logs s) /\ at_ c' = Open /\ index c' = index c /\ era c' = era c).
  { clear - Open_. induction m as [|m IH]; intros k s c Em Hi Hc Lk Ea; [lia|].
    assert (Li : i < length (calls s)) by (apply nth_error_Some; congruence).
    destruct (nth_error write_order k) as [f|] eqn:Ef; [|apply nth_error_None in Ef; cbn in Ef; lia].
    destruct (nth_error (logs s) (index c)) as [l|] eqn:El; [|apply nth_error_None in El; lia].
    assert (St : act M (Step i 0) s = State (upd (logs s) (index c) (set_field f (args c f) l)) (count s)
       (upd (calls s) i (with_pc c (if Nat.eqb (S k) 5 then Open else Write (S k)))) (resets s)).
    { cbn [act]. rewrite Hi, Ea, Ef, El. reflexivity. }
    set (c1 := with_pc c _) in St. set (s1 := State _ _ _ _) in St.
    assert (H1 : nth_error (calls s1) i = Some c1) by (unfold s1; cbn [calls]; now rewrite upd_same).
    assert (Ex : exists n ls c', run M (repeat (Step i 0) n) s1 = State ls (count s1) (upd (calls s1) i c') (resets s1) /\
      length ls = length (logs s1) /\ at_ c' = Open /\ index c' = index c1 /\ era c' = era c1).
    { destruct (Nat.eqb_spec (S k) 5) as [E5|N5].
      - apply (Open_ s1 c1 H1). reflexivity.
      - apply (IH (S k) s1 c1); auto; try lia. unfold s1, c1; cbn [logs index with_pc]. now rewrite upd_length. }
    destruct Ex as (n & ls & c' & R & A & B & C & D). exists (S n), ls, c'.
    split; [|split; [rewrite A; unfold s1; cbn [logs]; apply upd_length|auto]].
    cbn [repeat]. unfold run in *. cbn [fold_left]. rewrite St. rewrite R. unfold s1; cbn [count calls resets]. f_equal.
    clear. revert i. induction (calls s) as [|x l IH]; intros [|i]; cbn; auto. now rewrite IH. }
  destruct (at_ c) as [| |k| | |] eqn:Ea; try destruct Hp.
  - assert (Li : i < length (calls s)) by (apply nth_error_Some; congruence).
    assert (St : act M (Step i 0) s = State (logs s) (count s) (upd (calls s) i (Call (set_field FStart 0 (args c)) (Write 0) (index c) (era c))) (resets s)).
    { cbn [act]. rewrite Hi, Ea, (proj2 (Nat.leb_gt _ _) Hc). reflexivity. }
    set (c1 := Call _ _ _ _) in St. set (s1 := State _ _ _ _) in St.
    assert (H1 : nth_error (calls s1) i = Some c1) by (unfold s1; cbn [calls]; now rewrite upd_same).
    destruct (Writes 5 0 s1 c1 eq_refl H1 Hc ltac:(lia) eq_refl) as (n & ls & c' & R & A & B & C & D). exists (S n), ls, c'.
    split; [|auto]. cbn [repeat]. unfold run in *. cbn [fold_left]. rewrite St, R. unfold s1; cbn [count calls resets]. f_equal.
    clear. revert i. induction (calls s) as [|x l IH]; intros [|i]; cbn; auto. now rewrite IH.
  - destruct (Writes (5 - k) k s c ltac:(pose proof (Hk k eq_refl); lia) Hi Hc (Hk k eq_refl) Ea) as (n & ls & c' & R). eauto.
  - now apply Open_.
Qed.

(** Whenever some trace holds a slot when reset() is called, the program can go on so that it ruins the entry of a trace
    that is begun and ended after the reset. *)
Theorem C52_scope_across_reset_refuted :
  forall M cap as_ i c, no_wrap M as_ -> let s := run M as_ (start cap) in
  nth_error (calls s) i = Some c -> holds_slot cap c -> index c + 1 < M ->
  exists more j d l, let s' := run M (as_ ++ Reset :: more) (start cap) in
    ~ In Reset more /\ length (calls s) <= j /\ nth_error (calls s') j = Some d /\ has_slot s' d = true /\ index d = index c /\ at_ d = Closed /\
    nth_error (logs s') (index d) = Some l /\ l FDuration <> args d FDuration /\ ~ describes l d.
Proof.
  intros M cap as_ i c NW s Hi Hc LM.
  pose proof (any_inv M cap as_ NW) as I. fold s in I. pose proof (i_len _ _ _ _ _ I) as Len.
  set (s0 := State (logs s) 0 (calls s) (S (resets s))).
  assert (Li : i < length (calls s)) by (apply nth_error_Some; congruence).
  destruct (reach_open M s0 i c Hi) as (n & ls1 & c1 & R1 & Ln1 & Oc & Ic & Ec).
  { unfold s0; cbn [logs]. now rewrite Len. }
  { intros k Ek. eapply i_write; eauto. }
  unfold s0 in R1, Ln1; cbn [count calls logs resets] in R1, Ln1. fold s0 in R1.
  set (s1 := State ls1 0 (upd (calls s) i c1) (S (resets s))) in R1.
  assert (Lc1 : length (calls s1) = length (calls s)) by (unfold s1; cbn [calls]; apply upd_length).
  destruct Hc as [Hc _].
  destruct (takes_run M (index c) s1) as (extra & Le & R2); [unfold s1; cbn [count]; lia|].
  unfold s1 in R2 at 3 4 5 6; cbn [count calls logs resets plus] in R2. rewrite Lc1 in R2.
  set (s2 := State ls1 (index c) (upd (calls s) i c1 ++ extra) (S (resets s))) in R2.
  destruct (whole_run M s2) as (ls3 & d & R3 & Ln3 & Cd & Id & Ed & Dd); [unfold s2; cbn [count]; lia|unfold s2; cbn [count logs]; lia|].
  assert (Lc2 : length (calls s2) = length (calls s) + index c) by (unfold s2; cbn [calls]; rewrite app_length, upd_length; lia).
  rewrite Lc2 in R3. unfold s2 in R3 at 2 3 4; cbn [count calls resets] in R3.
  set (s3 := State ls3 (S (index c)) ((upd (calls s) i c1 ++ extra) ++ [d]) (S (resets s))) in R3.
  assert (H3 : nth_error (calls s3) i = Some c1).
  { unfold s3; cbn [calls]. rewrite <- app_assoc, nth_error_app1 by (now rewrite upd_length). now apply upd_same. }
  unfold s2 in Ln3; cbn [logs] in Ln3.
  destruct (nth_error ls3 (index c)) as [l3|] eqn:E3; [|apply nth_error_None in E3; lia].
  set (now := (args c1 FStart + 1)%Z).
  exists (repeat (Step i 0) n ++ takes (index c) (length (calls s)) ++ whole (length (calls s) + index c) ++ [Step i now]).
  exists (length (calls s) + index c), d, (set_field FDuration 1 l3).
  assert (R : run M (as_ ++ Reset :: repeat (Step i 0) n ++ takes (index c) (length (calls s)) ++ whole (length (calls s) + index c) ++ [Step i now]) (start cap)
    = State (upd ls3 (index c) (set_field FDuration 1 l3)) (S (index c)) (upd (calls s3) i (Call (set_field FDuration 1 (args c1)) Closed (index c1) (era c1))) (S (resets s))).
  { rewrite run_app. fold s. change (Reset :: ?r) with ([Reset] ++ r). rewrite run_app. change (run M [Reset] s) with s0.
    rewrite !run_app, R1, R2, R3. unfold run. cbn [fold_left act]. rewrite H3, Oc. unfold s3 at 1; cbn [logs]. rewrite Ic, E3.
    replace (now - args c1 FStart)%Z with 1%Z by (unfold now; lia). reflexivity. }
  cbv zeta. rewrite R. unfold s3; cbn [calls].
  split; [|split; [lia|split; [|split; [|split; [|split; [exact Cd|split; [|split]]]]]]].
  - intros H. apply in_app_or in H as [H|H]; [apply repeat_spec in H; discriminate H|].
    apply in_app_or in H as [H|H]; [now apply takes_no_reset in H|].
    apply in_app_or in H as [H|[H|[]]]; [now apply whole_no_reset in H|discriminate H].
  - rewrite upd_other by lia. rewrite nth_error_app2; rewrite app_length, upd_length; [|lia].
    replace (length (calls s) + index c - (length (calls s) + length extra)) with 0 by lia. reflexivity.
  - unfold has_slot, ticketed. rewrite Cd, Ed, Id. cbn [resets logs]. unfold s2; cbn [resets count]. rewrite Nat.eqb_refl, upd_length. cbn [andb]. apply Nat.ltb_lt. lia.
  - rewrite Id. reflexivity.
  - rewrite Id. unfold s2; cbn [count logs]. apply upd_same. lia.
  - rewrite set_same, Dd. discriminate.
  - intros [_ D]. specialize (D Cd). rewrite set_same, Dd in D. discriminate D.
Qed.
Print Assumptions C52_scope_across_reset_refuted.

(** ** C51: what get_logs() returns at any moment *)
(** Call [c] has executed its write of field [f] (lines 155-159 in this order; the duration when the scope ends). *)
Definition has_written (c : call) (f : field) : bool :=
  match at_ c with
  | Begin | Fetched | OpenNull => false
  | Write k => match f with FName => Nat.ltb 0 k | FInstance => Nat.ltb 1 k | FFlops => Nat.ltb 2 k | FStart => Nat.ltb 3 k | FThread => Nat.ltb 4 k | FDuration => false end
  | Open => match f with FDuration => false | _ => true end
  | Closed => true
  end.
Definition fresh (s : state) : Prop := forall j l f, nth_error (logs s) j = Some l ->
  (forall i c, nth_error (calls s) i = Some c -> at_ c <> Begin -> index c = j -> has_written c f = false) -> l f = 0%Z.
Lemma fresh_advance s i c c' ls : fresh s -> nth_error (calls s) i = Some c -> at_ c' <> Begin ->
  (at_ c <> Begin -> index c' = index c) -> (forall f, has_written c' f = false -> has_written c f = false) ->
  (forall j l f, nth_error ls j = Some l -> exists l0, nth_error (logs s) j = Some l0 /\ (l f = l0 f \/ (j = index c' /\ has_written c' f = true))) ->
  forall n r, fresh (State ls n (upd (calls s) i c') r).
Proof.
  intros F Hi Nb Ei Hw Hl n r j l f Hj H. cbn [logs calls] in *.
  assert (Li : i < length (calls s)) by (apply nth_error_Some; congruence).
  destruct (Hl j l f Hj) as (l0 & H0 & [->|[-> Hc]]).
  - apply (F j l0 f H0). intros i' d Hd Nd Ed. destruct (Nat.eq_dec i' i) as [->|N].
    + rewrite Hi in Hd. injection Hd as <-. apply Hw. apply (H i c'); [now apply upd_same|exact Nb|]. rewrite Ei; auto.
    + apply (H i' d); auto. now rewrite upd_other by auto.
  - rewrite (H i c') in Hc; auto; [discriminate|now apply upd_same].
Qed.
Lemma fresh_act M a s : a <> Reset -> fresh s -> fresh (act M a s).
Proof.
  intros Na F. destruct a as [nm ins fl th|i now|]; [| |now elim Na].
  - intros j l f Hj H. apply (F j l f Hj). intros i c Hi. apply (H i c). cbn [act calls]. rewrite nth_error_app1; [exact Hi|]. apply nth_error_Some. congruence.
  - cbn [act]. destruct (nth_error (calls s) i) as [c|] eqn:Hi; [|exact F].
    assert (Same : forall c', forall j l f, nth_error (logs s) j = Some l -> exists l0, nth_error (logs s) j = Some l0 /\ (l f = l0 f \/ (j = index c' /\ has_written c' f = true))) by (intros; eauto).
    destruct (at_ c) as [| |k| | |] eqn:Ea.
    + apply (fresh_advance s i c); auto; [discriminate|intros H; now elim H|]. intros f _. unfold has_written. now rewrite Ea.
    + destruct (Nat.leb _ _); (apply (fresh_advance s i c); auto; [discriminate|]; intros f _; unfold has_written; now rewrite Ea).
    + destruct (nth_error write_order k) as [g|] eqn:Eg; [|exact F]. destruct (nth_error (logs s) (index c)) as [lc|] eqn:El; [|exact F].
      assert (Lk : k < 5) by (change 5 with (length write_order); apply nth_error_Some; congruence).
      apply (fresh_advance s i c); auto.
      * cbn. destruct (Nat.eqb (S k) 5); discriminate.
      * intros f. unfold has_written, with_pc; cbn [at_]. rewrite Ea. change (length write_order) with 5.
        destruct (Nat.eqb_spec (S k) 5) as [E5|N5]; [destruct f; congruence|].
        destruct f; auto; rewrite !Nat.ltb_ge; lia.
      * intros j l f Hj. destruct (Nat.eq_dec j (index c)) as [->|N].
        -- rewrite upd_same in Hj by (apply nth_error_Some; intros X; discriminate (eq_trans (eq_sym El) X)). injection Hj as <-. exists lc. split; [exact El|].
           destruct (field_eqb g f) eqn:Ef; [|left; unfold set_field; now rewrite Ef]. right. split; [reflexivity|].
           apply field_eqb_eq in Ef as ->. unfold has_written, with_pc; cbn [at_].
           destruct k as [|[|[|[|[|k]]]]]; cbn [nth_error write_order] in Eg; try (injection Eg as <-; reflexivity). destruct k; discriminate Eg.
        -- rewrite upd_other in Hj by auto. eauto.
    + destruct (nth_error (logs s) (index c)) as [lc|] eqn:El; [|exact F].
      apply (fresh_advance s i c); auto; [discriminate|intros f H; discriminate H|].
      intros j l f Hj. destruct (Nat.eq_dec j (index c)) as [->|N].
      * rewrite upd_same in Hj by (apply nth_error_Some; intros X; discriminate (eq_trans (eq_sym El) X)). injection Hj as <-. exists lc. split; [exact El|]. right. split; reflexivity.
      * rewrite upd_other in Hj by auto. eauto.
    + apply (fresh_advance s i c); auto; [discriminate|]. intros f H; discriminate H.
    + exact F.
Qed.
Lemma fresh_run M cap as_ : ~ In Reset as_ -> fresh (run M as_ (start cap)).
Proof.
  induction as_ as [|a as_ IH] using rev_ind; intros N.
  - intros j l f Hj _. cbn in Hj. apply nth_error_In, repeat_spec in Hj. now subst.
  - rewrite run_app. apply fresh_act.
    + intros ->. apply N. apply in_or_app. right. now left.
    + apply IH. intros H. apply N. apply in_or_app. now left.
Qed.
Lemma no_reset_eras M cap as_ : ~ In Reset as_ -> resets (run M as_ (start cap)) = 0 /\
  forall i c, nth_error (calls (run M as_ (start cap))) i = Some c -> at_ c <> Begin -> era c = 0.
Proof.
  intros N. split.
  - induction as_ as [|a as_ IH] using rev_ind; [reflexivity|]. rewrite run_app. cbn [run fold_left].
    assert (IH' : resets (run M as_ (start cap)) = 0) by (apply IH; intros H; apply N; apply in_or_app; now left). clear IH.
    destruct a as [nm ins fl th|i now|]; cbn [run fold_left act]; [exact IH'| |elim N; apply in_or_app; right; now left].
    destruct (nth_error _ i) as [c|]; [|exact IH']. destruct (at_ c); try exact IH'.
    + destruct (Nat.leb _ _); exact IH'.
    + destruct (nth_error write_order k); [|exact IH']. destruct (nth_error (logs _) _); exact IH'.
    + destruct (nth_error (logs _) _); exact IH'.
  - induction as_ as [|a as_ IH] using rev_ind; intros i c Hi Nb; [destruct i; discriminate Hi|]. rewrite run_app in Hi. cbn [run fold_left] in Hi.
    assert (N' : ~ In Reset as_) by (intros H; apply N; apply in_or_app; now left).
    specialize (IH N'). set (s := run M as_ (start cap)) in *.
    assert (R0 : resets s = 0).
    { clear - N'. unfold s. clear s. induction as_ as [|a as_ IH] using rev_ind; [reflexivity|]. rewrite run_app. cbn [run fold_left].
      assert (IH' : resets (run M as_ (start cap)) = 0) by (apply IH; intros H; apply N'; apply in_or_app; now left). clear IH.
      destruct a as [nm ins fl th|i now|]; cbn [run fold_left act]; [exact IH'| |elim N'; apply in_or_app; right; now left].
      destruct (nth_error _ i) as [c|]; [|exact IH']. destruct (at_ c); try exact IH'.
      + destruct (Nat.leb _ _); exact IH'.
      + destruct (nth_error write_order k); [|exact IH']. destruct (nth_error (logs _) _); exact IH'.
      + destruct (nth_error (logs _) _); exact IH'. }
    assert (U : forall i0 c0 c', nth_error (calls s) i0 = Some c0 -> (at_ c' <> Begin -> era c' = 0) -> nth_error (upd (calls s) i0 c') i = Some c -> era c = 0).
    { intros i0 c0 c' H0 Hc'. rewrite nth_error_upd. destruct (Nat.eqb_spec i0 i) as [->|Ne].
      - destruct (Nat.ltb i (length (calls s))); [|discriminate]. intros [= <-]. now apply Hc'.
      - intros H. now apply (IH i c). }
    destruct a as [nm ins fl th|i0 now|]; cbn [act calls] in Hi; [| |elim N; apply in_or_app; right; now left].
    + destruct (Nat.lt_ge_cases i (length (calls s))) as [Lt|Ge].
      * rewrite nth_error_app1 in Hi by exact Lt. now apply (IH i c).
      * rewrite nth_error_app2 in Hi by exact Ge. destruct (i - length (calls s)) as [|k]; cbn in Hi; [injection Hi as <-; now elim Nb|destruct k; discriminate Hi].
    + destruct (nth_error (calls s) i0) as [c0|] eqn:H0; [|now apply (IH i c)].
      destruct (at_ c0) as [| |k| | |] eqn:Ea.
      * apply (U i0 c0 _ H0) in Hi; auto.
      * destruct (Nat.leb _ _); apply (U i0 c0 _ H0) in Hi; auto; intros _; cbn; apply (IH i0 c0 H0); congruence.
      * destruct (nth_error write_order k); [|now apply (IH i c)]. destruct (nth_error (logs s) _); [|now apply (IH i c)].
        apply (U i0 c0 _ H0) in Hi; auto. intros _; cbn. apply (IH i0 c0 H0). congruence.
      * destruct (nth_error (logs s) _); [|now apply (IH i c)].
        apply (U i0 c0 _ H0) in Hi; auto. intros _; cbn. apply (IH i0 c0 H0). congruence.
      * apply (U i0 c0 _ H0) in Hi; auto. intros _; cbn. apply (IH i0 c0 H0). congruence.
      * now apply (IH i c).
Qed.

(** Without resets, at every moment of every interleaving: entry k returned by get_logs() belongs to one trace() call, and
    each field holds that call's value if the call has executed the write of the field, and its initial value if not. In
    particular the entry is complete if and only if the call has returned. *)
Theorem C51_exact :
  forall M cap as_, no_wrap M as_ -> ~ In Reset as_ -> let s := run M as_ (start cap) in
  forall k l, nth_error (get_logs s) k = Some l ->
  exists i c, nth_error (calls s) i = Some c /\ at_ c <> Begin /\ index c = k /\
    (forall f, l f = if has_written c f then args c f else 0%Z) /\
    ((forall f, f <> FDuration -> has_written c f = true) <-> returned c).
Proof.
  intros M cap as_ NW NR s k l Hk.
  assert (I : sinv (fun _ => True) M cap (length as_) s).
  { apply run_inv; [exact NW|]. intros k0 _ pre post E. elim NR. rewrite E. apply in_or_app. right. now left. }
  pose proof (fresh_run M cap as_ NR) as Fr. fold s in Fr.
  pose proof (no_reset_eras M cap as_ NR) as [R0 Er]. fold s in R0, Er.
  unfold get_logs in Hk.
  assert (Lk : k < Nat.min (length (logs s)) (count s)).
  { assert (K : k < length (firstn (Nat.min (length (logs s)) (count s)) (logs s))) by (apply nth_error_Some; congruence).
    rewrite firstn_length in K. lia. }
  assert (Hl : nth_error (logs s) k = Some l).
  { rewrite <- (firstn_skipn (Nat.min (length (logs s)) (count s)) (logs s)). rewrite nth_error_app1; [exact Hk|]. apply nth_error_Some. congruence. }
  assert (Ht : In k (tickets s)).
  { apply (Permutation_in _ (Permutation_sym (tickets_perm_any M cap as_ NW))). apply in_seq. fold s. lia. }
  unfold tickets in Ht. apply in_map_iff in Ht as (c & Ec & Hc). apply filter_In in Hc as [Hc Tk].
  apply In_nth_error in Hc as [i Hi]. exists i, c.
  assert (Nb : at_ c <> Begin) by (intros E; unfold ticketed in Tk; rewrite E in Tk; discriminate Tk).
  split; [exact Hi|]. split; [exact Nb|]. split; [exact Ec|].
  pose proof (i_prog _ _ _ _ _ I i c l Hi Logic.I Tk) as P. rewrite Ec in P. specialize (P Hl).
  assert (Nn : at_ c <> OpenNull).
  { intros E. pose proof (i_null _ _ _ _ _ I i c Hi E) as K. rewrite Ec, <- (i_len _ _ _ _ _ I) in K. lia. }
  split.
  - intros f. destruct (has_written c f) eqn:Hw.
    + unfold has_written in Hw. unfold progress in P. destruct (at_ c) as [| |m| | |] eqn:Ea; try discriminate Hw.
      * destruct f; try discriminate Hw; apply Nat.ltb_lt in Hw; [apply (P 0)|apply (P 1)|apply (P 3)|apply (P 4)|apply (P 2)]; auto.
      * apply P. intros ->. discriminate Hw.
      * apply P.
    + apply (Fr k l f Hl). intros i' d Hd Nd Ed.
      assert (i' = i).
      { eapply tickets_inj; [apply (i_nodup _ _ _ _ _ I)| | | | |]; eauto; [|congruence]. unfold ticketed. rewrite (Er i' d Hd Nd), R0. destruct (at_ d); auto; congruence. }
      subst i'. rewrite Hi in Hd. now injection Hd as <-.
  - unfold returned, has_written. split.
    + intros H. destruct (at_ c) as [| |m| | |] eqn:Ea; auto; try (specialize (H FName ltac:(discriminate)); discriminate H).
      specialize (H FThread ltac:(discriminate)). apply Nat.ltb_lt in H. destruct (i_write _ _ _ _ _ I i c m Hi Ea). lia.
    + intros R f Nf. destruct (at_ c); try destruct R; try congruence. now destruct f.
Qed.
Print Assumptions C51_exact.

(** get_logs() in the middle of the second write of one of two calls. *)
Example C51_exact_nonvacuous :
  let as_ := [Trace 1 10 (-1) 5; Trace 2 20 (-1) 6; Step 0 0; Step 1 0; Step 1 100; Step 0 101; Step 1 0] in
  no_wrap 50 as_ /\ ~ In Reset as_ /\ map at_ (calls (run 50 as_ (start 3))) = [Write 0; Write 1] /\
  map (fun l => (l FName, l FInstance)) (get_logs (run 50 as_ (start 3))) = [(0, 0); (2, 0)]%Z.
Proof.
  cbv zeta. split; [unfold no_wrap; cbn [length]; lia|]. split; [cbn; intuition discriminate|]. split; vm_compute; reflexivity.
Qed.
(** Two scopes open at a reset: slot 0 was clear (its scope had ended), slot 1 was not. *)
Example C52_slots_nonvacuous :
  let whole i a b := Step i 0 :: Step i a :: repeat (Step i 0) 5 ++ (match b with Some e => [Step i e] | None => [] end) in
  let pre := Trace 1 1 1 1 :: whole 0 10%Z (Some 20%Z) ++ Trace 2 2 2 2 :: whole 1 30%Z None in
  let post := Trace 3 3 3 3 :: whole 2 40%Z (Some 45%Z) in
  clear 0 (run 50 pre (start 2)) /\ (exists c, nth_error (calls (run 50 pre (start 2))) 1 = Some c /\ holds_slot 2 c /\ index c = 1) /\
  exists c, nth_error (calls (run 50 (pre ++ Reset :: post) (start 2))) 2 = Some c /\ index c = 0 /\
    has_slot (run 50 (pre ++ Reset :: post) (start 2)) c = true /\ returned c.
Proof.
  cbv zeta. split; [|split].
  - intros [|[|i]] c Hc Ic; vm_compute in Hc; [injection Hc as <-; exact Logic.I|injection Hc as <-; discriminate Ic|destruct i; discriminate Hc].
  - eexists. split; [vm_compute; reflexivity|]. split; [split; [cbn; lia|exact Logic.I]|reflexivity].
  - eexists. split; [vm_compute; reflexivity|]. repeat split.
Qed.
