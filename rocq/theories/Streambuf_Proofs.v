(** Proofs about callback_streambuf. *)
From Verif Require Import Base Streambuf_Spec Streambuf_Model.
Local Arguments Nat.eqb : simpl never.
Local Arguments Nat.ltb : simpl never.
Local Arguments Nat.leb : simpl never.
Local Arguments Nat.sub : simpl never.

Lemma find_if_le f l : find_if f l <= length l.
Proof. induction l as [|x l IH]; simpl; [lia|]. destruct (f x); lia. Qed.

Lemma remainder_le r : utf8_remainder r <= 3.
Proof.
  unfold utf8_remainder. set (k := find_if _ _).
  repeat match goal with |- context [if ?b then _ else _] => destruct b eqn:? end;
  repeat match goal with H : Nat.eqb _ _ = true |- _ => apply Nat.eqb_eq in H end; lia.
Qed.

Lemma remainder_le_len r : r <> [] -> utf8_remainder r <= length r.
Proof.
  intros N. unfold utf8_remainder. set (k := find_if _ _).
  assert (K : k <= length r) by (unfold k; etransitivity; [apply find_if_le|rewrite firstn_length; lia]).
  destruct r as [|x r]; [congruence|]. cbn [length] in *.
  repeat match goal with |- context [if ?b then _ else _] => destruct b eqn:? end;
  repeat match goal with H : Nat.eqb _ _ = true |- _ => apply Nat.eqb_eq in H
                       | H : Nat.eqb _ _ = false |- _ => apply Nat.eqb_neq in H end; lia.
Qed.

Definition delivered (s : sb) : list Z := concat (out s).

(** Invariant: pptr() within the storage. *)
Definition inv (s : sb) : Prop := pp s <= length (mem s).

Lemma buffered_length s : inv s -> length (buffered s) = pp s.
Proof. unfold inv, buffered. rewrite firstn_length. lia. Qed.

(** _sync in terms of what is buffered and delivered. *)
Lemma sync_spec s : inv s -> let s' := sync_ s in
  inv s' /\ cap s' = cap s /\ length (mem s') = length (mem s) /\
  (buffered s = [] -> s' = s) /\
  (buffered s <> [] ->
   let n := length (buffered s) - utf8_remainder (rev (buffered s)) in
   buffered s' = skipn n (buffered s) /\
   out s' = out s ++ (if Nat.eqb n 0 then [] else [firstn n (buffered s)])).
Proof.
  intros I. pose proof (buffered_length s I) as BL. unfold inv in I. cbv zeta. unfold sync_.
  destruct (Nat.eqb_spec (pp s) 0) as [E|E].
  { split; [exact I|]. split; [reflexivity|]. split; [reflexivity|]. split; [reflexivity|].
    intros N. exfalso. apply N. unfold buffered. now rewrite E. }
  cbv zeta. fold (buffered s).
  assert (NE : buffered s <> []) by (intros B; rewrite B in BL; cbn in BL; lia).
  assert (RL : utf8_remainder (rev (buffered s)) <= pp s).
  { etransitivity; [apply remainder_le_len|rewrite rev_length; lia].
    intros R. apply NE. rewrite <- (rev_involutive (buffered s)), R. reflexivity. }
  set (r := utf8_remainder (rev (buffered s))) in *.
  assert (ML : length (firstn r (skipn (pp s - r) (mem s))) = r).
  { rewrite firstn_length, skipn_length. lia. }
  assert (ML2 : length (firstn r (skipn (pp s - r) (mem s)) ++ skipn r (mem s)) = length (mem s)).
  { rewrite app_length, ML, skipn_length. lia. }
  split; [|split; [reflexivity|split; [exact ML2|split; [intros; contradiction|]]]].
  { unfold inv. cbn [mem pp]. rewrite ML2. lia. }
  intros _. rewrite BL. split.
  - unfold buffered at 1. cbn [mem pp]. rewrite firstn_app, ML, Nat.sub_diag. cbn [firstn]. rewrite app_nil_r.
    rewrite firstn_all2 by lia. unfold buffered. rewrite skipn_firstn_comm.
    replace (pp s - (pp s - r)) with r by lia. reflexivity.
  - cbn [out]. destruct (Nat.ltb_spec r (pp s)); destruct (Nat.eqb_spec (pp s - r) 0); try lia.
    + unfold buffered. rewrite firstn_firstn. now rewrite Nat.min_l by lia.
    + now rewrite app_nil_r.
Qed.

Lemma sync_keeps s : inv s -> delivered (sync_ s) ++ buffered (sync_ s) = delivered s ++ buffered s.
Proof.
  intros I. destruct (sync_spec s I) as (_ & _ & _ & E & N). unfold delivered.
  destruct (buffered s) as [|x b] eqn:B.
  - rewrite (E eq_refl), B. reflexivity.
  - destruct (N ltac:(discriminate)) as [Hb Ho]. rewrite Hb, Ho, concat_app, <- app_assoc. f_equal.
    set (n := _ - _). destruct (Nat.eqb_spec n 0) as [Z|Z].
    + rewrite Z. reflexivity.
    + cbn [concat]. rewrite app_nil_r. apply firstn_skipn.
Qed.

Lemma sync_pp s : inv s -> pp (sync_ s) <= 3.
Proof.
  intros I. unfold sync_. destruct (Nat.eqb_spec (pp s) 0); [lia|]. cbn [pp]. apply remainder_le.
Qed.

Lemma firstn_upd {A} (l : list A) i x : i < length l -> firstn (S i) (upd l i x) = firstn i l ++ [x].
Proof.
  revert i; induction l as [|y l IH]; intros [|i] H; cbn [length] in H; try lia; [reflexivity|].
  cbn [upd]. cbn [firstn app]. f_equal. change (match upd l i x with [] => [] | a :: l0 => a :: firstn i l0 end) with (firstn (S i) (upd l i x)).
  apply IH. lia.
Qed.

Lemma store1_ok c s : pp s < length (mem s) ->
  exists s', store1 c s = Ok s' /\ inv s' /\ cap s' = cap s /\ length (mem s') = length (mem s) /\
    pp s' = S (pp s) /\ out s' = out s /\ buffered s' = buffered s ++ [c].
Proof.
  intros H. unfold store1. rewrite (proj2 (Nat.ltb_lt _ _) H). eexists; split; [reflexivity|].
  unfold inv, buffered. cbn [mem cap pp out]. rewrite upd_length, firstn_upd by lia. repeat split; lia.
Qed.

Lemma store_n_ok d s : pp s + length d <= length (mem s) ->
  exists s', store_n d s = Ok s' /\ inv s' /\ cap s' = cap s /\ length (mem s') = length (mem s) /\
    pp s' = pp s + length d /\ out s' = out s /\ buffered s' = buffered s ++ d.
Proof.
  intros H. unfold store_n. rewrite (proj2 (Nat.leb_le _ _) H). eexists; split; [reflexivity|].
  assert (FL : length (firstn (pp s) (mem s)) = pp s) by (rewrite firstn_length; lia).
  unfold inv, buffered. cbn [mem cap pp out]. rewrite !app_length, FL, skipn_length.
  repeat split; try lia.
  rewrite app_assoc, firstn_app, app_length, FL, Nat.sub_diag. cbn [firstn]. rewrite app_nil_r.
  apply firstn_all2. rewrite app_length. lia.
Qed.

(** The state between operations when nothing goes wrong. *)
Record good (N L : nat) (s : sb) : Prop := {
  g_cap : cap s = N; g_len : length (mem s) = L; g_pp : pp s <= N }.

Lemma good_inv N L s : N <= L -> good N L s -> inv s.
Proof. intros H [C M P]. unfold inv. lia. Qed.

Lemma sync_good N L s : 3 <= N -> N <= L -> inv s -> cap s = N -> length (mem s) = L -> good N L (sync_ s).
Proof.
  intros H3 H I C M. destruct (sync_spec s I) as (_ & C' & M' & _). split; [congruence|congruence|].
  pose proof (sync_pp s I). lia.
Qed.

(** What an operation writing [d] may do: get stuck because the storage has no
    room beyond the buffer, or append [d]. *)
Definition appends (N L : nat) (s : sb) (d : list Z) (r : outcome sb) : Prop :=
  (L <= N /\ N < pp s + length d /\ r = UB) \/
  exists s', r = Ok s' /\ good N L s' /\ delivered s' ++ buffered s' = delivered s ++ buffered s ++ d.

Lemma overflow_ok N L c s : 3 <= N -> N <= L -> good N L s -> pp s = N -> appends N L s [c] (overflow c s).
Proof.
  intros H3 H [C M P] PN. destruct (Nat.ltb_spec (pp s) (length (mem s))) as [R|R].
  - right. destruct (store1_ok c s R) as (s1 & E & I1 & C1 & M1 & P1 & O1 & B1).
    unfold overflow. rewrite E. cbn [bind]. eexists; split; [reflexivity|].
    split; [apply sync_good; auto; congruence|].
    rewrite sync_keeps by auto. unfold delivered. now rewrite O1, B1.
  - left. unfold overflow, store1. destruct (Nat.ltb_spec (pp s) (length (mem s))); [lia|]. cbn [length]. split; [lia|]. split; [lia|reflexivity].
Qed.

Lemma xsputn_ok N L : 3 <= N -> N <= L -> forall fuel data s, length data <= fuel -> good N L s ->
  appends N L s data (xsputn fuel data s).
Proof.
  intros H3 HL. induction fuel as [|fuel IH]; intros data s F G.
  { right. destruct data; [|cbn in F; lia]. exists s. cbn. rewrite app_nil_r. auto. }
  destruct data as [|c0 data0]; [right; exists s; cbn; rewrite app_nil_r; auto|].
  set (data := c0 :: data0) in *.
  change (xsputn (S fuel) data s) with (if Nat.ltb (cap s) (pp s) then UB
    else let len := Nat.min (cap s - pp s) (length data) in
      bind (store_n (firstn len data) s) (fun s => match skipn len data with
      | [] => Ok s | c :: rest => bind (overflow c s) (fun s => xsputn fuel rest s) end)).
  pose proof G as [C M P]. destruct (Nat.ltb_spec (cap s) (pp s)); [lia|]. cbv zeta.
  set (len := Nat.min _ _).
  assert (LF : length (firstn len data) = len) by (rewrite firstn_length; lia).
  destruct (store_n_ok (firstn len data) s ltac:(lia)) as (s1 & E & I1 & C1 & M1 & P1 & O1 & B1).
  rewrite E. cbn [bind]. assert (G1 : good N L s1) by (split; lia).
  assert (FS : data = firstn len data ++ skipn len data) by (symmetry; apply firstn_skipn).
  destruct (skipn len data) as [|c rest] eqn:SK.
  - right. exists s1. split; [reflexivity|split; [exact G1|]]. rewrite app_nil_r in FS. unfold delivered. now rewrite O1, B1, <- FS.
  - assert (LR : length data = len + S (length rest)).
    { rewrite FS, app_length, LF. reflexivity. }
    destruct (overflow_ok N L c s1 H3 HL G1 ltac:(lia)) as [(R1 & R2 & R3)|(s2 & E2 & G2 & D2)].
    { left. rewrite R3. split; [exact R1|]. split; [cbn [length] in R2; lia|reflexivity]. }
    rewrite E2. cbn [bind].
    destruct (IH rest s2 ltac:(lia) G2) as [(R1 & R2 & R3)|(s3 & E3 & G3 & D3)].
    { left. rewrite R3. split; [exact R1|]. split; [lia|reflexivity]. }
    right. exists s3. split; [exact E3|split; [exact G3|]].
    rewrite D3, app_assoc, D2. unfold delivered. rewrite O1, B1. rewrite <- !app_assoc.
    cbn [app]. now rewrite <- FS.
Qed.

Lemma step_ok N L o s : 3 <= N -> N <= L -> good N L s -> appends N L s (written1 o) (step o s).
Proof.
  intros H3 H G. pose proof (good_inv N L s H G) as I. destruct o as [c|d|]; cbn [step written1].
  - unfold sputc. pose proof G as [C M P]. destruct (Nat.ltb_spec (pp s) (cap s)).
    + destruct (store1_ok c s ltac:(lia)) as (s1 & E & I1 & C1 & M1 & P1 & O1 & B1).
      right. exists s1. split; [exact E|]. split; [split; lia|]. unfold delivered. now rewrite O1, B1.
    + apply overflow_ok; auto. lia.
  - now apply xsputn_ok.
  - right. eexists; split; [reflexivity|]. destruct G as [C M P]. split; [apply sync_good; auto; lia|].
    rewrite app_nil_r. now apply sync_keeps.
Qed.

Lemma run_defined N L : 3 <= N -> N < L -> forall ops s, good N L s -> exists s', run ops s = Ok s'.
Proof.
  intros H3 H. induction ops as [|o ops IH]; intros s G; [exists s; reflexivity|].
  cbn [run]. destruct (step_ok N L o s H3 ltac:(lia) G) as [(R & _)|(s1 & E1 & G1 & D1)]; [lia|].
  rewrite E1. cbn [bind]. now apply IH.
Qed.

Lemma run_ok N L : 3 <= N -> N <= L -> forall ops s s', good N L s -> run ops s = Ok s' ->
  good N L s' /\ delivered s' ++ buffered s' = delivered s ++ buffered s ++ written ops.
Proof.
  intros H3 H. induction ops as [|o ops IH]; intros s s' G R.
  - injection R as <-. unfold written. cbn. rewrite app_nil_r. auto.
  - cbn [run] in R. destruct (step_ok N L o s H3 H G) as [(_ & _ & U)|(s1 & E1 & G1 & D1)].
    { rewrite U in R. discriminate. }
    rewrite E1 in R. cbn [bind] in R. destruct (IH s1 s' G1 R) as [G2 D2]. split; [exact G2|].
    rewrite D2, app_assoc, D1. unfold written. cbn [map concat]. now rewrite <- !app_assoc.
Qed.

Lemma good_create N slack : good N (N + slack) (create N slack).
Proof. split; cbn; [reflexivity|apply repeat_length|lia]. Qed.

Lemma buffered_create N slack : buffered (create N slack) = [].
Proof. reflexivity. Qed.

(** Enough flushes: pessimistic count of the pending bytes (a flush may leave 3). *)
Fixpoint fits (N pending : nat) (ops : list op) : Prop :=
  match ops with
  | [] => True
  | Flush :: ops => fits N 3 ops
  | o :: ops => pending + length (written1 o) <= N /\ fits N (pending + length (written1 o)) ops
  end.

Lemma appends_pp N L s d s' : N <= L -> good N L s -> pp s + length d <= N ->
  forall o, written1 o = d -> o <> Flush -> step o s = Ok s' -> pp s' <= pp s + length d.
Proof.
  intros H [C M P] B [c|dd|] <- NF R; [| |congruence]; cbn [step written1 length] in *.
  - unfold sputc in R. destruct (Nat.ltb_spec (pp s) (cap s)); [|lia].
    destruct (store1_ok c s ltac:(lia)) as (s1 & E & _ & _ & _ & P1 & _). rewrite E in R. injection R as <-. lia.
  - destruct dd as [|c0 dd]; [injection R as <-; lia|]. remember (c0 :: dd) as data.
    assert (DL : length data = S (length dd)) by (subst; reflexivity).
    assert (R' : (if Nat.ltb (cap s) (pp s) then UB
    else let len := Nat.min (cap s - pp s) (length data) in
      bind (store_n (firstn len data) s) (fun s => match skipn len data with
      | [] => Ok s | c :: rest => bind (overflow c s) (fun s => xsputn (length dd) rest s) end)) = Ok s').
    { rewrite <- R, DL, Heqdata. reflexivity. }
    destruct (Nat.ltb_spec (cap s) (pp s)); [lia|]. cbv zeta in R'.
    rewrite Nat.min_r in R' by lia. rewrite firstn_all, skipn_all in R'.
    destruct (store_n_ok data s ltac:(lia)) as (s1 & E & _ & _ & _ & P1 & _). rewrite E in R'. cbn in R'. injection R' as <-. lia.
Qed.

Lemma run_fits N L : 3 <= N -> N <= L -> forall ops s k, good N L s -> pp s <= k -> fits N k ops ->
  exists s', run ops s = Ok s'.
Proof.
  intros H3 H. induction ops as [|o ops IH]; intros s k G K F; [exists s; reflexivity|].
  pose proof G as [C M P]. cbn [run].
  destruct (step_ok N L o s H3 H G) as [(R1 & R2 & R3)|(s1 & E1 & G1 & D1)].
  { exfalso. destruct o; cbn [fits written1 length] in *; lia. }
  rewrite E1. cbn [bind].
  destruct o as [c|d|].
  - destruct F as [F1 F2]. apply (IH s1 (k + 1)); auto.
    pose proof (appends_pp N L s [c] s1 H G ltac:(cbn [written1 length] in *; lia) (Put c) eq_refl ltac:(discriminate) E1).
    cbn [written1 length] in *; lia.
  - destruct F as [F1 F2]. apply (IH s1 (k + length d)); auto.
    pose proof (appends_pp N L s d s1 H G ltac:(cbn [written1 length] in *; lia) (Write d) eq_refl ltac:(discriminate) E1).
    lia.
  - apply (IH s1 3); auto. cbn [step] in E1. injection E1 as <-. apply sync_pp. exact (good_inv N L s H G).
Qed.

(** What is left after a sync is decided by the pending bytes alone. *)
Lemma last_rev (b : list Z) x : nth 0 (rev (b ++ [x])) 0%Z = x.
Proof. rewrite rev_app_distr. reflexivity. Qed.

Definition all_bytes (f : Z -> bool) : bool := forallb f (map Z.of_nat (seq 0 256)).

Lemma by_bytes (f : Z -> bool) c : all_bytes f = true -> (0 <= c <= 255)%Z -> f c = true.
Proof.
  intros A H. unfold all_bytes in A. rewrite forallb_forall in A. apply A.
  apply in_map_iff. exists (Z.to_nat c). split; [lia|]. apply in_seq. lia.
Qed.

Lemma is_ascii_spec c : (0 <= c <= 255)%Z -> is_ascii c = Z.leb c 127.
Proof. intros H. apply eqb_prop. exact (by_bytes (fun c => eqb (is_ascii c) (Z.leb c 127)) c eq_refl H). Qed.

Lemma is_leading_spec c : (0 <= c <= 255)%Z -> is_leading c = Z.leb 192 c.
Proof. intros H. apply eqb_prop. exact (by_bytes (fun c => eqb (is_leading c) (Z.leb 192 c)) c eq_refl H). Qed.

(** C13: the key fact about utf8_remainder. [p] is an unfinished code point (or
    nothing) after complete ones. *)
Lemma code_point_bytes p : code_point p -> Forall (fun b => 0 <= b <= 255)%Z p.
Proof. intros []; unfold cont in *; repeat constructor; lia. Qed.

Lemma code_point_nonempty p : code_point p -> p <> [].
Proof. intros []; discriminate. Qed.

(** The answer of utf8_remainder as a function of the last four bytes. *)
Lemma rem_ascii a R : (0 <= a <= 127)%Z -> utf8_remainder (a :: R) = 0.
Proof. intros H. unfold utf8_remainder. cbn [nth]. rewrite is_ascii_spec by lia. now rewrite (proj2 (Z.leb_le _ _)) by lia. Qed.

Lemma rem_1 a R : (192 <= a <= 255)%Z -> utf8_remainder (a :: R) = 1.
Proof.
  intros H. unfold utf8_remainder. cbn [nth firstn find_if]. rewrite is_ascii_spec, is_leading_spec by lia.
  rewrite (proj2 (Z.leb_gt _ _)), (proj2 (Z.leb_le _ _)) by lia. reflexivity.
Qed.

Lemma rem_2 a b R : cont b -> (192 <= a <= 255)%Z -> utf8_remainder (b :: a :: R) = if Z.leb a 223 then 0 else 2.
Proof.
  unfold cont. intros C H. unfold utf8_remainder. cbn [nth firstn find_if]. rewrite is_ascii_spec, !is_leading_spec by lia.
  rewrite (proj2 (Z.leb_gt b 127)), (proj2 (Z.leb_gt 192 b)), (proj2 (Z.leb_le 192 a)) by lia. reflexivity.
Qed.

Lemma rem_3 a b c R : cont b -> cont c -> (192 <= a <= 255)%Z ->
  utf8_remainder (c :: b :: a :: R) = if Z.leb a 239 then 0 else 3.
Proof.
  unfold cont. intros C D H. unfold utf8_remainder. cbn [nth firstn find_if]. rewrite is_ascii_spec, !is_leading_spec by lia.
  rewrite (proj2 (Z.leb_gt c 127)), (proj2 (Z.leb_gt 192 c)), (proj2 (Z.leb_gt 192 b)), (proj2 (Z.leb_le 192 a)) by lia. reflexivity.
Qed.

Lemma rem_4 a b c R : cont a -> cont b -> cont c -> utf8_remainder (c :: b :: a :: R) = 0.
Proof.
  unfold cont. intros C D H. unfold utf8_remainder. cbn [nth firstn find_if]. rewrite is_ascii_spec, !is_leading_spec by lia.
  rewrite (proj2 (Z.leb_gt c 127)), (proj2 (Z.leb_gt 192 c)), (proj2 (Z.leb_gt 192 b)), (proj2 (Z.leb_gt 192 a)) by lia.
  destruct (Nat.eqb 3 _); reflexivity.
Qed.

Ltac leb_off := match goal with |- context [Z.leb ?a ?b] => destruct (Z.leb_spec a b); try lia; try reflexivity end.

Lemma rem_complete q R : code_point q -> utf8_remainder (rev q ++ R) = 0.
Proof.
  intros []; cbn [rev app];
  first [ rewrite rem_ascii by lia; reflexivity
        | rewrite rem_2 by (unfold cont in *; lia); leb_off
        | rewrite rem_3 by (unfold cont in *; lia); leb_off
        | rewrite rem_4 by (unfold cont in *; lia); reflexivity ].
Qed.

Lemma rem_incomplete p R : p <> [] -> incomplete p -> utf8_remainder (rev p ++ R) = length p.
Proof.
  intros NE (r & Nr & CP). remember (p ++ r) as q.
  destruct p as [|a [|b [|c p]]]; [congruence| | |].
  - cbn [rev app length]. apply rem_1.
    destruct CP; cbn [app] in Heqq; injection Heqq; intros; subst; try congruence; lia.
  - cbn [rev app length].
    destruct CP; cbn [app] in Heqq; try discriminate Heqq; injection Heqq; intros; subst; try congruence;
    (rewrite rem_2 by (unfold cont in *; lia)); leb_off.
  - destruct p as [|d p].
    + cbn [rev app length].
      destruct CP; cbn [app] in Heqq; try discriminate Heqq; injection Heqq; intros; subst; try congruence;
      (rewrite rem_3 by (unfold cont in *; lia)); leb_off.
    + exfalso. destruct CP; cbn [app] in Heqq; try discriminate Heqq; injection Heqq; intros E; intros; subst;
      destruct p, r; cbn in E; congruence.
Qed.

Definition complete_then (t p : list Z) : Prop := valid_utf8 t /\ (p = [] \/ incomplete p).

Lemma rem_text t p : complete_then t p -> t ++ p <> [] -> utf8_remainder (rev (t ++ p)) = length p.
Proof.
  intros [(cps & -> & F) [->|I]] NE.
  - rewrite app_nil_r in *. destruct (exists_last (l := cps)) as (cps' & q & ->).
    { intros ->. now apply NE. }
    rewrite concat_app, rev_app_distr. cbn [concat]. rewrite app_nil_r. apply rem_complete.
    apply Forall_app in F as [_ F]. now apply Forall_inv in F.
  - rewrite rev_app_distr. destruct p as [|x p]; [|apply rem_incomplete; auto; discriminate].
    destruct (exists_last (l := cps)) as (cps' & q & ->).
    { intros ->. now apply NE. }
    rewrite concat_app, rev_app_distr. cbn [concat rev app length]. rewrite app_nil_r. apply rem_complete.
    apply Forall_app in F as [_ F]. now apply Forall_inv in F.
Qed.

(** Every beginning of a valid text is complete code points and one unfinished one. *)
Lemma prefix_split cps : Forall code_point cps -> forall u v, concat cps = u ++ v ->
  exists t p, u = t ++ p /\ complete_then t p.
Proof.
  induction 1 as [|q cps Q F IH]; intros u v E; cbn [concat] in E.
  - symmetry in E. apply app_eq_nil in E as [-> ->]. exists [], []. split; [reflexivity|]. split; [exists []; now split|now left].
  - destruct (le_lt_dec (length q) (length u)) as [L|L].
    + assert (E' : q ++ concat cps = firstn (length q) u ++ (skipn (length q) u ++ v)).
      { now rewrite app_assoc, firstn_skipn. }
      assert (Hq : q = firstn (length q) u).
      { apply (f_equal (firstn (length q))) in E'. rewrite !firstn_app in E'.
        rewrite firstn_all, Nat.sub_diag in E'. cbn [firstn] in E'. rewrite app_nil_r in E'.
        rewrite firstn_firstn, Nat.min_id in E'. rewrite firstn_length, Nat.min_l, Nat.sub_diag in E' by lia.
        cbn [firstn] in E'. now rewrite app_nil_r in E'. }
      rewrite <- Hq in E'. apply app_inv_head in E'.
      destruct (IH _ _ E') as (t & p & Et & (cps' & -> & F') & I).
      exists (q ++ concat cps'), p. split; [rewrite <- app_assoc, <- Et, Hq at 1; symmetry; apply firstn_skipn|].
      split; [exists (q :: cps'); split; [reflexivity|now constructor]|exact I].
    + exists [], u. split; [reflexivity|]. split; [exists []; now split|]. right.
      exists (skipn (length u) q). split.
      * intros N. apply (f_equal (@length Z)) in N. rewrite skipn_length in N. cbn in N. lia.
      * assert (Hu : u = firstn (length u) q).
        { apply (f_equal (firstn (length u))) in E. rewrite !firstn_app in E.
          rewrite firstn_all, Nat.sub_diag in E. cbn [firstn] in E. rewrite app_nil_r in E.
          replace (length u - length q) with 0 in E by lia. cbn [firstn] in E. now rewrite app_nil_r in E. }
        rewrite Hu at 1. now rewrite firstn_skipn.
Qed.

(** Cutting off complete code points leaves a beginning of a valid text. *)
Lemma valid_app_inv cps : Forall code_point cps -> forall cps' v, Forall code_point cps' ->
  concat cps' = concat cps ++ v -> valid_utf8 v.
Proof.
  assert (PF : forall q q' r r', code_point q -> code_point q' -> q ++ r = q' ++ r' -> q = q').
  { intros q q' r r' [] [] E; injection E as; unfold cont in *; subst; try reflexivity; try lia. }
  induction 1 as [|q cps Q F IH]; intros cps' v F' E; cbn [concat app] in E.
  - exists cps'. split; [symmetry; exact E|exact F'].
  - destruct F' as [|q' cps' Q' F'].
    { cbn in E. symmetry in E. apply app_eq_nil in E as [E _]. apply app_eq_nil in E as [E _]. destruct (code_point_nonempty q Q E). }
    cbn [concat] in E. rewrite <- app_assoc in E. pose proof (PF _ _ _ _ Q' Q E) as ->.
    apply app_inv_head in E. eapply IH; eauto.
Qed.

(** Text written so far, relative to the state: delivered spans are whole code
    points, what is pending starts at a code point boundary. *)
Definition whole (s : sb) : Prop := Forall (fun sp => sp <> [] /\ valid_utf8 sp) (out s).

Lemma valid_concat l : Forall (fun sp => sp <> [] /\ valid_utf8 sp) l -> valid_utf8 (concat l).
Proof.
  induction 1 as [|x l [_ (cps & -> & F)] _ (cps' & E & F')]; [exists []; now split|].
  cbn [concat]. rewrite E. exists (cps ++ cps'). split; [now rewrite concat_app|]. now apply Forall_app.
Qed.

Lemma pending_prefix s u v : whole s -> delivered s ++ buffered s = u -> valid_utf8 (u ++ v) ->
  exists t p, buffered s = t ++ p /\ complete_then t p.
Proof.
  intros W <- (cps & E & F). destruct (valid_concat _ W) as (cps' & E' & F').
  rewrite <- app_assoc in E. unfold delivered in E. rewrite E' in E.
  destruct (valid_app_inv cps' F' cps _ F (eq_sym E)) as (cps2 & E2 & F2).
  symmetry in E2. apply (prefix_split cps2 F2 _ _ E2).
Qed.

Lemma sync_whole s v : inv s -> whole s -> valid_utf8 (delivered s ++ buffered s ++ v) ->
  whole (sync_ s) /\ (buffered (sync_ s) = [] \/ incomplete (buffered (sync_ s))).
Proof.
  intros I W V. rewrite app_assoc in V. destruct (pending_prefix s _ v W eq_refl V) as (t & p & E & C).
  destruct (sync_spec s I) as (_ & _ & _ & S0 & S1).
  destruct (buffered s) as [|x b] eqn:B.
  - rewrite (S0 eq_refl), B. split; [exact W|now left].
  - destruct (S1 ltac:(discriminate)) as [Sb So]. rewrite E in Sb, So.
    rewrite (rem_text t p C) in Sb, So by (rewrite <- E; discriminate).
    rewrite app_length in Sb, So. replace (length t + length p - length p) with (length t) in Sb, So by lia.
    rewrite skipn_app, skipn_all, Nat.sub_diag in Sb. cbn [skipn app] in Sb.
    rewrite firstn_app, firstn_all, Nat.sub_diag in So. cbn [firstn] in So. rewrite app_nil_r in So.
    split; [|rewrite Sb; apply C].
    unfold whole. rewrite So. apply Forall_app. split; [exact W|].
    destruct (Nat.eqb_spec (length t) 0) as [Z|Z]; constructor; auto.
    split; [destruct t; [now cbn in Z|discriminate]|apply C].
Qed.

Lemma overflow_whole N L c s s' v : 3 <= N -> N <= L -> good N L s -> whole s ->
  valid_utf8 (delivered s ++ buffered s ++ c :: v) -> overflow c s = Ok s' -> whole s'.
Proof.
  intros H3 H G W V R. unfold overflow in R. pose proof G as [C M P].
  destruct (Nat.ltb_spec (pp s) (length (mem s))) as [Q|Q].
  - destruct (store1_ok c s Q) as (s1 & E & I1 & C1 & M1 & P1 & O1 & B1). rewrite E in R. cbn in R. injection R as <-.
    apply (sync_whole s1 v); auto; [unfold whole; now rewrite O1|].
    unfold delivered. rewrite O1, B1, <- app_assoc. exact V.
  - unfold store1 in R. destruct (Nat.ltb_spec (pp s) (length (mem s))); [lia|]. discriminate.
Qed.

Lemma xsputn_whole N L : 3 <= N -> N <= L -> forall fuel data s s' v, length data <= fuel -> good N L s -> whole s ->
  valid_utf8 (delivered s ++ buffered s ++ data ++ v) -> xsputn fuel data s = Ok s' -> whole s'.
Proof.
  intros H3 HL. induction fuel as [|fuel IH]; intros data s s' v F G W V R.
  { destruct data; [|cbn in F; lia]. now injection R as <-. }
  destruct data as [|c0 data0]; [now injection R as <-|].
  set (data := c0 :: data0) in *.
  change (xsputn (S fuel) data s) with (if Nat.ltb (cap s) (pp s) then UB
    else let len := Nat.min (cap s - pp s) (length data) in
      bind (store_n (firstn len data) s) (fun s => match skipn len data with
      | [] => Ok s | c :: rest => bind (overflow c s) (fun s => xsputn fuel rest s) end)) in R.
  pose proof G as [C M P]. destruct (Nat.ltb_spec (cap s) (pp s)); [lia|]. cbv zeta in R.
  set (len := Nat.min _ _) in R.
  assert (LF : length (firstn len data) = len) by (rewrite firstn_length; lia).
  destruct (store_n_ok (firstn len data) s ltac:(lia)) as (s1 & E & I1 & C1 & M1 & P1 & O1 & B1).
  rewrite E in R. cbn [bind] in R. assert (G1 : good N L s1) by (split; lia).
  assert (W1 : whole s1) by (unfold whole; now rewrite O1).
  assert (FS : data = firstn len data ++ skipn len data) by (symmetry; apply firstn_skipn).
  destruct (skipn len data) as [|c rest] eqn:SK; [now injection R as <-|].
  assert (LR : length data = len + S (length rest)) by (rewrite FS, app_length, LF; reflexivity).
  assert (V1 : valid_utf8 (delivered s1 ++ buffered s1 ++ c :: rest ++ v)).
  { unfold delivered. rewrite O1, B1, <- app_assoc. rewrite FS, <- app_assoc in V. exact V. }
  destruct (overflow_ok N L c s1 H3 HL G1 ltac:(lia)) as [(_ & _ & U)|(s2 & E2 & G2 & D2)].
  { rewrite U in R. discriminate. }
  rewrite E2 in R. cbn [bind] in R.
  apply (IH rest s2 s' v ltac:(lia) G2); auto.
  - now apply (overflow_whole N L c s1 s2 (rest ++ v)).
  - rewrite app_assoc, D2, <- !app_assoc. exact V1.
Qed.

Lemma run_whole N L : 3 <= N -> N <= L -> forall ops s s' v, good N L s -> whole s ->
  valid_utf8 (delivered s ++ buffered s ++ written ops ++ v) -> run ops s = Ok s' -> whole s'.
Proof.
  intros H3 H. induction ops as [|o ops IH]; intros s s' v G W V R; [now injection R as <-|].
  cbn [run] in R. pose proof (good_inv N L s H G) as I.
  destruct (step_ok N L o s H3 H G) as [(_ & _ & U)|(s1 & E1 & G1 & D1)].
  { rewrite U in R. discriminate. }
  rewrite E1 in R. cbn [bind] in R.
  assert (Ew : written (o :: ops) = written1 o ++ written ops) by reflexivity.
  rewrite Ew, <- app_assoc in V.
  apply (IH s1 s' v G1); auto.
  - destruct o as [c|d|]; cbn [step written1] in *.
    + unfold sputc in E1. destruct (Nat.ltb (pp s) (cap s)).
      * unfold store1 in E1. destruct (Nat.ltb _ _); [|discriminate]. injection E1 as <-. exact W.
      * now apply (overflow_whole N L c s s1 (written ops ++ v)).
    + now apply (xsputn_whole N L H3 H (length d) d s s1 (written ops ++ v)).
    + injection E1 as <-. now apply (sync_whole s (written ops ++ v)).
  - rewrite app_assoc, D1, <- !app_assoc. exact V.
Qed.
