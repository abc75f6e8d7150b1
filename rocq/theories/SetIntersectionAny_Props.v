(** C05: iter_set_intersection on ranges that are not sorted, and for any comparison. *)
From Verif Require Import Base SetIntersection_Spec SetIntersection_Model.
Local Open Scope outcome_scope.

Section Any.
Context {A B K : Type} (comp : K -> K -> bool) (proj1 : A -> K) (proj2 : B -> K) (l1 : list A) (l2 : list B).
Local Notation advance := (advance comp proj1 proj2 l1 l2).
Local Notation loop := (loop comp proj1 proj2 l1 l2).
Definition at_pair (i j : nat) : Prop := exists a b, nth_error l1 i = Some a /\ nth_error l2 j = Some b /\ equiv comp (proj1 a) (proj2 b) = true.

Lemma not_end_cases i j : i <= length l1 -> j <= length l2 ->
  not_end l1 l2 (i, j) = true /\ (exists a b, nth_error l1 i = Some a /\ nth_error l2 j = Some b) \/
  not_end l1 l2 (i, j) = false /\ (i = length l1 \/ j = length l2).
Proof.
  intros Hi Hj. unfold not_end; cbn [fst snd]. destruct (Nat.eqb_spec i (length l1)) as [->|N1]; [right; auto|].
  destruct (Nat.eqb_spec j (length l2)) as [->|N2]; [right; auto|]. left. split; [reflexivity|].
  destruct (nth_error l1 i) as [a|] eqn:E1; [|apply nth_error_None in E1; lia]. destruct (nth_error l2 j) as [b|] eqn:E2; [|apply nth_error_None in E2; lia]. eauto.
Qed.
Lemma advance_any fuel : forall i j, i <= length l1 -> j <= length l2 -> (length l1 - i) + (length l2 - j) <= fuel ->
  exists i' j', advance fuel (i, j) = Ok (Some (i', j')) /\ i <= i' <= length l1 /\ j <= j' <= length l2 /\
    (i' = length l1 \/ j' = length l2 \/ at_pair i' j').
Proof.
  induction fuel as [|fuel IH]; intros i j Hi Hj Hf; cbn [SetIntersection_Model.advance];
    destruct (not_end_cases i j Hi Hj) as [[-> (a & b & E1 & E2)]|[-> E]].
  - assert (i < length l1) by (apply nth_error_Some; congruence). lia.
  - exists i, j. repeat split; auto. tauto.
  - assert (i < length l1) by (apply nth_error_Some; congruence). assert (j < length l2) by (apply nth_error_Some; congruence).
    unfold deref1, deref2; cbn [fst snd]. rewrite E1, E2. cbn [bind]. destruct (comp (proj1 a) (proj2 b)) eqn:C1.
    + destruct (IH (S i) j) as (i' & j' & -> & K1 & K2 & K3); try lia. exists i', j'. repeat split; auto; lia.
    + destruct (comp (proj2 b) (proj1 a)) eqn:C2.
      * destruct (IH i (S j)) as (i' & j' & -> & K1 & K2 & K3); try lia. exists i', j'. repeat split; auto; lia.
      * exists i, j. repeat split; auto. right. right. exists a, b. unfold equiv. now rewrite C1, C2.
  - exists i, j. repeat split; auto. tauto.
Qed.
Definition below (p q : nat * nat) : Prop := fst p < fst q /\ snd p < snd q.
Lemma loop_any fuel : forall i j, i <= length l1 -> j <= length l2 -> (i = length l1 \/ j = length l2 \/ at_pair i j) ->
  (length l1 - i) + (length l2 - j) < fuel ->
  exists out, loop fuel (i, j) = Ok (Some out) /\ StronglySorted below (map fst out) /\ Forall (fun p => i <= fst p /\ j <= snd p) (map fst out) /\
    Forall (fun x => nth_error l1 (fst (fst x)) = Some (fst (snd x)) /\ nth_error l2 (snd (fst x)) = Some (snd (snd x)) /\ equiv comp (proj1 (fst (snd x))) (proj2 (snd (snd x))) = true) out.
Proof.
  induction fuel as [|fuel IH]; intros i j Hi Hj HP Hf; [lia|]. cbn [SetIntersection_Model.loop].
  destruct (not_end_cases i j Hi Hj) as [[-> (a & b & E1 & E2)]|[-> E]]; [|exists []; repeat split; constructor].
  assert (Li : i < length l1) by (apply nth_error_Some; congruence). assert (Lj : j < length l2) by (apply nth_error_Some; congruence).
  destruct HP as [HP|[HP|HP]]; [lia|lia|]. destruct HP as (a' & b' & E1' & E2' & Q). rewrite E1 in E1'. rewrite E2 in E2'. injection E1' as <-. injection E2' as <-.
  unfold deref, deref1, deref2, incr; cbn [fst snd]. rewrite E1, E2. cbn [bind].
  destruct (advance_any (S fuel) (S i) (S j)) as (i' & j' & -> & K1 & K2 & K3); try lia. cbn [bind].
  destruct (IH i' j') as (out & -> & S1 & F1 & O1); try lia; auto. cbn [bind option_map]. exists ((i, j, (a, b)) :: out). split; [reflexivity|].
  cbn [map fst]. split; [|split].
  - constructor; [exact S1|]. eapply Forall_impl; [|exact F1]. intros [p q] [G1 G2]. cbn [fst snd] in *. split; cbn [fst snd]; lia.
  - constructor; [cbn; lia|]. eapply Forall_impl; [|exact F1]. intros [p q] [G1 G2]. cbn [fst snd] in *. split; cbn [fst snd]; lia.
  - constructor; [cbn [fst snd]; auto|exact O1].
Qed.
End Any.

(** C05, safety, for all ranges (sorted or not) and all comparisons (strict weak orders or not): the loop ends, touches no
    position outside the ranges, goes strictly forward in both, and yields only pairs of which neither is less. *)
Theorem C05_any_input :
  forall (A B K : Type) (comp : K -> K -> bool) (proj1 : A -> K) (proj2 : B -> K) (l1 : list A) (l2 : list B) fuel,
  length l1 + length l2 < fuel ->
  exists out, for_each comp proj1 proj2 l1 l2 fuel = Ok (Some out) /\
    StronglySorted (fun p q => fst p < fst q /\ snd p < snd q) (map fst out) /\
    forall i j a b, In (i, j, (a, b)) out ->
      nth_error l1 i = Some a /\ nth_error l2 j = Some b /\ comp (proj1 a) (proj2 b) = false /\ comp (proj2 b) (proj1 a) = false.
Proof.
  intros A B K comp proj1 proj2 l1 l2 fuel L. unfold for_each, begin.
  destruct (advance_any comp proj1 proj2 l1 l2 fuel 0 0) as (i & j & -> & Hi & Hj & HP); try lia. cbn [bind].
  destruct (loop_any comp proj1 proj2 l1 l2 fuel i j) as (out & -> & S1 & _ & O1); try lia; auto. exists out. split; [reflexivity|]. split; [exact S1|].
  intros p q a b H. rewrite Forall_forall in O1. destruct (O1 _ H) as (E1 & E2 & Q). cbn [fst snd] in *. unfold equiv in Q. apply andb_true_iff in Q as [Q1 Q2].
  apply negb_true_iff in Q1, Q2. auto.
Qed.
Print Assumptions C05_any_input.

Example C05_any_nonvacuous :
  for_each Nat.ltb (fun n => n) (fun n => n) [3; 1; 2] [2; 3; 1] 7 = Ok (Some [(0, 1, (3, 3)); (1, 2, (1, 1))]) /\
  for_each Nat.leb (fun n => n) (fun n => n) [3; 1; 2] [2; 3; 1] 7 = Ok (Some []).
Proof. split; reflexivity. Qed.
