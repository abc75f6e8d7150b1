(** C05: set intersection. *)
From Verif Require Import Base SetIntersection_Spec SetIntersection_Model SetIntersection_Proofs.

(** C05. The loop over iter_set_intersection of two sorted ranges terminates
    without dereferencing an invalid position, visits exactly the partner
    positions, in strictly increasing order in both ranges, and yields the
    elements at those positions. *)
Theorem C05_set_intersection :
  forall (A B K : Type) (comp : K -> K -> bool) (proj1 : A -> K) (proj2 : B -> K),
    strict_weak_order comp ->
    forall (l1 : list A) (l2 : list B),
      sorted_by comp proj1 l1 -> sorted_by comp proj2 l2 ->
      forall fuel, length l1 + length l2 < fuel ->
      exists out, for_each comp proj1 proj2 l1 l2 fuel = Ok (Some out) /\
        (forall i j, In (i, j) (map fst out) <-> partners comp proj1 proj2 l1 l2 i j) /\
        StronglySorted (fun p q => fst p < fst q /\ snd p < snd q) (map fst out) /\
        (forall i j a b, In (i, j, (a, b)) out -> nth_error l1 i = Some a /\ nth_error l2 j = Some b).
Proof. exact @for_each_ok. Qed.
Print Assumptions C05_set_intersection.

Example C05_nonvacuous :
  let key1 (p : nat * nat) := fst p in let key2 (n : nat) := n in
  let l1 := [(1, 10); (2, 20); (2, 21); (4, 40)] in let l2 := [2; 2; 2; 3; 4] in
  strict_weak_order Nat.ltb /\ sorted_by Nat.ltb key1 l1 /\ sorted_by Nat.ltb key2 l2 /\
  for_each Nat.ltb key1 key2 l1 l2 20 =
    Ok (Some [(1, 0, ((2, 20), 2)); (2, 1, ((2, 21), 2)); (3, 4, ((4, 40), 4))]).
Proof.
  split; [split; intros; rewrite ?Nat.ltb_lt, ?Nat.ltb_ge in *; lia|].
  split; [|split; [|reflexivity]].
  - intros i j x y Hij Hx Hy. do 5 (destruct i as [|i]; [do 5 (destruct j as [|j]; [try lia; simpl in *; try discriminate; injection Hx as <-; injection Hy as <-; reflexivity|]); destruct j; discriminate|]).
    destruct i; discriminate.
  - intros i j x y Hij Hx Hy. do 6 (destruct i as [|i]; [do 6 (destruct j as [|j]; [try lia; simpl in *; try discriminate; injection Hx as <-; injection Hy as <-; reflexivity|]); destruct j; discriminate|]).
    destruct i; discriminate.
Qed.
