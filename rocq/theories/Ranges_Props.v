(** C06, C07: enumerate and iter_range_adapter. *)
From Verif Require Import Base Ranges_Model Ranges_Proofs.

(** C06. *)
Theorem C06_enumerate :
  forall (A : Type) (rng : list A) fuel, length rng < fuel ->
    enumerate rng fuel = Ok (Some (combine (seq 0 (length rng)) rng)).
Proof. exact @enumerate_ok. Qed.
Print Assumptions C06_enumerate.

Example C06_nonvacuous :
  enumerate [7; 8; 7] 4 = Ok (Some [(0, 7); (1, 8); (2, 7)]) /\ enumerate (@nil nat) 1 = Ok (Some []).
Proof. split; reflexivity. Qed.

(** C07. If the object first converts to false after n increments, exactly the
    n states before are visited, in order. *)
Theorem C07_adapter_visits_all :
  forall (St : Type) (next : St -> St) (ok : St -> bool) n s fuel,
    (forall k, k < n -> ok (Nat.iter k next s) = true) ->
    ok (Nat.iter n next s) = false -> n <= fuel ->
    adapter_loop next ok fuel s = Some (map (fun k => Nat.iter k next s) (seq 0 n)).
Proof. exact @adapter_ok. Qed.
Print Assumptions C07_adapter_visits_all.

(** Before such a state is reached the loop goes on, visiting the successive
    states. *)
Theorem C07_adapter_prefix :
  forall (St : Type) (next : St -> St) (ok : St -> bool) n s,
    (forall k, k < n -> ok (Nat.iter k next s) = true) ->
    adapter_prefix next ok n s = map (fun k => Nat.iter k next s) (seq 0 n).
Proof. exact @adapter_diverge. Qed.
Print Assumptions C07_adapter_prefix.

Example C07_nonvacuous :
  adapter_loop pred (fun n => negb (n =? 0)) 9 3 = Some [3; 2; 1] /\
  adapter_loop pred (fun n => negb (n =? 0)) 9 0 = Some [].
Proof. split; reflexivity. Qed.
