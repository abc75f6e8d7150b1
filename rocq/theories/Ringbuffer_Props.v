(** C03, C04: circular ranges. *)
From Verif Require Import Base Ringbuffer_Model Ringbuffer_Proofs.

(** C03. The loop ends, trips no assertion, visits (k, (idx1+k) mod max) in
    order, each circular index at most once and below max. *)
Theorem C03_forward_iteration :
  forall size idx1 idx2 max fuel,
    idx1 < max -> size <= max -> size < fuel ->
    for_range fuel (Range size idx1 idx2 max) =
      Ok (Some (map (fun k => CI k ((idx1 + k) mod max)) (seq 0 size))).
Proof. exact forward_all. Qed.
Print Assumptions C03_forward_iteration.

Theorem C03_no_index_twice :
  forall size idx1 idx2 max fuel visited,
    idx1 < max -> size <= max -> size < fuel ->
    for_range fuel (Range size idx1 idx2 max) = Ok (Some visited) ->
    NoDup (map circular visited) /\ Forall (fun x => circular x < max) visited /\
    length visited = size.
Proof. exact forward_nodup. Qed.
Print Assumptions C03_no_index_twice.

Example C03_nonvacuous :
  for_range 5 (Range 3 3 99 4) = Ok (Some [CI 0 3; CI 1 0; CI 2 1]) /\ 3 < 4 /\ 3 <= 4.
Proof. repeat split; auto. Qed.

(** C04. Reverse iteration is the mirror image (this is also the iteration of a
    ReverseCircularRange), and the reverse of a ReverseCircularRange is the
    forward sequence. *)
Theorem C04_reverse_iteration :
  forall size idx1 idx2 max fuel,
    idx1 < max -> size <= max -> idx2 = (idx1 + size) mod max -> size < fuel ->
    for_range_rev fuel (Range size idx1 idx2 max) =
      Ok (Some (rev (map (fun k => CI k ((idx1 + k) mod max)) (seq 0 size)))).
Proof. exact backward_all. Qed.
Print Assumptions C04_reverse_iteration.

Theorem C04_reverse_of_reverse_range :
  forall size idx1 idx2 max fuel,
    idx1 < max -> size <= max -> size < fuel ->
    for_reverse_range_rev fuel (Range size idx1 idx2 max) =
      Ok (Some (map (fun k => CI k ((idx1 + k) mod max)) (seq 0 size))).
Proof. exact forward_all. Qed.
Print Assumptions C04_reverse_of_reverse_range.

(** ++ then -- restores every iterator that ++ may be applied to. *)
Theorem C04_inc_then_dec :
  forall z c max, z < max -> c < max ->
    exists it', inc (It (CI z c) max) = Ok it' /\ dec it' = Ok (It (CI z c) max) /\
                circular (ind it') < max.
Proof. exact inc_dec. Qed.
Print Assumptions C04_inc_then_dec.

(** -- then ++ restores every iterator that -- may be applied to. *)
Theorem C04_dec_then_inc :
  forall z c max, 0 < z <= max -> c < max ->
    exists it', dec (It (CI z c) max) = Ok it' /\ inc it' = Ok (It (CI z c) max) /\
                circular (ind it') < max.
Proof. exact dec_inc. Qed.
Print Assumptions C04_dec_then_inc.

Example C04_nonvacuous :
  for_range_rev 5 (Range 3 3 2 4) = Ok (Some [CI 2 1; CI 1 0; CI 0 3]) /\ 2 = (3 + 3) mod 4.
Proof. split; reflexivity. Qed.

(** The hypothesis on idx2 is needed. *)
Example C04_idx2_needed :
  for_range_rev 5 (Range 3 3 1 4) = Ok (Some [CI 2 0; CI 1 3; CI 0 2]).
Proof. reflexivity. Qed.
