(** C109: macros that count and join their arguments. *)
From Verif Require Import Base Bytes Macros_Model.
Local Open Scope nat_scope.

(** The elements of a list with a separator between each two. *)
Fixpoint interspersed (sep : list Z) (xs : list (list Z)) : list Z :=
  match xs with [] => [] | [x] => x | x :: xs => x ++ sep ++ interspersed sep xs end.
(** The decimal spelling of a number of arguments. *)
Definition spelled (n : nat) : list Z := if n <? 10 then [48 + Z.of_nat n]%Z else [48 + Z.of_nat (n / 10); 48 + Z.of_nat (n mod 10)]%Z.

(** Up to ten arguments are counted. *)
Theorem C109_count xs : 1 <= length xs <= 10 -> num_args xs = Some (spelled (length xs)).
Proof. intros H. do 10 (try (destruct xs as [|? xs]; [try (exfalso; cbn in H; lia)|])); try (destruct xs; [|exfalso; cbn in H; lia]); reflexivity. Qed.
Print Assumptions C109_count.

(** Up to ten arguments are joined with underscores, in order. *)
Theorem C109_join_tokens xs : 1 <= length xs <= 10 -> join_tokens xs = Some (interspersed (bytes "_") xs).
Proof. intros H. do 10 (try (destruct xs as [|? xs]; [try (exfalso; cbn in H; lia)|])); try (destruct xs; [|exfalso; cbn in H; lia]); reflexivity. Qed.
Print Assumptions C109_join_tokens.

(** Up to ten arguments become one string with the separator between each two. *)
Theorem C109_join_strings sep xs : 1 <= length xs <= 10 -> join_strings sep xs = Some (interspersed sep xs).
Proof.
  intros H. do 10 (try (destruct xs as [|? xs]; [try (exfalso; cbn in H; lia)|])); try (destruct xs; [|exfalso; cbn in H; lia]);
    unfold join_strings; rewrite (C109_count _ H); vm_compute defined_macro;
    cbn [join_strings_args List.concat app interspersed]; now rewrite ?app_nil_r.
Qed.
Print Assumptions C109_join_strings.

Lemma join_tokens_args_exact k xs : (if join_tokens_args k xs then true else false) = true -> length xs = k /\ 1 <= k <= 10.
Proof.
  destruct (Nat.lt_ge_cases 10 k) as [l|l].
  - do 11 (destruct k as [|k]; [lia|]). cbn. discriminate.
  - do 11 (destruct k as [|k]; [do 11 (try (destruct xs as [|? xs]; [try (exfalso; cbn; intros; discriminate)|])); cbn; first [discriminate | intros _; split; [reflexivity|lia]]|]). lia.
Qed.
Lemma join_strings_args_exact k sep xs : (if join_strings_args k sep xs then true else false) = true -> length xs = k /\ 1 <= k <= 10.
Proof.
  destruct (Nat.lt_ge_cases 10 k) as [l|l].
  - do 11 (destruct k as [|k]; [lia|]). cbn. discriminate.
  - do 11 (destruct k as [|k]; [do 11 (try (destruct xs as [|? xs]; [try (exfalso; cbn; intros; discriminate)|])); cbn; first [discriminate | intros _; split; [reflexivity|lia]]|]). lia.
Qed.

(** More than ten arguments never give a wrong result silently: the program does not compile. *)
Theorem C109_too_many sep xs : 10 < length xs -> join_tokens xs = None /\ join_strings sep xs = None.
Proof.
  intros H. unfold join_tokens, join_strings. destruct (num_args xs) as [n|]; [|split; reflexivity].
  destruct (defined_macro n) as [k|]; [|split; reflexivity].
  pose proof (join_tokens_args_exact k xs) as A. pose proof (join_strings_args_exact k sep xs) as B.
  destruct (join_tokens_args k xs), (join_strings_args k sep xs); split; try reflexivity; exfalso;
    first [specialize (A eq_refl) | specialize (B eq_refl)]; lia.
Qed.
Print Assumptions C109_too_many.

Example C109_nonvacuous :
  join_tokens (map bytes ["trace"; "log"; "3"]%string) = Some (bytes "trace_log_3") /\
  join_strings (bytes "::") (map bytes ["a"; "b"; "c"; "d"; "e"; "f"; "g"; "h"; "i"; "j"]%string) = Some (bytes "a::b::c::d::e::f::g::h::i::j") /\
  num_args (repeat (bytes "x") 10) = Some (bytes "10") /\ num_args [[]] = Some (bytes "1") /\
  num_args (repeat (bytes "2") 11) = Some (bytes "2") /\ join_tokens (repeat (bytes "2") 11) = None.
Proof. repeat split. Qed.
