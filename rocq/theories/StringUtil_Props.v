(** C08-C11: string utilities. *)
From Verif Require Import Base StringUtil_Spec StringUtil_Model StringUtil_Proofs.
From Verif Require Import Bytes.
Local Open Scope list_scope.

(** C08. *)
Theorem C08_split :
  forall full tok key rem, split full tok = (key, rem) ->
    (occurs tok full ->
       full = key ++ tok ++ rem /\ forall p, occurs_at tok full p -> length key <= p) /\
    (~ occurs tok full -> key = full /\ rem = []).
Proof. exact split_spec. Qed.
Print Assumptions C08_split.

Theorem C08_split_second :
  forall full tok key rem, split_second full tok = (key, rem) ->
    (occurs tok full ->
       full = key ++ tok ++ rem /\ forall p, occurs_at tok full p -> length key <= p) /\
    (~ occurs tok full -> key = [] /\ rem = full).
Proof. exact split_second_spec. Qed.
Print Assumptions C08_split_second.


Example C08_nonvacuous :
  split (bytes "key=val=x") (bytes "=") = (bytes "key", bytes "val=x") /\
  split (bytes "key") (bytes "=") = (bytes "key", []) /\
  split_second (bytes "key") (bytes "=") = ([], bytes "key") /\
  occurs (bytes "=") (bytes "key=val=x").
Proof. repeat split. exists 3, (bytes "key"), (bytes "val=x"). split; reflexivity. Qed.

(** C09. *)
Theorem C09_join :
  forall ss sep empty,
    join ss sep empty = match ss with [] => empty | _ => interspersed sep ss end.
Proof. exact join_spec. Qed.
Print Assumptions C09_join.

(** The inverse direction: for a non-empty separator without proper borders
    that occurs in no element, splitting the joined string gives the elements
    back. *)
Theorem C09_split_join :
  forall sep, sep <> [] -> unbordered sep ->
  forall ss fuel, ss <> [] -> Forall (fun s => ~ occurs sep s) ss -> length ss <= fuel ->
    split_all fuel (interspersed sep ss) sep = Some ss.
Proof. exact split_all_join. Qed.
Print Assumptions C09_split_join.

Lemma default_sep_unbordered : unbordered (bytes ", ").
Proof.
  unfold unbordered. cbn. intros a b c H1 H2 Hne.
  destruct a as [|x [|y [|z a]]]; try congruence.
  - injection H1 as <- _. destruct c as [|u [|v [|w c]]]; try discriminate.
  - injection H1 as <- <- _. reflexivity.
  - discriminate.
Qed.

Example C09_nonvacuous :
  let ss := [bytes "a"; []; bytes "b,c"; bytes "d"] in
  join ss (bytes ", ") (bytes "none") = bytes "a, , b,c, d" /\
  split_all 4 (bytes "a, , b,c, d") (bytes ", ") = Some ss /\ unbordered (bytes ", ").
Proof. split; [reflexivity|]. split; [reflexivity|exact default_sep_unbordered]. Qed.

(** The border condition is needed. *)
Example C09_border_needed :
  let ss := [bytes "a,"; bytes "b"] in
  split_all 9 (join ss (bytes ",,") []) (bytes ",,") = Some [bytes "a"; bytes ",b"].
Proof. reflexivity. Qed.

(** C10. *)
Theorem C10_join_quote :
  forall ss sep empty ql qr,
    join_quote ss sep empty ql qr =
    match ss with
    | [] => empty
    | _ => interspersed sep (map (fun s => ql ++ s ++ qr) ss)
    end.
Proof. exact join_quote_spec. Qed.
Print Assumptions C10_join_quote.

Example C10_nonvacuous :
  join_quote [bytes "a"; bytes "b"] (bytes ", ") (bytes "none") (bytes "<") (bytes ">") = bytes "<a>, <b>".
Proof. reflexivity. Qed.

(** C11, for every toupper. The comparator meets the precondition of the
    standard sort, so the result is a permutation in which no later element is
    before an earlier one. *)
Theorem C11_sort_case_insensitive :
  forall up l l', sort_case_insensitive up l l' ->
    Permutation l l' /\
    forall i j a b, i < j -> nth_error l' i = Some a -> nth_error l' j = Some b ->
      ~ lex_before (map up b) (map up a).
Proof. exact sort_ci_spec. Qed.
Print Assumptions C11_sort_case_insensitive.

Theorem C11_comparator_is_strict_weak_order :
  forall up, is_strict_weak_order (ci_less up).
Proof. exact ci_swo. Qed.
Print Assumptions C11_comparator_is_strict_weak_order.

Theorem C11_equivalence_is_equal_upper_case :
  forall up a b, (ci_less up a b = false /\ ci_less up b a = false) <-> map up a = map up b.
Proof. exact ci_equiv. Qed.
Print Assumptions C11_equivalence_is_equal_upper_case.

(** toupper in the "C" locale. *)
Definition toupper_C (c : Z) : Z := if ((97 <=? c) && (c <=? 122))%Z then (c - 32)%Z else c.
Example C11_nonvacuous :
  sort_case_insensitive toupper_C [bytes "beta"; bytes "Alpha"; bytes "BETa"; bytes "alp"]
                                  [bytes "alp"; bytes "Alpha"; bytes "beta"; bytes "BETa"].
Proof.
  intros _. split.
  - eapply perm_trans; [apply perm_swap|]. 
    symmetry. exact (Permutation_middle [bytes "Alpha"; bytes "beta"; bytes "BETa"] [] (bytes "alp")).
  - repeat constructor.
Qed.
