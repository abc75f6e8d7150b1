(** C01, C02: MaxHistory. *)
From Verif Require Import Base MaxHistory_Spec MaxHistory_Model MaxHistory_Proofs.

(** C01. After any non-empty sequence of adds to a MaxHistory of memory n > 0
    the program has not misbehaved and max() is the maximum of the last n values. *)
Theorem C01_window_maximum :
  forall (T : Type) (ltb gtb eqb : T -> T -> bool) (dflt : T),
    good_order ltb gtb eqb ->
    forall n xs, 0 < n -> xs <> [] ->
    exists w m, run ltb gtb eqb dflt init (New n :: map (Add 0) xs) = Ok w /\
                mh_max w 0 = Ok m /\ is_max ltb m (window n xs).
Proof. exact @single_correct. Qed.
Print Assumptions C01_window_maximum.

Lemma Z_good_order : good_order Z.ltb Z.gtb Z.eqb.
Proof. split; intros; rewrite ?Z.gtb_ltb in *; lia. Qed.

Example C01_nonvacuous :
  exists w, run Z.ltb Z.gtb Z.eqb 0%Z init (New 3 :: map (Add 0) [9; 4; 7; 2; 1; 1]%Z) = Ok w /\
            mh_max w 0 = Ok 2%Z /\ window 3 [9; 4; 7; 2; 1; 1]%Z = [2; 1; 1]%Z.
Proof. vm_compute. eexists; repeat split. Qed.

(** The order hypothesis is needed: with a value that is unordered and unequal
    to itself (None plays NaN) the result is not in the window any more. *)
Definition nlt (a b : option Z) := match a, b with Some x, Some y => Z.ltb x y | _, _ => false end.
Definition neq (a b : option Z) := match a, b with Some x, Some y => Z.eqb x y | _, _ => false end.
Example C01_order_needed :
  exists w, run nlt (fun a b => nlt b a) neq None init
                (New 2 :: map (Add 0) [None; Some 1; Some 2]%Z) = Ok w /\
            mh_max w 0 = Ok None /\ window 2 [None; Some 1; Some 2]%Z = [Some 1; Some 2]%Z.
Proof. vm_compute. eexists; repeat split. Qed.

(** C02, as far as it is true: in any history of constructions, copies, moves, copy
    and move assignments, destructions and adds in which nothing is added to a copy, every object that has not
    been moved from or destroyed reports the maximum of its own window. *)
Theorem C02_independent_if_copies_not_added_to_partial :
  forall (T : Type) (ltb gtb eqb : T -> T -> bool) (dflt : T),
    good_order ltb gtb eqb ->
    forall ops s, spec_run [] ops = Some s -> no_add_to_copy [] ops ->
    exists w, run ltb gtb eqb dflt init ops = Ok w /\
      forall i n vals k, nth_error s i = Some (Abs n vals k) -> live k -> vals <> [] ->
        exists m, mh_max w i = Ok m /\ is_max ltb m (window n vals).
Proof. exact @run_correct. Qed.
Print Assumptions C02_independent_if_copies_not_added_to_partial.

Example C02_partial_nonvacuous :
  let ops := [New 2; Add 0 5; Copy 0; Add 0 1; Add 0 2; Move 0; Add 2 1]%Z in
  spec_run [] ops = Some [Abs 2 [5; 1; 2]%Z MovedFrom; Abs 2 [5]%Z Copied;
                          Abs 2 [5; 1; 2; 1]%Z Original] /\
  no_add_to_copy [] ops /\
  exists w, run Z.ltb Z.gtb Z.eqb 0%Z init ops = Ok w /\ mh_max w 1 = Ok 5%Z /\ mh_max w 2 = Ok 2%Z.
Proof.
  split; [reflexivity|]. split.
  - cbn. repeat split; intros a [= <-]; discriminate.
  - vm_compute. eexists; repeat split.
Qed.

(** Assignments: 1 takes over the values of 0 (and keeps them when 0 is destroyed), 2 those of 3. *)
Example C02_assign_nonvacuous :
  let ops := [New 2; Add 0 5; New 3; CopyAssign 1 0 true; Add 0 9; New 2; New 1; Add 3 4; MoveAssign 2 3; Add 2 1; Destroy 0;
              CopyAssign 3 2 false]%Z in
  spec_run [] ops = Some [Abs 2 [5; 9]%Z Destroyed; Abs 2 [5]%Z Copied; Abs 1 [4; 1]%Z Original; Abs 1 [4; 1]%Z Copied] /\
  no_add_to_copy [] ops /\
  exists w, run Z.ltb Z.gtb Z.eqb 0%Z init ops = Ok w /\ mh_max w 1 = Ok 5%Z /\ mh_max w 2 = Ok 1%Z /\ mh_max w 3 = Ok 1%Z.
Proof.
  split; [reflexivity|]. split.
  - cbn. repeat split; intros a [= <-]; discriminate.
  - vm_compute. eexists; repeat split.
Qed.

(** Adding to an object that was assigned to is no better than adding to a copy: with no other object left the
    value is written to memory that has been freed. *)
Theorem C02_assigned_object_refuted :
  exists (ops : list (op Z)) s,
    spec_run [] ops = Some s /\ nth_error s 1 = Some (Abs 2 [5; 7]%Z Copied) /\
    run Z.ltb Z.gtb Z.eqb 0%Z init ops = UB.
Proof.
  exists [New 2; Add 0 5; New 2; CopyAssign 1 0 true; Destroy 0; Add 1 7]%Z.
  eexists. split; [vm_compute; reflexivity|]. split; vm_compute; reflexivity.
Qed.
Print Assumptions C02_assigned_object_refuted.

(** C02 is false in general: adding to a copy writes through the copied
    iterator into the original's vector. The history below only uses live
    objects, yet the original's max() is 7 while its window is {1, 2}. *)
Theorem C02_copy_independence_refuted :
  exists (ops : list (op Z)) s w,
    spec_run [] ops = Some s /\
    run Z.ltb Z.gtb Z.eqb 0%Z init ops = Ok w /\
    nth_error s 0 = Some (Abs 2 [5; 7; 1; 2]%Z Original) /\
    window 2 [5; 7; 1; 2]%Z = [1; 2]%Z /\
    mh_max w 0 = Ok 7%Z.
Proof.
  exists [New 2; Add 0 5; Add 0 7; Copy 0; Add 1 9; Add 1 9; Add 0 1; Add 0 2]%Z.
  eexists; eexists. split; [vm_compute; reflexivity|]. split; [vm_compute; reflexivity|].
  split; [|split]; vm_compute; reflexivity.
Qed.
Print Assumptions C02_copy_independence_refuted.
