From Verif Require Import Base MatView_Model MatView_Spec MatView_Proofs MatViewRelease_Model MatViewRelease_Spec MatViewRelease_Proofs.
Local Open Scope Z_scope.

(** C101: release builds. A program that does not trip an assertion in a debug
    build does in a release build exactly what it does there: same views, same
    arrays, same output, same undefined behaviour. *)
Theorem C101_release_agrees : forall {V} (add : V -> V -> V) p s,
  run_debug add p s <> Abort -> run_release add p s = run_debug add p s.
Proof. exact @run_agrees. Qed.
Print Assumptions C101_release_agrees.

(** The assertions trip exactly for the calls that are out of range or of a different shape. *)
Theorem C101_assertions_exact : forall {V} (add : V -> V -> V) c s,
  exec_debug add c s = Abort <-> ~ legal c (views s).
Proof. exact @exec_iff. Qed.
Print Assumptions C101_assertions_exact.

(** A program stops at an assertion if and only if it comes to such a call; up
    to that call both builds are in the same state. *)
Theorem C101_abort_exact : forall {V} (add : V -> V -> V) p s,
  run_debug add p s = Abort <->
  exists p1 c p2 s', p = p1 ++ c :: p2 /\ run_debug add p1 s = Ok s' /\ run_release add p1 s = Ok s' /\
    ~ legal c (views s').
Proof. exact @run_abort. Qed.
Print Assumptions C101_abort_exact.

(** An assignment between different shapes in a release build: the shape of the
    source is ignored, as if it had the shape of the destination. *)
Theorem C101_mismatched_assignment : forall {V} (add : V -> V -> V) v w (m : mem V),
  copy_values_rel v w m = copy_values v (reshaped w (rows v) (cols v)) m /\
  add_assign_rel add v w m = add_assign add v (reshaped w (rows v) (cols v)) m.
Proof. split; [apply copy_values_reshaped | apply add_assign_reshaped]. Qed.
Print Assumptions C101_mismatched_assignment.

(** An index out of range in a release build, in a contiguous matrix: if the
    element it stands for is in the array, that element is accessed instead. *)
Theorem C101_index_out_of_range : forall v r c,
  inner_stride v = 1 -> outer_stride v = rows v -> 0 < rows v ->
  0 <= r + c * rows v < rows v * cols v ->
  let r' := (r + c * rows v) mod rows v in
  let c' := (r + c * rows v) / rows v in
  in_range v r' c' /\ at_rel v r c = elem v r' c' /\ (in_range v r c <-> r' = r /\ c' = c).
Proof.
  intros v r c I O P B r' c'.
  pose proof (Z.div_mod (r + c * rows v) (rows v) ltac:(lia)) as D.
  pose proof (Z.mod_pos_bound (r + c * rows v) (rows v) P) as M.
  fold r' c' in D. fold r' in M.
  assert (IR : in_range v r' c') by (split; [lia|nia]).
  split; [exact IR|]. split.
  - unfold at_rel, elem. rewrite I, O. lia.
  - split; [|intros [E1 E2]; rewrite E1, E2 in IR; exact IR]. intros [A _].
    unfold r', c'. rewrite Z.mod_add, Z.div_add by lia. rewrite Z.mod_small, Z.div_small by lia. lia.
Qed.
Print Assumptions C101_index_out_of_range.

(** Non-vacuity: a 2x2 matrix in an array of four. Legal programs output the same; v(2,0)
    trips the assertion, or in a release build reads v(0,1); and assigning a 4x1 matrix to a
    2x2 matrix with outer stride 2 copies its elements. *)
Example array4 : mem Z := fun a => if (0 <=? a) && (a <? 8) then Some (10 * a) else None.
Example vw (i : nat) : view := match i with O => View 0 2 2 1 2 | _ => View 4 4 1 1 2 end.
Example s0 : state Z := State vw array4 [].
Example prog : list (stmt Z) :=
  [Part 1 1 (TopRows 2); Part 2 0 (RightCols 1); Assign 2 1; AddScalar 0 1; Read 0 0 0; Read 0 1 1; Read 2 0 0].
Example run1 : match run_debug Z.add prog s0, run_release Z.add prog s0 with
  | Ok a, Ok b => output a = [1; 51; 41] /\ output b = [1; 51; 41] | _, _ => False end.
Proof. vm_compute. split; reflexivity. Qed.
Example run2 : run_debug Z.add [Read 0 2 0] s0 = Abort /\
  match run_release Z.add [Read 0 2 0; Read 0 0 1] s0 with Ok a => output a = [20; 20] | _ => False end.
Proof. vm_compute. split; reflexivity. Qed.
Example run3 : run_debug Z.add [Assign 0 1] s0 = Abort /\
  match run_release Z.add [Assign 0 1; Read 0 0 0; Read 0 1 1] s0 with Ok a => output a = [40; 70] | _ => False end.
Proof. vm_compute. split; reflexivity. Qed.
Example illegal : ~ legal (Assign (V := Z) 0 1) vw /\ legal (Part (V := Z) 1 1 (TopRows 2)) vw.
Proof. cbn. unfold upto. cbn. split; [intros [?|[? ?]]; discriminate|lia]. Qed.
