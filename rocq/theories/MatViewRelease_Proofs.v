From Verif Require Import Base MatView_Model MatView_Spec MatView_Proofs MatViewRelease_Model MatViewRelease_Spec.
Local Open Scope outcome_scope.
Local Open Scope Z_scope.

Ltac zb := repeat match goal with
  | |- context [Z.leb ?a ?b] => destruct (Z.leb_spec a b)
  | |- context [Z.ltb ?a ?b] => destruct (Z.ltb_spec a b) end.

Lemma part_agrees p v : legal_part p v -> part_debug p v = Ok (part_release p v).
Proof.
  destruct p; cbn [part_debug part_release legal_part]; unfold upto, inside; intros H;
  unfold block, block_rel, middle_rows, middle_rows_rel, middle_cols, middle_cols_rel, top_left, top_left_rel,
    top_right, top_right_rel, bottom_left, bottom_left_rel, bottom_right, bottom_right_rel,
    top_rows, top_rows_rel, left_cols, left_cols_rel, bottom_rows, bottom_rows_rel, right_cols, right_cols_rel;
  cbn [rows cols]; zb; cbn; zb; cbn; zb; cbn; zb; cbn; try reflexivity; exfalso; lia.
Qed.
Lemma part_aborts p v : ~ legal_part p v -> part_debug p v = Abort.
Proof.
  destruct p; cbn [part_debug part_release legal_part]; unfold upto, inside; intros H;
  unfold block, middle_rows, middle_cols, top_left, top_right, bottom_left, bottom_right,
    top_rows, left_cols, bottom_rows, right_cols;
  cbn [rows cols]; zb; cbn; zb; cbn; zb; cbn; zb; cbn; try reflexivity; exfalso; try lia; apply H; lia || exact I.
Qed.
Lemma legal_part_dec p v : legal_part p v \/ ~ legal_part p v.
Proof. destruct p; cbn; unfold upto, inside; lia. Qed.

Section Mem.
Context {V : Type}.
Variable add : V -> V -> V.

Lemma at_agrees v r c : in_range v r c -> at_ v r c = Ok (at_rel v r c).
Proof. unfold at_, at_rel, in_range. intros H. zb; cbn; try reflexivity; lia. Qed.

Lemma loop_ext {A} n : forall i (f g : Z -> A -> outcome A) s,
  (forall k s, i <= k < i + Z.of_nat n -> f k s = g k s) -> loop n i f s = loop n i g s.
Proof.
  induction n as [|n IH]; intros i f g s H; [reflexivity|]. cbn [loop]. rewrite (H i s) by lia.
  destruct (g i s); cbn; auto. apply IH. intros. apply H. lia.
Qed.
Lemma for_ext' {A} lo hi (f g : Z -> A -> outcome A) s :
  (forall k s, lo <= k < hi -> f k s = g k s) -> for_ lo hi f s = for_ lo hi g s.
Proof. intros H. unfold for_. apply loop_ext. intros k s' K. apply H. lia. Qed.

Lemma set_constant_agrees v (t : V) m : set_constant_rel v t m = set_constant v t m.
Proof.
  unfold set_constant, set_constant_rel. destruct (_ =? _); [reflexivity|].
  apply for_ext'. intros c s Hc. apply for_ext'. intros r s' Hr.
  rewrite at_agrees by (split; lia). reflexivity.
Qed.
Lemma generate_agrees gen v (m : mem V) : generate_rel gen v m = generate gen v m.
Proof.
  unfold generate, generate_rel. apply for_ext'. intros c s Hc. apply for_ext'. intros r [m' k] Hr.
  rewrite at_agrees by (split; lia). reflexivity.
Qed.
Lemma copy_values_agrees v w (m : mem V) : rows w = rows v -> cols w = cols v ->
  copy_values v w m = copy_values_rel v w m.
Proof. intros A B. unfold copy_values. rewrite A, B, !Z.eqb_refl. reflexivity. Qed.
Lemma add_assign_agrees v w (m : mem V) : rows w = rows v -> cols w = cols v ->
  add_assign add v w m = add_assign_rel add v w m.
Proof. intros A B. unfold add_assign. rewrite A, B, !Z.eqb_refl. reflexivity. Qed.
Lemma copy_values_reshaped v w (m : mem V) :
  copy_values_rel v w m = copy_values v (reshaped w (rows v) (cols v)) m.
Proof. symmetry. now rewrite copy_values_agrees. Qed.
Lemma add_assign_reshaped v w (m : mem V) :
  add_assign_rel add v w m = add_assign add v (reshaped w (rows v) (cols v)) m.
Proof. symmetry. now rewrite add_assign_agrees. Qed.

(** Nothing but the assertions ever gives [Abort]. *)
Definition alive {A} (o : outcome A) := o <> Abort.
Lemma alive_bind {A B} (o : outcome A) (f : A -> outcome B) : alive o -> (forall a, alive (f a)) -> alive (bind o f).
Proof. unfold alive. destruct o; cbn; try congruence; auto. Qed.
Lemma alive_loop {A} n : forall i (f : Z -> A -> outcome A) s, (forall k s, alive (f k s)) -> alive (loop n i f s).
Proof. induction n as [|n IH]; intros i f s H; [discriminate|]. cbn [loop]. apply alive_bind; auto. Qed.
Lemma alive_for {A} lo hi (f : Z -> A -> outcome A) s : (forall k s, alive (f k s)) -> alive (for_ lo hi f s).
Proof. apply alive_loop. Qed.
Lemma alive_load (m : mem V) a : alive (load m a).
Proof. unfold load, alive. destruct (m a); discriminate. Qed.
Lemma alive_store (m : mem V) a x : alive (store m a x).
Proof. unfold store, alive. destruct (m a); discriminate. Qed.
Lemma alive_ok {A} (a : A) : alive (Ok a). Proof. discriminate. Qed.
Ltac alive := repeat first
  [ apply alive_ok | apply alive_store | apply alive_load | apply alive_for; intros ? ?
  | apply alive_bind; [|intros ?]
  | match goal with |- alive (match ?x with _ => _ end) => destruct x end ].
Lemma alive_copy v w (m : mem V) : alive (copy_values_rel v w m).
Proof. unfold copy_values_rel, copy_n. alive. Qed.
Lemma alive_add v w (m : mem V) : alive (add_assign_rel add v w m).
Proof. unfold add_assign_rel. alive. Qed.
Lemma alive_release c s : alive (exec_release add c s).
Proof.
  destruct c; cbn [exec_release]; unfold set_constant_rel, generate_rel, set_constant_tri, set_diagonal, add_to_diagonal,
    add_scalar, fill_n; cbv zeta; try (destruct (Nat.eqb _ _)); alive; try apply alive_copy; try apply alive_add.
Qed.

Lemma exec_agrees c s : legal c (views s) -> exec_debug add c s = exec_release add c s.
Proof.
  destruct c; cbn [legal exec_debug exec_release]; intros H; try reflexivity.
  - now rewrite part_agrees.
  - now rewrite at_agrees.
  - now rewrite at_agrees.
  - now rewrite set_constant_agrees.
  - unfold assign_same_type. destruct (Nat.eqb_spec v w) as [->|N]; [reflexivity|].
    destruct H as [H|[A B]]; [contradiction|]. now rewrite copy_values_agrees.
  - destruct H as [A B]. now rewrite add_assign_agrees.
  - now rewrite generate_agrees.
Qed.
Lemma exec_aborts c s : ~ legal c (views s) -> exec_debug add c s = Abort.
Proof.
  destruct c; cbn [legal exec_debug]; intros H; try (now exfalso; apply H).
  - now rewrite part_aborts.
  - now rewrite at_abort.
  - now rewrite at_abort.
  - unfold assign_same_type. destruct (Nat.eqb_spec v w) as [->|N]; [exfalso; apply H; now left|].
    rewrite copy_values_mismatch; [reflexivity|]. intros K. apply H. now right.
  - rewrite add_assign_mismatch; auto.
Qed.
Lemma legal_dec (c : stmt V) vw : legal c vw \/ ~ legal c vw.
Proof.
  destruct c; cbn [legal]; try (left; exact I).
  - apply legal_part_dec.
  - unfold in_range. lia.
  - unfold in_range. lia.
  - destruct (Nat.eq_dec v w); [left; auto|]. destruct (Z.eq_dec (rows (vw w)) (rows (vw v))), (Z.eq_dec (cols (vw w)) (cols (vw v)));
    tauto.
  - destruct (Z.eq_dec (rows (vw w)) (rows (vw v))), (Z.eq_dec (cols (vw w)) (cols (vw v))); tauto.
Qed.
Lemma exec_iff c s : exec_debug add c s = Abort <-> ~ legal c (views s).
Proof.
  split; [|apply exec_aborts]. intros E L. rewrite exec_agrees in E by exact L. now apply (alive_release c s).
Qed.

Lemma run_agrees p : forall s, run_debug add p s <> Abort -> run_release add p s = run_debug add p s.
Proof.
  induction p as [|c p IH]; intros s H; [reflexivity|].
  unfold run_debug, run_release in *. cbn [run] in *.
  destruct (legal_dec c (views s)) as [L|L].
  - rewrite exec_agrees in * by exact L. destruct (exec_release add c s); cbn in *; auto.
  - rewrite exec_aborts in H by exact L. now contradict H.
Qed.
Lemma run_abort p : forall s, run_debug add p s = Abort <->
  exists p1 c p2 s', p = p1 ++ c :: p2 /\ run_debug add p1 s = Ok s' /\ run_release add p1 s = Ok s' /\ ~ legal c (views s').
Proof.
  unfold run_debug, run_release. induction p as [|c p IH]; intros s.
  - split; [discriminate|]. intros (p1 & c & p2 & s' & E & _). now destruct p1.
  - cbn [run]. split.
    + intros H. destruct (legal_dec c (views s)) as [L|L].
      * rewrite exec_agrees in H by exact L. pose proof (alive_release c s) as AL.
        destruct (exec_release add c s) as [s1| | |] eqn:E; cbn in H; try discriminate; [|now contradict AL].
        apply IH in H. destruct H as (p1 & c' & p2 & s' & -> & A & B & C).
        exists (c :: p1), c', p2, s'. cbn [app run]. rewrite exec_agrees, E by exact L. cbn. auto.
      * exists [], c, p, s. cbn. auto.
    + intros (p1 & c' & p2 & s' & E & A & B & C). destruct p1 as [|c1 p1]; cbn [app] in E; injection E as <- ->.
      * cbn in A. injection A as <-. now rewrite exec_aborts.
      * cbn [run] in A, B. destruct (exec_debug add c s) as [s1| | |] eqn:D; try discriminate. cbn in *.
        apply IH. exists p1, c', p2, s'. repeat split; auto.
        destruct (legal_dec c (views s)) as [L|L]; [|rewrite exec_aborts in D by exact L; discriminate].
        rewrite <- exec_agrees, D in B by exact L. exact B.
Qed.
End Mem.
