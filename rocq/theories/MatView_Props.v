(** C27-C31: MatrixView. *)
From Verif Require Import Base MatView_Model MatView_Spec MatView_Proofs.
Local Open Scope Z_scope.

(** C27. Every sub-view function answers every request correctly. *)
Theorem C27_subviews :
  forall v, 0 <= rows v -> 0 <= cols v ->
    (forall n, answers v (top_rows v n) 0 0 n (cols v)) /\
    (forall n, answers v (bottom_rows v n) (rows v - n) 0 n (cols v)) /\
    (forall n, answers v (left_cols v n) 0 0 (rows v) n) /\
    (forall n, answers v (right_cols v n) 0 (cols v - n) (rows v) n) /\
    (forall r n, answers v (middle_rows v r n) r 0 n (cols v)) /\
    (forall c n, answers v (middle_cols v c n) 0 c (rows v) n) /\
    (forall nr nc, answers v (top_left v nr nc) 0 0 nr nc) /\
    (forall nr nc, answers v (top_right v nr nc) 0 (cols v - nc) nr nc) /\
    (forall nr nc, answers v (bottom_left v nr nc) (rows v - nr) 0 nr nc) /\
    (forall nr nc, answers v (bottom_right v nr nc) (rows v - nr) (cols v - nc) nr nc) /\
    (forall r c nr nc, answers v (block v r c nr nc) r c nr nc).
Proof. exact subviews_all. Qed.
Print Assumptions C27_subviews.

(** Element access is defined exactly on the elements of the view. *)
Theorem C27_element_access :
  forall v r c, (in_range v r c -> at_ v r c = Ok (elem v r c)) /\ (~ in_range v r c -> at_ v r c = Abort).
Proof. exact (fun v r c => conj (at_ok v r c) (at_abort v r c)). Qed.
Print Assumptions C27_element_access.

Theorem C27_as_column :
  forall d n i, 0 <= i < n -> at_ (as_column d n) i 0 = Ok (d + i).
Proof. exact as_column_ok. Qed.
Print Assumptions C27_as_column.

Example C27_nonvacuous :
  let v := View 100 4 5 2 20 in
  block v 1 2 2 3 = Ok (View 142 2 3 2 20) /\ inside v 1 2 2 3 /\ block v 1 3 2 3 = Abort.
Proof. repeat split; cbn; lia. Qed.

(** C28. *)
Theorem C28_set_constant :
  forall (V : Type) v (t : V) m, allocated v m ->
  exists m', set_constant v t m = Ok m' /\
    (forall a, is_elem v a -> m' a = Some t) /\ (forall a, ~ is_elem v a -> m' a = m a).
Proof. exact @set_constant_ok. Qed.
Print Assumptions C28_set_constant.

Theorem C28_add_scalar :
  forall (V : Type) (add : V -> V -> V) v u m, allocated v m -> no_self_overlap v ->
  exists m', add_scalar add v u m = Ok m' /\
    (forall r c x, in_range v r c -> m (elem v r c) = Some x -> m' (elem v r c) = Some (add x u)) /\
    (forall a, ~ is_elem v a -> m' a = m a).
Proof. exact @add_scalar_ok. Qed.
Print Assumptions C28_add_scalar.

(** generate calls the generator once per element, column by column. *)
Theorem C28_generate :
  forall (V : Type) (gen : nat -> V) v m, allocated v m -> no_self_overlap v -> 0 <= rows v -> 0 <= cols v ->
  exists m', generate gen v m = Ok (m', Z.to_nat (rows v * cols v)) /\
    (forall r c, in_range v r c -> m' (elem v r c) = Some (gen (Z.to_nat (c * rows v + r)))) /\
    (forall a, ~ is_elem v a -> m' a = m a).
Proof. exact @generate_ok. Qed.
Print Assumptions C28_generate.

(** A block of [n] elements at address 0 holding their own address. *)
Definition mem_of (n : Z) : mem Z := fun a => if (0 <=? a) && (a <? n) then Some a else None.

Lemma mem_of_some n a : 0 <= a < n -> mem_of n a = Some a.
Proof. intros H. unfold mem_of. now replace ((0 <=? a) && (a <? n)) with true by lia. Qed.

Example C28_nonvacuous :
  let v := View 1 2 2 2 5 in
  allocated v (mem_of 9) /\ no_self_overlap v.
Proof.
  split.
  - intros a (r & c & [Hr Hc] & ->). unfold elem; cbn [data rows cols inner_stride outer_stride] in *. rewrite mem_of_some by lia. discriminate.
  - intros r c r' c' [Hr Hc] [Hr' Hc'] He. unfold elem in He; cbn [data rows cols inner_stride outer_stride] in *. lia.
Qed.

(** C29, where it is true: the code needs the shapes in [tri_shape]; every
    square view has such a shape. *)
Theorem C29_triangular_partial :
  forall (V : Type) v (t : V) tr m,
    inner_stride v = 1 ->
    match tr with
    | Lower => rows v <= cols v
    | StrictlyLower => rows v <= cols v + 1
    | Upper => rows v = cols v
    | StrictlyUpper => rows v <= cols v <= rows v + 1
    end ->
    allocated v m ->
    exists m', set_constant_tri v t tr m = Ok m' /\
      (forall r c, in_range v r c -> in_triangle tr r c -> m' (elem v r c) = Some t) /\
      (forall a, (forall r c, in_range v r c -> in_triangle tr r c -> a <> elem v r c) -> m' a = m a).
Proof. exact @set_tri_ok. Qed.
Print Assumptions C29_triangular_partial.

Example C29_nonvacuous :
  let v := View 0 3 3 1 4 in
  allocated v (mem_of 11) /\ rows v = cols v /\
  exists m', set_constant_tri v (-1) Lower (mem_of 11) = Ok m' /\
    map m' [0; 1; 2; 3; 4; 5; 6; 7; 8; 9; 10] =
    map Some [-1; -1; -1; 3; 4; -1; -1; 7; 8; 9; -1].
Proof.
  split; [|split; [reflexivity|]].
  - intros a (r & c & [Hr Hc] & ->). unfold elem; cbn [data rows cols inner_stride outer_stride] in *. rewrite mem_of_some by lia. discriminate.
  - eexists; split; reflexivity.
Qed.

(** C29 is false for views that are not square: all sizes use max(rows, cols).
    (1) a tall view that fills its array exactly is overrun;
    (2) the upper triangle of a wide view also overwrites elements below the
        diagonal of the next column. *)
Theorem C29_triangular_refuted :
  (let v := View 0 3 2 1 3 in
   allocated v (mem_of 6) /\ no_self_overlap v /\ set_constant_tri v 7 Lower (mem_of 6) = UB /\
   set_constant_tri v 7 Upper (mem_of 6) = UB) /\
  (let v := View 0 2 4 1 2 in
   exists m', allocated v (mem_of 10) /\ no_self_overlap v /\
     set_constant_tri v 77 Upper (mem_of 10) = Ok m' /\
     in_range v 1 0 /\ ~ in_triangle Upper 1 0 /\ m' 8 = Some 77 /\ m' 9 = Some 77 /\
     ~ is_elem v 8 /\ ~ is_elem v 9).
Proof.
  split.
  - cbn zeta. split; [|split; [|split; reflexivity]].
    + intros a (r & c & [Hr Hc] & ->). unfold elem; cbn [data rows cols inner_stride outer_stride] in *. rewrite mem_of_some by lia. discriminate.
    + intros r c r' c' [Hr Hc] [Hr' Hc'] He. unfold elem in He; cbn [data rows cols inner_stride outer_stride] in *. lia.
  - cbn zeta. eexists. split; [|split; [|split; [reflexivity|]]].
    + intros a (r & c & [Hr Hc] & ->). unfold elem; cbn [data rows cols inner_stride outer_stride] in *. rewrite mem_of_some by lia. discriminate.
    + intros r c r' c' [Hr Hc] [Hr' Hc'] He. unfold elem in He; cbn [data rows cols inner_stride outer_stride] in *. lia.
    + repeat split; try (cbn; lia); intros (r & c & [Hr Hc] & He); unfold elem in He; cbn [data rows cols inner_stride outer_stride] in *; lia.
Qed.
Print Assumptions C29_triangular_refuted.

(** C30 for square views. *)
Theorem C30_set_diagonal_partial :
  forall (V : Type) v (t : V) m, rows v = cols v -> allocated v m -> no_self_overlap v ->
  exists m', set_diagonal v t m = Ok m' /\
    (forall i, 0 <= i < rows v -> m' (elem v i i) = Some t) /\
    (forall a, (forall i, 0 <= i < rows v -> a <> elem v i i) -> m' a = m a).
Proof. exact @set_diagonal_ok. Qed.
Print Assumptions C30_set_diagonal_partial.

Theorem C30_add_to_diagonal_partial :
  forall (V : Type) (add : V -> V -> V) v t m, rows v = cols v -> allocated v m -> no_self_overlap v ->
  exists m', add_to_diagonal add v t m = Ok m' /\
    (forall i x, 0 <= i < rows v -> m (elem v i i) = Some x -> m' (elem v i i) = Some (add x t)) /\
    (forall a, (forall i, 0 <= i < rows v -> a <> elem v i i) -> m' a = m a).
Proof. exact @add_to_diagonal_ok. Qed.
Print Assumptions C30_add_to_diagonal_partial.

Theorem C30_diagonal_view_partial :
  forall v, rows v = cols v -> 0 <= rows v ->
  rows (diagonal v) = Z.min (rows v) (cols v) /\ cols (diagonal v) = 1 /\
  forall i, 0 <= i < rows v -> at_ (diagonal v) i 0 = Ok (elem v i i).
Proof. exact diagonal_view_ok. Qed.
Print Assumptions C30_diagonal_view_partial.

Example C30_nonvacuous :
  let v := View 0 3 3 1 4 in
  exists m', set_diagonal v (-1) (mem_of 11) = Ok m' /\
    map m' [0; 1; 4; 5; 6; 10] = map Some [-1; 1; 4; -1; 6; -1].
Proof. eexists; split; reflexivity. Qed.

(** C30 is false for views that are not square. *)
Theorem C30_diagonal_refuted :
  let v := View 0 3 1 1 3 in
  allocated v (mem_of 3) /\ no_self_overlap v /\
  set_diagonal v 7 (mem_of 3) = UB /\ add_to_diagonal Z.add v 7 (mem_of 3) = UB /\
  rows (diagonal v) = 3 /\ at_ (diagonal v) 2 0 = Ok 8 /\ ~ is_elem v 8.
Proof.
  cbn zeta. split; [|split; [|repeat split]].
  - intros a (r & c & [Hr Hc] & ->). unfold elem; cbn [data rows cols inner_stride outer_stride] in *. rewrite mem_of_some by lia. discriminate.
  - intros r c r' c' [Hr Hc] [Hr' Hc'] He. unfold elem in He; cbn [data rows cols inner_stride outer_stride] in *. lia.
  - intros (r & c & [Hr Hc] & He); unfold elem in He; cbn [data rows cols inner_stride outer_stride] in *; lia.
Qed.
Print Assumptions C30_diagonal_refuted.

(** C31. Both assignment operators copy all values when the shapes agree. *)
Theorem C31_assign :
  forall (V : Type) v other (m : mem V),
    rows other = rows v -> cols other = cols v ->
    allocated v m -> allocated other m -> no_self_overlap v -> disjoint v other ->
    exists m', assign v other m = Ok m' /\ assign_same_type false v other m = Ok m' /\
      (forall r c, in_range v r c -> m' (elem v r c) = m (elem other r c)) /\
      (forall a, ~ is_elem v a -> m' a = m a).
Proof.
  exact (fun V v other m h1 h2 h3 h4 h5 h6 =>
    match copy_values_ok v other m h1 h2 h3 h4 h5 h6 with
    | ex_intro _ m' (conj a (conj b c)) => ex_intro _ m' (conj a (conj a (conj b c))) end).
Qed.
Print Assumptions C31_assign.

Theorem C31_add_assign :
  forall (V : Type) (add : V -> V -> V) v other m,
    rows other = rows v -> cols other = cols v ->
    allocated v m -> allocated other m -> no_self_overlap v -> disjoint v other ->
    exists m', add_assign add v other m = Ok m' /\
      (forall r c x y, in_range v r c -> m (elem v r c) = Some x -> m (elem other r c) = Some y ->
         m' (elem v r c) = Some (add x y)) /\
      (forall a, ~ is_elem v a -> m' a = m a).
Proof. exact @add_assign_ok. Qed.
Print Assumptions C31_add_assign.

(** Shape mismatches are caught; assigning a view object to itself does nothing;
    reassign changes the view object only. *)
Theorem C31_other_cases :
  forall (V : Type) (add : V -> V -> V) v other (m : mem V),
    (~ (rows other = rows v /\ cols other = cols v) ->
       assign v other m = Abort /\ assign_same_type false v other m = Abort /\
       add_assign add v other m = Abort) /\
    assign_same_type true v v m = Ok m /\
    reassign v other = other.
Proof.
  exact (fun V add v other m => conj
    (fun h => conj (copy_values_mismatch v other m h) (conj (copy_values_mismatch v other m h)
       (add_assign_mismatch add v other m h)))
    (conj eq_refl match other return reassign v other = other with View _ _ _ _ _ => eq_refl end)).
Qed.
Print Assumptions C31_other_cases.

Example C31_nonvacuous :
  let v := View 0 2 2 1 3 in let w := View 10 2 2 2 5 in
  allocated v (mem_of 18) /\ allocated w (mem_of 18) /\ no_self_overlap v /\ disjoint v w /\
  exists m', assign v w (mem_of 18) = Ok m' /\ map m' [0; 1; 2; 3; 4] = map Some [10; 12; 2; 15; 17].
Proof.
  cbn zeta. repeat split.
  - intros a (r & c & [Hr Hc] & ->). unfold elem; cbn [data rows cols inner_stride outer_stride] in *. rewrite mem_of_some by lia. discriminate.
  - intros a (r & c & [Hr Hc] & ->). unfold elem; cbn [data rows cols inner_stride outer_stride] in *. rewrite mem_of_some by lia. discriminate.
  - destruct H, H0. unfold elem in H1; cbn [data rows cols inner_stride outer_stride] in *. lia.
  - destruct H, H0. unfold elem in H1; cbn [data rows cols inner_stride outer_stride] in *. lia.
  - intros a (r & c & [Hr Hc] & ->) (r' & c' & [Hr' Hc'] & He). unfold elem in *; cbn [data rows cols inner_stride outer_stride] in *. lia.
  - eexists; split; reflexivity.
Qed.
