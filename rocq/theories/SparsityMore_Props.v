(** C41, C43, C65: refuted parts; C66: conversion paths agree; non-vacuity of C32-C43. *)
From Verif Require Import Base Sparsity_Spec Sparsity_Model Sparsity_Base Sparsity_Csc Sparsity_Conv Sparsity_CscCsc Sparsity_ToCoo Sparsity_FromDense Sparsity_ToDense Sparsity_All Sparsity_Into Sparsity_Props.
Local Open Scope outcome_scope.

(** ** A sorting algorithm: insertion sort *)
Fixpoint insert {A} (lt : A -> A -> bool) (x : A) (l : list A) : list A :=
  match l with [] => [x] | y :: l' => if lt y x then y :: insert lt x l' else x :: l end.
Definition isort : sorter := fun A _ lt l => fold_right (insert lt) [] l.
Lemma insert_perm {A} (lt : A -> A -> bool) x l : Permutation (insert lt x l) (x :: l).
Proof. induction l as [|y l IH]; cbn; [reflexivity|]. destruct (lt y x); [|reflexivity]. rewrite IH. apply perm_swap. Qed.
Lemma isort_good : good_sorter isort.
Proof.
  intros A id lt l (Hirr & Htr & Hntr). unfold isort. split.
  - induction l as [|x l IH]; cbn; [constructor|]. rewrite insert_perm. now constructor.
  - induction l as [|x l IH]; cbn; [constructor|]. generalize dependent (fold_right (insert lt) [] l). clear l. intros l Hs.
    induction Hs as [|y l Hs IH Hf]; cbn.
    + repeat constructor.
    + destruct (lt y x) eqn:E.
      * constructor; auto. apply Forall_forall. intros z Hz. apply (Permutation_in _ (insert_perm lt x l)) in Hz. destruct Hz as [<-|Hz].
        { destruct (lt x y) eqn:E2; auto. rewrite <- (Hirr y). symmetry. apply (Htr y x y); auto. }
        { rewrite Forall_forall in Hf. auto. }
      * constructor; [now constructor|]. apply Forall_forall. intros z [<-|Hz]; auto. rewrite Forall_forall in Hf. specialize (Hf z Hz).
        apply (Hntr z y x); auto.
Qed.

(** ** C41 *)
(** An empty result whose span has a non-null pointer fails the assertion. *)
Theorem C41_empty_result_refuted : exists (s : sparsity) (c : conv),
  source_ok s /\ supported s ToDense /\ indices_fit s ToDense /\ no_duplicates true s ToDense /\
  construct true isort s ToDense = Ok c /\ convert_values_copy true 0%Z c [] = Ok [] /\
  convert_values_into true 0%Z c false [] (fun n => repeat 0%Z n) [] = Abort.
Proof.
  exists (SpCsc Int Int (Csc 0 0 Unsymmetric [] [0%Z] CscUnsorted)). eexists.
  split; [|split; [intros H; now elim H|split; [exact I|split; [constructor|split; [vm_compute; reflexivity|split; vm_compute; reflexivity]]]]].
  split; [|exact I]. repeat split; auto; [intros c Hc; cbn in Hc; lia|constructor].
Qed.
(** A result span that is larger than needed (which the code checks for with >=)
    fails the assertion on the size. *)
Theorem C41_larger_result_refuted : exists (s : sparsity) (c : conv),
  source_ok s /\ construct true isort s (ToCoo Int None) = Ok c /\
  convert_values_into true 0%Z c false [0; 0]%Z (fun n => repeat 7%Z n) [] = Abort /\
  convert_values_into false 0%Z c false [0; 0]%Z (fun n => repeat 7%Z n) [] = Ok ([7; 0]%Z, [1], []).
Proof.
  exists (SpCsc Int Int (Csc 1 1 Unsymmetric [0%Z] [0; 1]%Z CscUnsorted)). eexists.
  split; [|split; [vm_compute; reflexivity|split; vm_compute; reflexivity]].
  split; [|exact I]. repeat split; auto.
  - intros c Hc. destruct c; [cbn; lia|cbn in Hc; lia].
  - repeat constructor; cbn; lia.
Qed.

(** ** C43 *)
(** Converting 64-bit indices to 32 bits: row 2^32 silently becomes row 0. *)
Definition wide (rows : nat) : coo := Coo rows 1 Unsymmetric [4294967296%Z] [0%Z] Unsorted 0.
Theorem C43_silent_wrap_refuted dbg : exists (p : coo) (c : conv) (p' : coo),
  valid_coo p /\ coo_truthful p /\ NoDup (coo_entries p) /\
  construct dbg isort (SpCoo Long p) (ToCoo Int None) = Ok c /\ result_coo c = Some p' /\
  coo_entries p = [(4294967296, 0)]%Z /\ coo_entries p' = [(0, 0)]%Z.
Proof.
  set (rows := Z.to_nat 4294967297). assert (Hr : Z.of_nat rows = 4294967297%Z) by (unfold rows; now rewrite Z2Nat.id by lia). clearbody rows.
  exists (wide rows), (CooCoo (Coo rows 1 Unsymmetric [0%Z] [0%Z] Unsorted 0)), (Coo rows 1 Unsymmetric [0%Z] [0%Z] Unsorted 0).
  split; [|split; [exact I|split; [|split; [|split; [reflexivity|split; reflexivity]]]]].
  - split; [reflexivity|]. constructor; [|constructor]. unfold in_bounds. cbn [fst snd wide o_first o_rows o_cols]. rewrite Hr. cbn. lia.
  - repeat constructor. intros [].
  - destruct dbg; reflexivity.
Qed.

(** ** C65 *)
Theorem C65_requests_accepted_partial {V} (zero : V) dbg srt (Hsrt : good_sorter srt) (s : sparsity) (ti ts : ity) (o : option csc_order) :
  source_ok s -> supported s (ToCsc ti ts o) -> indices_fit s (ToCsc ti ts o) -> no_duplicates dbg s (ToCsc ti ts o) ->
  (dbg = false \/ o <> Some CscUnsorted) ->
  exists c p, construct dbg srt s (ToCsc ti ts o) = Ok c /\ result_csc c = Some p /\ (o = Some SortedRows -> c_order p = SortedRows).
Proof.
  intros Hs Hsup Hf Hn Ho. destruct (csc_result zero dbg srt Hsrt s ti ts o Hs Hsup Hf Hn) as (c & p & E & R & _ & _ & _ & _ & _ & A & _).
  { unfold request_ok. destruct s, o as [[|]|]; auto. intros ->. destruct Ho; congruence. }
  eauto.
Qed.
Theorem C65_unsorted_request_refuted : exists s : sparsity,
  source_ok s /\ supported s (ToCsc Int Int (Some CscUnsorted)) /\ indices_fit s (ToCsc Int Int (Some CscUnsorted)) /\
  no_duplicates true s (ToCsc Int Int (Some CscUnsorted)) /\
  construct true isort s (ToCsc Int Int (Some CscUnsorted)) = Abort.
Proof.
  exists (SpCoo Int (Coo 2 2 Unsymmetric [0; 1]%Z [0; 1]%Z SortedByColsAndRows 0)).
  split; [|split; [exact I|split; [|split; [|reflexivity]]]].
  - split.
    + split; [reflexivity|]. repeat constructor; cbn; lia.
    + repeat constructor; unfold col_major; cbn; lia.
  - repeat split; cbn; lia.
  - intros _. cbn. repeat constructor; cbn; intuition congruence.
Qed.

(** ** C66: the way to the dense matrix does not matter *)
Lemma list_ext {A} : forall l l' : list A, (forall i, nth_error l i = nth_error l' i) -> l = l'.
Proof.
  induction l as [|x l IH]; intros [|y l'] H; auto; try (specialize (H 0); discriminate).
  pose proof (H 0) as H0. injection H0 as ->. f_equal. apply IH. intros i. exact (H (S i)).
Qed.
Section Paths.
Context {V : Type} (zero : V) (dbg : bool) (srt : sorter) (Hsrt : good_sorter srt).
Lemma stored_combine sy es (vals : list V) r c v : stored sy es vals r c v <->
  In ((Z.of_nat r, Z.of_nat c), Some v) (combine es (map Some vals)) \/ (sy <> Unsymmetric /\ In ((Z.of_nat c, Z.of_nat r), Some v) (combine es (map Some vals))).
Proof.
  assert (K : forall e, In (e, Some v) (combine es (map Some vals)) <-> exists i, nth_error es i = Some e /\ nth_error vals i = Some v).
  { intros e. rewrite in_combine_nth. split; intros (i & H1 & H2); exists i; (split; [exact H1|]).
    - rewrite nth_error_map in H2. destruct (nth_error vals i) eqn:Ev; cbn in *; congruence.
    - rewrite nth_error_map, H2. reflexivity. }
  unfold stored. rewrite !K. split.
  - intros (i & H & [E|[Hs E]]); [left|right; split; auto]; exists i; auto.
  - intros [(i & E & H)|[Hs (i & E & H)]]; exists i; auto.
Qed.
Lemma dense_unique rows cols sy es es' (vals vals' : list V) w w' :
  Permutation (combine es (map Some vals)) (combine es' (map Some vals')) ->
  is_dense_of zero rows cols sy es vals w -> is_dense_of zero rows cols sy es' vals' w' ->
  (forall r c, (exists v, stored sy es vals r c v) \/ forall v, ~ stored sy es vals r c v) -> w = w'.
Proof.
  intros P [L H] [L' H'] Dec. apply list_ext. intros i.
  assert (St : forall r c v, stored sy es vals r c v <-> stored sy es' vals' r c v).
  { intros r c v. rewrite !stored_combine. split; (intros [K|[Hs K]]; [left|right; split; auto]); [exact (Permutation_in _ P K)|exact (Permutation_in _ P K)|exact (Permutation_in _ (Permutation_sym P) K)|exact (Permutation_in _ (Permutation_sym P) K)]. }
  destruct (Nat.lt_ge_cases i (rows * cols)) as [Hi|Hi].
  - assert (Hr0 : rows <> 0) by (intros ->; cbn in Hi; lia).
    pose proof (Nat.div_mod i rows Hr0) as Hdm. pose proof (Nat.mod_upper_bound i rows Hr0) as Hr.
    assert (Hc : i / rows < cols) by (apply Nat.div_lt_upper_bound; lia).
    destruct (H (i mod rows) (i / rows) Hr Hc) as [H1 H2]. destruct (H' (i mod rows) (i / rows) Hr Hc) as [H1' H2'].
    unfold element in *. replace (i mod rows + i / rows * rows) with i in * by lia.
    destruct (Dec (i mod rows) (i / rows)) as [[v Hv]|Hn].
    + rewrite (H1 v Hv), (H1' v) by now apply St. reflexivity.
    + rewrite (H2 Hn), H2'; auto. intros v Hv. apply (Hn v). now apply St.
  - rewrite (proj2 (nth_error_None w i)) by lia. symmetry. apply nth_error_None. lia.
Qed.
Lemma stored_dec sy es (vals : list V) r c : (exists v, stored sy es vals r c v) \/ forall v, ~ stored sy es vals r c v.
Proof.
  assert (K : forall e : Z * Z, (exists i v, nth_error es i = Some e /\ nth_error vals i = Some v) \/ forall i v, ~ (nth_error es i = Some e /\ nth_error vals i = Some v)).
  { intros e. revert vals. induction es as [|x es IH]; intros [|y vals].
    - right. intros [|i] v [H1 H2]; discriminate.
    - right. intros [|i] v [H1 H2]; discriminate.
    - right. intros [|i] v [H1 H2]; discriminate.
    - destruct (IH vals) as [(i & v & H)|H]; [left; exists (S i), v; exact H|].
      destruct e as [e1 e2], x as [x1 x2]. destruct (Z.eq_dec x1 e1) as [->|N1], (Z.eq_dec x2 e2) as [->|N2]; [left; exists 0, y; auto|right|right|right];
        intros [|i] v [H1 H2]; try (injection H1; congruence); apply (H i v); auto. }
  destruct (K (Z.of_nat r, Z.of_nat c)) as [(i & v & H1 & H2)|H]; [left; exists v, i; auto|].
  destruct sy.
  - right. intros v (i & H1 & [H2|[H2 _]]); [apply (H i v); auto|congruence].
  - destruct (K (Z.of_nat c, Z.of_nat r)) as [(i & v & H1 & H2)|H']; [left; exists v, i; split; auto; right; split; [discriminate|auto]|].
    right. intros v (i & H1 & [H2|[_ H2]]); [apply (H i v); auto|apply (H' i v); auto].
  - destruct (K (Z.of_nat c, Z.of_nat r)) as [(i & v & H1 & H2)|H']; [left; exists v, i; split; auto; right; split; [discriminate|auto]|].
    right. intros v (i & H1 & [H2|[_ H2]]); [apply (H i v); auto|apply (H' i v); auto].
Qed.
Lemma copy_of_values c s es rel vals : values_ok zero dbg c s es rel -> length vals = source_size s ->
  exists v, convert_values_copy dbg zero c vals = Ok v /\ length v = length es /\ rel (combine es (map Some v)) (triples s vals).
Proof.
  intros (_ & ws & W & C) Hl. destruct (C vals (repeat zero ws) Hl (repeat_length _ _)) as (r & w & E & E2 & E3).
  exists (values_out r vals w). unfold convert_values_copy. rewrite W. cbn [bind]. rewrite E. cbn [bind]. auto.
Qed.
Lemma copy_of_dense c rows cols (vals : list V) (P : list V -> Prop) : work_size dbg c = Ok (rows * cols) ->
  (forall work, length work = rows * cols -> exists w, convert_values dbg zero c vals work = Ok (RWork, w) /\ P w) ->
  exists w, convert_values_copy dbg zero c vals = Ok w /\ P w.
Proof.
  intros W C. destruct (C (repeat zero (rows * cols)) (repeat_length _ _)) as (w & E & HP). exists w. split; auto.
  unfold convert_values_copy. rewrite W. cbn [bind]. rewrite E. reflexivity.
Qed.
Lemma sparse_triples s (vals : list V) : (forall d, s <> SpDense d) -> triples s vals = combine (source_entries s) (map Some vals).
Proof. destruct s as [d| |]; auto. intros H. now destruct (H d). Qed.
Lemma source_length s : source_ok s -> (forall d, s <> SpDense d) -> length (source_entries s) = source_size s.
Proof.
  destruct s as [d|ti ts p|ti p]; cbn; intros Hs H; [now destruct (H d)|apply entries_length|apply coo_entries_length]; apply Hs.
Qed.

Theorem C66_via_csc (s : sparsity) (ti ts : ity) (o : option csc_order) :
  source_ok s -> (forall d, s <> SpDense d) -> NoDup (source_entries s) ->
  shape_ok (source_sym s) (source_rows s) (source_cols s) -> Forall (fun e => ~ wrong_side (source_sym s) e) (source_entries s) ->
  indices_fit s ToDense -> indices_fit s (ToCsc ti ts o) -> request_ok dbg s (ToCsc ti ts o) ->
  exists direct first second p,
    construct dbg srt s ToDense = Ok direct /\
    construct dbg srt s (ToCsc ti ts o) = Ok first /\ result_csc first = Some p /\
    construct dbg srt (SpCsc ti ts p) ToDense = Ok second /\
    forall vals, length vals = source_size s -> exists v w,
      convert_values_copy dbg zero direct vals = Ok w /\
      convert_values_copy dbg zero first vals = Ok v /\ convert_values_copy dbg zero second v = Ok w.
Proof.
  intros Hs Hd Hn Hsh Hw Hf Hf2 Hr.
  destruct (C35_sparse_to_dense zero dbg srt s Hs Hd Hf Hn Hsh Hw) as (c1 & E1 & _ & _ & W1 & C1).
  assert (Hsup : dense_supported s) by (destruct s as [d| |]; [now destruct (Hd d)|exact I|exact I]).
  destruct (csc_result zero dbg srt Hsrt s ti ts o Hs Hsup Hf2) as (c2 & p & E2 & R2 & A1 & A2 & A3 & (A4 & A4') & A5 & _ & C2); auto.
  { destruct s as [d| |]; [now destruct (Hd d)| |]; cbn; auto. }
  assert (Pe : Permutation (csc_entries p) (source_entries s)).
  { destruct (copy_of_values c2 s _ _ (repeat zero (source_size s)) C2 (repeat_length _ _)) as (v & _ & Lv & P).
    apply (Permutation_map fst) in P. rewrite sparse_triples, !map_fst_combine in P; auto; rewrite ?map_length, ?repeat_length; auto.
    now apply source_length. }
  destruct (C35_sparse_to_dense zero dbg srt (SpCsc ti ts p)) as (c3 & E3 & _ & _ & W3 & C3); cbn [source_ok indices_fit source_entries source_sym source_rows source_cols] in *; auto.
  { discriminate. }
  { eapply Permutation_NoDup; [apply Permutation_sym; exact Pe|exact Hn]. }
  { now rewrite A1, A2, A3. }
  { rewrite A3. eapply Permutation_Forall; [apply Permutation_sym; exact Pe|exact Hw]. }
  exists c1, c2, c3, p. repeat (split; [assumption|]). intros vals Hl.
  destruct (copy_of_values c2 s _ _ vals C2 Hl) as (v & Ev & Lv & P).
  destruct (copy_of_dense c1 _ _ vals _ W1 (fun work => C1 vals work Hl)) as (w & Ew & D1).
  assert (Lv' : length v = length (c_inner p)) by (rewrite Lv; now apply entries_length).
  destruct (copy_of_dense c3 _ _ v _ W3 (fun work => C3 v work Lv')) as (w' & Ew' & D3).
  exists v, w. split; [exact Ew|]. split; [exact Ev|]. rewrite Ew'. f_equal.
  cbn [source_size] in *. rewrite A1, A2, A3 in D3. rewrite sparse_triples in P by auto.
  eapply dense_unique; [exact P|exact D3|exact D1|]. intros. apply stored_dec.
Qed.
Theorem C66_via_coo (s : sparsity) (ti : ity) (f : option Z) :
  source_ok s -> (forall d, s <> SpDense d) -> NoDup (source_entries s) ->
  shape_ok (source_sym s) (source_rows s) (source_cols s) -> Forall (fun e => ~ wrong_side (source_sym s) e) (source_entries s) ->
  indices_fit s ToDense -> indices_fit s (ToCoo ti f) ->
  exists direct first second p,
    construct dbg srt s ToDense = Ok direct /\
    construct dbg srt s (ToCoo ti f) = Ok first /\ result_coo first = Some p /\
    construct dbg srt (SpCoo ti p) ToDense = Ok second /\
    forall vals, length vals = source_size s -> exists v w,
      convert_values_copy dbg zero direct vals = Ok w /\
      convert_values_copy dbg zero first vals = Ok v /\ convert_values_copy dbg zero second v = Ok w.
Proof.
  intros Hs Hd Hn Hsh Hw Hf Hf2.
  destruct (C35_sparse_to_dense zero dbg srt s Hs Hd Hf Hn Hsh Hw) as (c1 & E1 & _ & _ & W1 & C1).
  assert (Hsup : dense_supported s) by (destruct s as [d| |]; [now destruct (Hd d)|exact I|exact I]).
  destruct (coo_result zero dbg srt s ti f Hs Hsup Hf2) as (c2 & p & E2 & R2 & A1 & A2 & A3 & A4 & A5 & A6 & A7 & C2).
  { destruct s as [d| |]; [now destruct (Hd d)| |]; cbn; auto. }
  destruct (C35_sparse_to_dense zero dbg srt (SpCoo ti p)) as (c3 & E3 & _ & _ & W3 & C3); cbn [source_ok indices_fit source_entries source_sym source_rows source_cols] in *; auto.
  { discriminate. }
  { rewrite A1, A2. destruct s as [d|t1 t2 q|t q]; [now destruct (Hd d)| |]; cbn [indices_fit] in Hf2.
    - destruct Hf2 as (_ & F1 & F2 & _). auto.
    - destruct Hf2 as (_ & _ & _ & F1 & F2 & _). auto. }
  { now rewrite A7. }
  { now rewrite A1, A2, A3. }
  { now rewrite A3, A7. }
  exists c1, c2, c3, p. repeat (split; [assumption|]). intros vals Hl.
  destruct (copy_of_values c2 s _ _ vals C2 Hl) as (v & Ev & Lv & P).
  destruct (copy_of_dense c1 _ _ vals _ W1 (fun work => C1 vals work Hl)) as (w & Ew & D1).
  assert (Lv' : length v = length (o_row p)) by (rewrite Lv; now apply coo_entries_length).
  destruct (copy_of_dense c3 _ _ v _ W3 (fun work => C3 v work Lv')) as (w' & Ew' & D3).
  exists v, w. split; [exact Ew|]. split; [exact Ev|]. rewrite Ew'. f_equal.
  cbn [source_size] in *. rewrite A1, A2, A3 in D3. rewrite sparse_triples in P by auto.
  eapply dense_unique; [|exact D3|exact D1|].
  - rewrite P. reflexivity.
  - intros. apply stored_dec.
Qed.

(** Dense to CSC and back. With Upper symmetry the data has to be symmetric. *)
Theorem C66_dense_round_trip (d : dense) (ti ts : ity) (o : option csc_order) :
  dense_supported (SpDense d) -> fits ti (Z.of_nat (d_rows d)) -> fits ts (Z.of_nat (length (dense_entries d))) ->
  exists first second p,
    construct dbg srt (SpDense d) (ToCsc ti ts o) = Ok first /\ result_csc first = Some p /\
    construct dbg srt (SpCsc ti ts p) ToDense = Ok second /\
    forall vals, length vals = d_rows d * d_cols d ->
      (d_sym d = Upper -> forall r c, r < d_rows d -> c < d_cols d -> element (d_rows d) vals r c = element (d_rows d) vals c r) ->
      exists v, convert_values_copy dbg zero first vals = Ok v /\ convert_values_copy dbg zero second v = Ok vals.
Proof.
  intros Hd F1 F2.
  destruct (C34_dense_to_csc zero dbg srt ti ts d o Hd F1 F2) as (c2 & p & E2 & R2 & A1 & A2 & A3 & A4 & C2).
  destruct (C34_dense_entries d Hd) as (Nd & Sd & Id).
  destruct (csc_result zero dbg srt Hsrt (SpDense d) ti ts o I Hd (conj F1 F2) (fun _ => Nd)) as (c2' & p' & E2' & R2' & _ & _ & _ & (Vp & Lp) & Tp & _).
  { destruct o as [[|]|]; exact I. }
  rewrite E2 in E2'. injection E2' as <-. rewrite R2 in R2'. injection R2' as <-.
  assert (Hw : Forall (fun e => ~ wrong_side (c_sym p) e) (csc_entries p)).
  { rewrite A3, A4. apply Forall_forall. intros [r c] He. apply Id in He. destruct He as (_ & _ & Hu). cbn in Hd. unfold wrong_side. cbn.
    destruct (d_sym d); [auto| |destruct Hd]. specialize (Hu eq_refl). lia. }
  assert (Hsh : shape_ok (c_sym p) (c_rows p) (c_cols p)).
  { rewrite A1, A2, A3. intros Hs. cbn in Hd. destruct (d_sym d); [congruence|auto|destruct Hd]. }
  destruct (C35_sparse_to_dense zero dbg srt (SpCsc ti ts p)) as (c3 & E3 & _ & _ & W3 & C3); cbn [source_ok indices_fit source_entries source_sym source_rows source_cols] in *; auto.
  { discriminate. }
  { now rewrite A4. }
  exists c2, c3, p. repeat (split; [assumption|]). intros vals Hl Hsym.
  destruct (copy_of_values c2 (SpDense d) _ _ vals C2 Hl) as (v & Ev & Lv & P).
  assert (Lv' : length v = length (c_inner p)) by (rewrite Lv; now apply entries_length).
  destruct (copy_of_dense c3 _ _ v _ W3 (fun work => C3 v work Lv')) as (w & Ew & [Lw D3]).
  exists v. split; [exact Ev|]. rewrite Ew. f_equal. rewrite A1, A2, A3, A4 in *.
  assert (St : forall r c, r < d_rows d -> c < d_cols d -> (d_sym d = Upper -> r <= c) ->
     forall x, element (d_rows d) vals r c = Some x -> stored (d_sym d) (dense_entries d) v r c x).
  { intros r c Hr Hc Hu x Hx. apply stored_combine. left. rewrite P. cbn [triples]. apply in_map_iff. exists (Z.of_nat r, Z.of_nat c).
    cbn [fst snd]. rewrite !Nat2Z.id, Hx. split; [reflexivity|]. apply Id. unfold in_bounds. repeat split; try lia. intros Es. specialize (Hu Es). lia. }
  apply list_ext. intros i. destruct (Nat.lt_ge_cases i (d_rows d * d_cols d)) as [Hi|Hi].
  - assert (Hr0 : d_rows d <> 0) by (intros E; rewrite E in Hi; cbn in Hi; lia).
    pose proof (Nat.div_mod i (d_rows d) Hr0) as Hdm. pose proof (Nat.mod_upper_bound i (d_rows d) Hr0) as Hr.
    assert (Hc : i / d_rows d < d_cols d) by (apply Nat.div_lt_upper_bound; lia).
    destruct (D3 (i mod d_rows d) (i / d_rows d) Hr Hc) as [H1 _].
    unfold element at 1 in H1. replace (i mod d_rows d + i / d_rows d * d_rows d) with i in * by lia.
    destruct (nth_error vals i) as [x|] eqn:Ex; [|apply nth_error_None in Ex; lia].
    assert (Ee : element (d_rows d) vals (i mod d_rows d) (i / d_rows d) = Some x).
    { unfold element. replace (i mod d_rows d + i / d_rows d * d_rows d) with i by lia. exact Ex. }
    apply H1. destruct (d_sym d) eqn:Es; [apply St; auto; discriminate| |cbn in Hd; rewrite Es in Hd; destruct Hd].
    cbn in Hd. rewrite Es in Hd.
    destruct (Nat.le_gt_cases (i mod d_rows d) (i / d_rows d)) as [Hle|Hgt]; [apply St; auto|].
    assert (Hst : stored Upper (dense_entries d) v (i / d_rows d) (i mod d_rows d) x).
    { apply St; [lia|lia|lia|]. rewrite <- Hsym; auto. }
    destruct Hst as (j & J1 & [J2|[J2 J3]]); exists j; (split; [exact J1|]); [right; split; [discriminate|exact J2]|left; exact J3].
  - rewrite (proj2 (nth_error_None w i)) by lia. symmetry. apply nth_error_None. lia.
Qed.
End Paths.

(** ** Non-vacuity *)
(** A 3x3 pattern with indices from 1, not sorted:
    [ 10 40  . ]
    [ 30  .  . ]
    [  .  . 20 ]  *)
Definition ex_coo : coo := Coo 3 3 Unsymmetric [1; 3; 2; 1]%Z [1; 3; 1; 2]%Z Unsorted 1.
Definition ex_vals : list Z := [10; 20; 30; 40]%Z.
(** The same one in CSC form with unsorted columns. *)
Definition ex_csc : csc := Csc 3 3 Unsymmetric [1; 0; 0; 2]%Z [0; 2; 3; 4]%Z CscUnsorted.
(** Upper triangular part of a symmetric matrix. *)
Definition ex_upper : coo := Coo 2 2 Upper [0; 0; 1]%Z [0; 1; 1]%Z SortedByColsAndRows 0.
Ltac small := repeat constructor; unfold in_bounds, fits; cbn; try lia; try (intuition congruence).
Example ex_coo_ok : source_ok (SpCoo Int ex_coo) /\ NoDup (coo_entries ex_coo) /\ coo_fits Int ex_coo /\
  indices_fit (SpCoo Int ex_coo) ToDense /\ indices_fit (SpCoo Int ex_coo) (ToCoo Long (Some 0%Z)) /\
  indices_fit (SpCoo Int ex_coo) (ToCsc Long Int (Some SortedRows)) /\ supported (SpCoo Int ex_coo) ToDense /\
  request_ok true (SpCoo Int ex_coo) (ToCsc Long Int (Some CscUnsorted)).
Proof.
  split; [|split; [|split; [|split; [|split; [|split; [|split]]]]]]; try (small; fail).
Qed.
Example ex_csc_ok : source_ok (SpCsc Int Int ex_csc) /\ NoDup (csc_entries ex_csc) /\ indices_fit (SpCsc Int Int ex_csc) (ToCoo Int None) /\
  indices_fit (SpCsc Int Int ex_csc) (ToCsc Int Int (Some SortedRows)).
Proof.
  split; [|split; [|split]].
  - split; [|exact I]. split; [reflexivity|]. split; [reflexivity|]. split; [|split; [reflexivity|small]].
    intros [|[|[|c]]] Hc; cbn [c_cols ex_csc] in Hc; [cbn; lia|cbn; lia|cbn; lia|exfalso; lia].
  - replace (csc_entries ex_csc) with [(1, 0); (0, 0); (0, 1); (2, 2)]%Z by reflexivity. small.
  - repeat split; vm_compute; congruence.
  - repeat split; vm_compute; congruence.
Qed.
Example C32_nontrivial : exists c p, construct true isort (SpCoo Int ex_coo) (ToCsc Long Int (Some SortedRows)) = Ok c /\ result_csc c = Some p /\
  p = Csc 3 3 Unsymmetric [0; 1; 0; 2]%Z [0; 2; 3; 4]%Z SortedRows /\ convert_values_copy true 0%Z c ex_vals = Ok [10; 30; 40; 20]%Z.
Proof. do 2 eexists. split; [vm_compute; reflexivity|]. split; [vm_compute; reflexivity|]. split; vm_compute; reflexivity. Qed.
Example C33_nontrivial : exists c p, construct true isort (SpCsc Int Int ex_csc) (ToCoo Int (Some 1%Z)) = Ok c /\ result_coo c = Some p /\
  p = Coo 3 3 Unsymmetric [2; 1; 1; 3]%Z [1; 1; 2; 3]%Z SortedByColsOnly 1 /\ convert_values_copy true 0%Z c [30; 10; 40; 20]%Z = Ok [30; 10; 40; 20]%Z.
Proof. do 2 eexists. split; [vm_compute; reflexivity|]. split; [vm_compute; reflexivity|]. split; vm_compute; reflexivity. Qed.
Example C34_nontrivial : exists c p, construct true isort (SpDense (Dense 2 2 Upper)) (ToCsc Int Int None) = Ok c /\ result_csc c = Some p /\
  p = Csc 2 2 Upper [0; 0; 1]%Z [0; 1; 3]%Z SortedRows /\ convert_values_copy true 0%Z c [1; 2; 2; 4]%Z = Ok [1; 2; 4]%Z.
Proof. do 2 eexists. split; [vm_compute; reflexivity|]. split; [vm_compute; reflexivity|]. split; vm_compute; reflexivity. Qed.
Example C35_nontrivial : exists c c', construct true isort (SpCoo Int ex_coo) ToDense = Ok c /\ convert_values_copy true 0%Z c ex_vals = Ok [10; 30; 0; 40; 0; 0; 0; 0; 20]%Z /\
  construct true isort (SpCoo Int ex_upper) ToDense = Ok c' /\ convert_values_copy true 0%Z c' [1; 2; 3]%Z = Ok [1; 2; 2; 3]%Z.
Proof. do 2 eexists. split; [vm_compute; reflexivity|]. split; [vm_compute; reflexivity|]. split; [vm_compute; reflexivity|]. vm_compute; reflexivity. Qed.
Example C36_nontrivial : exists c p, construct true isort (SpCsc Int Int ex_csc) (ToCsc Long Long (Some SortedRows)) = Ok c /\ result_csc c = Some p /\
  p = Csc 3 3 Unsymmetric [0; 1; 0; 2]%Z [0; 2; 3; 4]%Z SortedRows /\ convert_values_copy true 0%Z c [30; 10; 40; 20]%Z = Ok [10; 30; 40; 20]%Z.
Proof. do 2 eexists. split; [vm_compute; reflexivity|]. split; [vm_compute; reflexivity|]. split; vm_compute; reflexivity. Qed.
Example C37_nontrivial : exists c, construct true isort (SpCoo Int ex_coo) (ToCoo Long (Some 0%Z)) = Ok c /\
  result_coo c = Some (Coo 3 3 Unsymmetric [0; 2; 1; 0]%Z [0; 2; 0; 1]%Z Unsorted 0).
Proof. eexists. split; vm_compute; reflexivity. Qed.
Example C40_nontrivial : exists c, let p := Coo 2 2 Lower [0]%Z [1]%Z Unsorted 0 in
  source_ok (SpCoo Int p) /\ Exists (wrong_side (o_sym p)) (coo_entries p) /\
  construct true isort (SpCoo Int p) ToDense = Ok c /\ convert_values_copy true 0%Z c [5]%Z = Throw invalid_argument /\
  construct true isort (SpDense (Dense 2 3 Upper)) ToDense = Throw invalid_argument.
Proof. eexists. split; [small|]. split; [left; cbn; lia|]. split; [reflexivity|]. split; reflexivity. Qed.
(** C41: two calls in a row with a permuting converter, the second one reusing the workspace. *)
Example C41_nontrivial : exists c, construct true isort (SpCoo Int ex_coo) (ToCsc Int Int None) = Ok c /\
  series 0%Z true c [] [(false, [0; 0; 0; 0]%Z, fun _ => ex_vals); (false, [0; 0; 0; 0]%Z, fun _ => [1; 2; 3; 4]%Z)]
  = Ok [([10; 30; 40; 20]%Z, [4]); ([1; 3; 4; 2]%Z, [4])].
Proof. eexists. split; vm_compute; reflexivity. Qed.
Example C42_nontrivial : check_uniqueness_triplets [0; 1; 1]%Z [0; 0; 1]%Z = true /\ check_uniqueness_triplets [0; 1; 1]%Z [0; 0; 0]%Z = false /\
  check_uniqueness_csc [0; 2]%Z [1; 1]%Z = Ok false.
Proof. repeat split; vm_compute; reflexivity. Qed.
Example C66_nontrivial : shape_ok (source_sym (SpCoo Int ex_upper)) 2 2 /\ source_ok (SpCoo Int ex_upper) /\ NoDup (coo_entries ex_upper) /\
  Forall (fun e => ~ wrong_side Upper e) (coo_entries ex_upper).
Proof.
  split; [small|]. split; [|split; small]. split; [small|]. cbn. repeat constructor; unfold col_major; cbn; lia.
Qed.

Print Assumptions C32_coo_to_csc.
Print Assumptions C33_csc_to_coo.
Print Assumptions C34_dense_entries.
Print Assumptions C34_dense_to_csc.
Print Assumptions C34_dense_to_coo.
Print Assumptions C35_sparse_to_dense.
Print Assumptions C35_dense_to_dense.
Print Assumptions C36_csc_to_csc.
Print Assumptions C37_coo_to_coo.
Print Assumptions C38_truthful_order.
Print Assumptions C39_csc_well_formed.
Print Assumptions C40_nonsquare_rejected.
Print Assumptions C40_dense_unsupported_rejected.
Print Assumptions C40_wrong_side_rejected.
Print Assumptions C41_convert_values_into_partial.
Print Assumptions C41_empty_result_refuted.
Print Assumptions C41_larger_result_refuted.
Print Assumptions C42_triplets.
Print Assumptions C42_csc.
Print Assumptions C43_indices_unchanged_partial.
Print Assumptions C43_silent_wrap_refuted.
Print Assumptions C65_requests_accepted_partial.
Print Assumptions C65_unsorted_request_refuted.
Print Assumptions C66_via_csc.
Print Assumptions C66_via_coo.
Print Assumptions C66_dense_round_trip.
