(** Lemmas about the machine part of the sparsity model: casts, loops, fills,
    slices, sorting. *)
From Verif Require Import Base Sparsity_Spec Sparsity_Model.
Local Open Scope outcome_scope.
Local Arguments Nat.eqb : simpl never.
Local Arguments Nat.leb : simpl never.
Local Arguments Nat.ltb : simpl never.

(** ** Casts *)
Lemma bits_pos t : (0 < bits t)%Z. Proof. destruct t; cbn; lia. Qed.
Lemma half_double t : (2 ^ bits t = 2 * 2 ^ (bits t - 1))%Z. Proof. destruct t; reflexivity. Qed.
Lemma half_pos t : (0 < 2 ^ (bits t - 1))%Z. Proof. destruct t; reflexivity. Qed.
Lemma cast_id t z : fits t z -> cast t z = z.
Proof.
  unfold fits, cast. intros H. rewrite Z.mod_small; [lia|]. rewrite half_double. lia.
Qed.
Lemma fitsb_iff t z : fitsb t z = true <-> fits t z.
Proof. unfold fitsb, fits. rewrite andb_true_iff, Z.leb_le, Z.ltb_lt. lia. Qed.
Lemma chk_ok t z : fits t z -> chk t z = Ok z.
Proof. intros H. apply fitsb_iff in H. unfold chk. now rewrite H. Qed.
Lemma fits_between t a b z : fits t a -> fits t b -> (a <= z <= b)%Z -> fits t z.
Proof. unfold fits. lia. Qed.
Lemma fits_0 t : fits t 0. Proof. unfold fits. pose proof (half_pos t). lia. Qed.

(** ** Loops *)
Lemma foldm_app {A S} (f : A -> S -> outcome S) l1 l2 s : foldm f (l1 ++ l2) s = (s' <- foldm f l1 s ;; foldm f l2 s').
Proof. revert s. induction l1 as [|x l1 IH]; intros s; cbn; [reflexivity|]. destruct (f x s); cbn; auto. Qed.
Lemma foldm_map {A B S} (f : B -> S -> outcome S) (g : A -> B) l s : foldm f (map g l) s = foldm (fun x => f (g x)) l s.
Proof. revert s. induction l as [|x l IH]; intros s; cbn; [reflexivity|]. destruct (f (g x) s); cbn; auto. Qed.
Lemma foldm_ext {A S} (f g : A -> S -> outcome S) l : (forall x s, In x l -> f x s = g x s) -> forall s, foldm f l s = foldm g l s.
Proof.
  induction l as [|x l IH]; intros H s; cbn; [reflexivity|]. rewrite (H x s) by now left.
  destruct (g x s); cbn; auto. apply IH. intros; apply H; now right.
Qed.
Lemma foldm_flat_map {A B S} (f : B -> S -> outcome S) (g : A -> list B) l s :
  foldm f (flat_map g l) s = foldm (fun x => foldm f (g x)) l s.
Proof.
  revert s. induction l as [|x l IH]; intros s; cbn; [reflexivity|]. rewrite foldm_app.
  destruct (foldm f (g x) s); cbn; auto.
Qed.
Lemma foldm_inv {A S} (f : A -> S -> outcome S) (I : list A -> S -> Prop) l s : I [] s ->
  (forall pre x post s, l = pre ++ x :: post -> I pre s -> exists s', f x s = Ok s' /\ I (pre ++ [x]) s') ->
  exists s', foldm f l s = Ok s' /\ I l s'.
Proof.
  intros H0 Hs.
  assert (K : forall post pre s, l = pre ++ post -> I pre s -> exists s', foldm f post s = Ok s' /\ I l s').
  { induction post as [|x post IH]; intros pre s1 E Hi.
    - rewrite app_nil_r in E. exists s1. split; [reflexivity|]. now rewrite E.
    - destruct (Hs pre x post s1 E Hi) as (s2 & E2 & H2). cbn. rewrite E2. cbn. apply (IH (pre ++ [x])); auto.
      now rewrite <- app_assoc. }
  now apply (K l []).
Qed.
Lemma foldm_seq_nth {A W} (f : nat -> W -> outcome W) (g : A -> W -> outcome W) : forall es k s,
  (forall l x s, nth_error es l = Some x -> f (k + l) s = g x s) -> foldm f (seq k (length es)) s = foldm g es s.
Proof.
  induction es as [|x es IH]; intros k s H; cbn; [reflexivity|].
  pose proof (H 0 x s eq_refl) as H0. rewrite Nat.add_0_r in H0. rewrite H0.
  destruct (g x s); cbn; auto. apply IH. intros l y s1 Hl. rewrite <- (H (S l) y s1 Hl). f_equal. lia.
Qed.
(** A loop that also counts, with the values looked up by the counter. *)
Lemma foldm_count {E V W} (g : E -> V -> W -> outcome W) vs : forall es k (s : W), k + length es <= length vs ->
  foldm (fun e '(w, l) => v <- get vs l ;; w' <- g e v w ;; Ok (w', S l)) es (s, k)
  = (w' <- foldm (fun ev w => g (fst ev) (snd ev) w) (combine es (skipn k vs)) s ;; Ok (w', k + length es)).
Proof.
  induction es as [|e es IH]; intros k s H; cbn [foldm combine length bind] in *; [now rewrite Nat.add_0_r|].
  destruct (nth_error vs k) as [v|] eqn:Ev; [|apply nth_error_None in Ev; lia].
  assert (Hk : skipn k vs = v :: skipn (S k) vs).
  { clear - Ev. revert k Ev. induction vs as [|x vs IH]; intros [|k]; cbn; try discriminate.
    - now intros [= ->].
    - apply IH. }
  rewrite Hk. unfold get. rewrite Ev. cbn [bind foldm fst snd].
  destruct (g e v s); cbn [bind]; auto.
  rewrite IH by lia. replace (S k + length es) with (k + S (length es)) by lia. reflexivity.
Qed.

(** Sequential fill of one or two vectors. *)
Lemma set_mid {A} (a b : list A) x y : set (a ++ y :: b) (length a) x = Ok (a ++ x :: b).
Proof.
  unfold set. rewrite app_length. cbn. rewrite (proj2 (Nat.ltb_lt _ _)) by lia. now rewrite upd_app_mid.
Qed.
Lemma repeat_split {A} (x : A) n k : k < n -> repeat x (n - k) = x :: repeat x (n - S k).
Proof. intros H. replace (n - k) with (S (n - S k)) by lia. reflexivity. Qed.
Lemma set_fill {A} (d x : A) done n : length done < n ->
  set (done ++ repeat d (n - length done)) (length done) x = Ok ((done ++ [x]) ++ repeat d (n - length (done ++ [x]))).
Proof.
  intros H. rewrite (repeat_split _ _ _ H), set_mid. rewrite app_length. cbn. rewrite Nat.add_1_r, <- app_assoc. reflexivity.
Qed.

Lemma fill1 {A} (g : A -> outcome Z) (h : A -> Z) l n d : (forall x, In x l -> g x = Ok (h x)) -> length l <= n ->
  foldm (fun x '(v, k) => y <- g x ;; v' <- set v k y ;; Ok (v', S k)) l (repeat d n, 0)
  = Ok (map h l ++ repeat d (n - length l), length l).
Proof.
  intros Hg Hl.
  destruct (foldm_inv (fun x '(v, k) => y <- g x ;; v' <- set v k y ;; Ok (v', S k))
     (fun pre st => st = (map h pre ++ repeat d (n - length pre), length pre)) l (repeat d n, 0)) as (s' & E & ->); auto.
  - cbn. now rewrite Nat.sub_0_r.
  - intros pre x post s E ->. rewrite (Hg x) by (rewrite E; apply in_elt).
    assert (Hlt : length (map h pre) < n). { rewrite map_length. rewrite E in Hl. rewrite app_length in Hl. cbn in Hl. lia. }
    pose proof (set_fill d (h x) (map h pre) n Hlt) as K. rewrite map_length in K.
    cbn [bind]. rewrite K. cbn [bind]. eexists. split; [reflexivity|].
    rewrite map_app, !app_length, map_length. cbn. now rewrite Nat.add_1_r.
Qed.
Lemma fill2 {A} (gx gy : A -> outcome Z) (hx hy : A -> Z) l n d :
  (forall x, In x l -> gx x = Ok (hx x) /\ gy x = Ok (hy x)) -> length l <= n ->
  forall f : A -> list Z * list Z * nat -> outcome (list Z * list Z * nat),
  (forall x st, In x l -> f x st = let '(v, w, k) := st in
      a <- gx x ;; b <- gy x ;; v' <- set v k a ;; w' <- set w k b ;; Ok (v', w', S k)) ->
  foldm f l (repeat d n, repeat d n, 0)
  = Ok (map hx l ++ repeat d (n - length l), map hy l ++ repeat d (n - length l), length l).
Proof.
  intros Hg Hl f Hf.
  destruct (foldm_inv f
     (fun pre st => st = (map hx pre ++ repeat d (n - length pre), map hy pre ++ repeat d (n - length pre), length pre))
     l (repeat d n, repeat d n, 0)) as (s' & E & ->); auto.
  - cbn. now rewrite Nat.sub_0_r.
  - intros pre x post s E ->.
    assert (Hx : In x l) by (rewrite E; apply in_elt).
    rewrite (Hf x _ Hx). destruct (Hg x Hx) as [-> ->].
    assert (Hlt : length pre < n). { rewrite E in Hl. rewrite app_length in Hl. cbn in Hl. lia. }
    pose proof (set_fill d (hx x) (map hx pre) n) as Kx. pose proof (set_fill d (hy x) (map hy pre) n) as Ky.
    rewrite map_length in Kx, Ky. specialize (Kx Hlt). specialize (Ky Hlt). cbn [bind]. rewrite Kx. cbn [bind].
    rewrite Ky. cbn [bind]. eexists. split; [reflexivity|].
    rewrite !map_app, !app_length, !map_length. cbn. now rewrite Nat.add_1_r.
Qed.

(** ** Slices *)
Lemma skipn_skipn' {A} a : forall b (l : list A), skipn a (skipn b l) = skipn (a + b) l.
Proof.
  intros b. revert a. induction b as [|b IH]; intros a l.
  - now rewrite Nat.add_0_r.
  - destruct l as [|x l]; [now rewrite !skipn_nil|]. rewrite Nat.add_succ_r. cbn. apply IH.
Qed.
Lemma nth_error_firstn_lt {A} i : forall n (l : list A), i < n -> nth_error (firstn n l) i = nth_error l i.
Proof. induction i as [|i IH]; intros [|n] [|x l] H; cbn; auto; try lia. apply IH. lia. Qed.
Lemma slice_length {A} (l : list A) a b : b <= length l -> length (slice l a b) = b - a.
Proof. intros H. unfold slice. rewrite firstn_length, skipn_length. lia. Qed.
Lemma slice_nil {A} (l : list A) a : slice l a a = [].
Proof. unfold slice. now rewrite Nat.sub_diag. Qed.
Lemma slice_all {A} (l : list A) : slice l 0 (length l) = l.
Proof. unfold slice. cbn. rewrite Nat.sub_0_r. apply firstn_all. Qed.
Lemma slice_app {A} (l : list A) a b c : a <= b -> b <= c -> slice l a b ++ slice l b c = slice l a c.
Proof.
  intros H1 H2. unfold slice. replace (c - a) with ((b - a) + (c - b)) by lia.
  replace (skipn b l) with (skipn (b - a) (skipn a l)) by (rewrite skipn_skipn'; f_equal; lia).
  generalize (skipn a l) as k, (b - a) as n, (c - b) as m. clear. induction k as [|x k IH]; intros n m.
  - now rewrite !firstn_nil, skipn_nil, firstn_nil.
  - destruct n; cbn; [reflexivity|]. f_equal. apply IH.
Qed.
Lemma slice_map {A B} (f : A -> B) l a b : slice (map f l) a b = map f (slice l a b).
Proof. unfold slice. now rewrite skipn_map, firstn_map. Qed.
Lemma combine_skipn {A B} : forall n (l : list A) (k : list B), skipn n (combine l k) = combine (skipn n l) (skipn n k).
Proof.
  induction n as [|n IH]; intros [|x l] [|y k]; cbn; auto. now destruct (skipn n l).
Qed.
Lemma slice_combine {A B} (l : list A) (k : list B) a b : slice (combine l k) a b = combine (slice l a b) (slice k a b).
Proof. unfold slice. now rewrite combine_skipn, combine_firstn. Qed.
Lemma slice_nth {A} (l : list A) a b i : nth_error (slice l a b) i = if Nat.ltb i (b - a) then nth_error l (a + i) else None.
Proof.
  unfold slice. destruct (Nat.ltb_spec i (b - a)) as [H|H].
  - rewrite nth_error_firstn_lt by auto. clear. revert a. induction l as [|x l IH]; intros [|a]; cbn; auto.
    + now destruct i.
  - apply nth_error_None. rewrite firstn_length. lia.
Qed.
Lemma slice_flat_map {A} (l : list A) (o : nat -> nat) n : (forall c, c < n -> o c <= o (S c)) -> o 0 = 0 ->
  flat_map (fun c => slice l (o c) (o (S c))) (seq 0 n) = slice l 0 (o n).
Proof.
  induction n as [|n IH]; intros Hm H0.
  - cbn. now rewrite H0, slice_nil.
  - rewrite seq_S, flat_map_app. cbn [flat_map]. rewrite app_nil_r, IH by auto. cbn [Nat.add].
    apply slice_app; [lia|]. apply Hm. lia.
Qed.
Lemma in_slice {A} (l : list A) a b x : In x (slice l a b) -> In x l.
Proof.
  intros H. apply In_nth_error in H. destruct H as [i H]. rewrite slice_nth in H. destruct (Nat.ltb i (b - a)); [|discriminate].
  eapply nth_error_In; eauto.
Qed.
Lemma flat_map_ext_in {A B} (f g : A -> list B) l : (forall x, In x l -> f x = g x) -> flat_map f l = flat_map g l.
Proof. induction l as [|x l IH]; intros H; cbn; [reflexivity|]. rewrite H by now left. f_equal. apply IH. intros; apply H; now right. Qed.
Lemma StronglySorted_slice {A} (R : A -> A -> Prop) l a b : StronglySorted R l -> StronglySorted R (slice l a b).
Proof.
  intros H. unfold slice.
  assert (K : forall n l, StronglySorted R l -> StronglySorted R (skipn n l)).
  { clear. induction n as [|n IH]; intros [|x l] H; cbn; auto. inversion H; auto. }
  assert (K2 : forall n l, StronglySorted R l -> StronglySorted R (firstn n l)).
  { clear. induction n as [|n IH]; intros [|x l] H; cbn; try constructor.
    - inversion H; subst. apply IH; auto.
    - inversion H; subst. rewrite Forall_forall in *. intros y Hy. apply H3.
      apply In_nth_error in Hy. destruct Hy as [i Hi].
      assert (i < n). { assert (K : nth_error (firstn n l) i <> None) by congruence. apply nth_error_Some in K. rewrite firstn_length in K. lia. }
      rewrite nth_error_firstn_lt in Hi by auto. eapply nth_error_In; eauto. }
  auto.
Qed.

(** ** Sorted permutation of 0 .. n-1 *)
Lemma sorted_unique (l k : list Z) : StronglySorted Z.le l -> StronglySorted Z.le k -> Permutation l k -> l = k.
Proof.
  revert k. induction l as [|x l IH]; intros k Hl Hk P.
  - apply Permutation_nil in P. now subst.
  - destruct k as [|y k]; [apply Permutation_sym, Permutation_nil in P; discriminate|].
    inversion Hl as [|? ? Sl Fl]; subst. inversion Hk as [|? ? Sk Fk]; subst. rewrite Forall_forall in *.
    assert (x = y).
    { assert (Hx : In x (y :: k)) by (eapply Permutation_in; [exact P|now left]).
      assert (Hy : In y (x :: l)) by (eapply Permutation_in; [apply Permutation_sym, P|now left]).
      destruct Hx as [->|Hx]; [reflexivity|]. destruct Hy as [->|Hy]; [reflexivity|].
      specialize (Fl _ Hy). specialize (Fk _ Hx). lia. }
    subst. f_equal. apply IH; auto. now apply Permutation_cons_inv in P.
Qed.
Lemma is_sorted_strong l : is_sorted l = true -> StronglySorted Z.le l.
Proof.
  intros H. apply Sorted_StronglySorted; [intros x y z; lia|].
  induction l as [|x l IH]; constructor.
  - apply IH. destruct l as [|y l]; auto. cbn in H. apply andb_true_iff in H. apply H.
  - destruct l as [|y l]; constructor. cbn in H. apply andb_true_iff in H. lia.
Qed.
Lemma seq_sorted n : forall k, StronglySorted Z.le (map Z.of_nat (seq k n)).
Proof.
  induction n as [|n IH]; intros k; cbn; constructor; auto. rewrite Forall_forall. intros x Hx.
  apply in_map_iff in Hx. destruct Hx as (i & <- & Hi). apply in_seq in Hi. lia.
Qed.

(** ** Comparators *)
Lemma lt_col_row_swo : strict_weak lt_col_row.
Proof.
  split; [|split].
  - intros [[a b] c]. cbn. lia.
  - intros [[a b] c] [[d e] f] [[g h] i]. cbn. lia.
  - intros [[a b] c] [[d e] f] [[g h] i]. cbn. lia.
Qed.
Lemma lt_col_swo : strict_weak lt_col.
Proof.
  split; [|split].
  - intros [[a b] c]. cbn. lia.
  - intros [[a b] c] [[d e] f] [[g h] i]. cbn. lia.
  - intros [[a b] c] [[d e] f] [[g h] i]. cbn. lia.
Qed.
Lemma lt_row_swo : strict_weak lt_row.
Proof.
  split; [|split].
  - intros [a b]. unfold lt_row. cbn. lia.
  - intros [a b] [c d] [e f]. unfold lt_row. cbn. lia.
  - intros [a b] [c d] [e f]. unfold lt_row. cbn. lia.
Qed.

(** ** Misc *)
Lemma combine_map {A B C D} (f : A -> C) (g : B -> D) l k : combine (map f l) (map g k) = map (fun p => (f (fst p), g (snd p))) (combine l k).
Proof. revert k. induction l as [|x l IH]; intros [|y k]; cbn; auto. now rewrite IH. Qed.
Lemma map_fst_combine {A B} (l : list A) : forall (k : list B), length l = length k -> map fst (combine l k) = l.
Proof. induction l as [|x l IH]; intros [|y k] H; cbn in *; try discriminate; auto. f_equal. apply IH. lia. Qed.
Lemma map_snd_combine {A B} (l : list A) : forall (k : list B), length l = length k -> map snd (combine l k) = k.
Proof. induction l as [|x l IH]; intros [|y k] H; cbn in *; try discriminate; auto. f_equal. apply IH. lia. Qed.
Lemma combine_fst_snd {A B} (l : list (A * B)) : combine (map fst l) (map snd l) = l.
Proof. induction l as [|[x y] l IH]; cbn; auto. now rewrite IH. Qed.
Lemma combine_app {A B} (l1 l2 : list A) : forall (k1 k2 : list B), length l1 = length k1 ->
  combine (l1 ++ l2) (k1 ++ k2) = combine l1 k1 ++ combine l2 k2.
Proof. induction l1 as [|x l1 IH]; intros [|y k1] k2 H; cbn in *; try discriminate; auto. f_equal. apply IH. lia. Qed.
Lemma cast_sz_ok dbg z : (0 <= z)%Z -> cast_sz dbg z = Ok (Z.to_nat z).
Proof. intros H. unfold cast_sz. destruct (Z.ltb_spec z 0); [lia|reflexivity]. Qed.
Lemma assert_true dbg b : b = true -> assert dbg b = Ok tt.
Proof. intros ->. reflexivity. Qed.
Lemma assert_true' dbg b : (dbg = true -> b = true) -> assert dbg b = Ok tt.
Proof. intros H. unfold assert. destruct b; auto. destruct dbg; auto. discriminate H; auto. Qed.
Lemma StronglySorted_app {A} (R : A -> A -> Prop) l k : StronglySorted R l -> StronglySorted R k ->
  (forall x y, In x l -> In y k -> R x y) -> StronglySorted R (l ++ k).
Proof.
  intros Hl Hk H. induction Hl as [|x l Hl IH Hf]; cbn; auto. constructor.
  - apply IH. intros; apply H; auto. now right.
  - apply Forall_app. split; auto. apply Forall_forall. intros y Hy. apply H; auto. now left.
Qed.
Lemma sorted_chunks {A} (R : A -> A -> Prop) (F : nat -> list A) n : (forall c, c < n -> StronglySorted R (F c)) ->
  (forall c d x y, c < d -> d < n -> In x (F c) -> In y (F d) -> R x y) -> StronglySorted R (flat_map F (seq 0 n)).
Proof.
  induction n as [|n IH]; intros Hs Hx; [constructor|]. rewrite seq_S, flat_map_app. cbn [flat_map Nat.add]. rewrite app_nil_r.
  apply StronglySorted_app.
  - apply IH; auto. intros c d x y ? ?. apply Hx; auto.
  - apply Hs. lia.
  - intros x y Hx1 Hy. apply in_flat_map in Hx1. destruct Hx1 as (c & Hc & Hx1). apply in_seq in Hc. apply (Hx c n); auto; lia.
Qed.
