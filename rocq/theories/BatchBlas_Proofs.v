(** A batch of routine calls on disjoint outputs. *)
From Verif Require Import Base MatView_Model HlBlas_Model HlBlas_Spec HlBlas_Proofs Lapack_Model Lapack_Proofs
  BatchBlas_Model BatchBlas_Spec.
From Coq Require Import Field.
Local Open Scope outcome_scope.
Local Open Scope Z_scope.
Local Arguments Z.eqb : simpl never.
Local Arguments Z.leb : simpl never.
Local Arguments Z.ltb : simpl never.
Local Arguments Z.max : simpl never.
Local Arguments Z.mul : simpl never.

Lemma bind_cong {A B} (a a' : outcome A) (k k' : A -> outcome B) :
  a = a' -> (forall x, k x = k' x) -> bind a k = bind a' k'.
Proof. intros <- H. destruct a; cbn; auto. Qed.

Section Generic.
Context {V : Type}.
Local Notation mem := (@MatView_Model.mem V).

(** The addresses an operand accesses. *)
Definition touches (o : operand) (a : Z) : Prop :=
  exists r c, In (r, c) (cells (nrows o) (ncols o) (sel o)) /\ a = address o r c.
Definition agree_at (os : list operand) (m m' : mem) : Prop :=
  forall o a, In o os -> touches o a -> m a = m' a.
Lemma present_iff (m : mem) o : present m o = true <-> forall a, touches o a -> m a <> None.
Proof.
  unfold present. rewrite forallb_forall. unfold addresses. split.
  - intros H a (r & c & Hc & ->). specialize (H (address o r c)).
    destruct (m (address o r c)); [congruence|]. intros _.
    enough (false = true) by congruence. apply H. apply in_map_iff. now exists (r, c).
  - intros H a Ha. apply in_map_iff in Ha as ([r c] & <- & Hc). simpl.
    specialize (H (address o r c)). destruct (m (address o r c)); [reflexivity|].
    exfalso. apply H; [now exists r, c|reflexivity].
Qed.
Lemma overlap_false o o' : (forall a, touches o a -> ~ touches o' a) -> overlap o o' = false.
Proof.
  intros H. apply no_overlap. intros i j k l Hij Hkl E. apply (H (address o i j)).
  - now exists i, j.
  - rewrite E. now exists k, l.
Qed.
Lemma write_untouched o f (m : mem) a : ~ touches o a -> write o f m a = m a.
Proof. intros H. apply write_other. intros i j Hc E. apply H. now exists i, j. Qed.

Context (ins : Z -> list operand) (out : Z -> operand) (f : Z -> mem -> Z -> Z -> V).
Fixpoint over (order : list Z) (m : mem) : outcome mem :=
  match order with
  | [] => Ok m
  | i :: order' => m' <- routine (ins i) (out i) (f i) m ;; over order' m'
  end.
Hypothesis local : forall i m m' r c, agree_at (out i :: ins i) m m' ->
  In (r, c) (cells (nrows (out i)) (ncols (out i)) (sel (out i))) -> f i m r c = f i m' r c.

Lemma over_ok order : forall m : mem,
  NoDup order ->
  (forall i o, In i order -> In o (out i :: ins i) -> legal o = true /\ present m o = true) ->
  (forall i j o a, In i order -> In j order -> In o (ins j) -> touches (out i) a -> ~ touches o a) ->
  (forall i j a, In i order -> In j order -> i <> j -> touches (out i) a -> ~ touches (out j) a) ->
  exists m', over order m = Ok m' /\
    (forall i r c, In i order -> In (r, c) (cells (nrows (out i)) (ncols (out i)) (sel (out i))) ->
       m' (address (out i) r c) = Some (f i m r c)) /\
    (forall a, (forall i, In i order -> ~ touches (out i) a) -> m' a = m a).
Proof using local.
  induction order as [|i order IH]; intros m ND L XI XO.
  - exists m. split; [reflexivity|]. split; [intros i r c []|reflexivity].
  - inversion ND as [|? ? NI ND']; subst. cbn [over].
    rewrite routine_ok.
    2:{ apply (L i (out i)); simpl; auto. }
    2:{ apply (L i (out i)); simpl; auto. }
    2:{ intros o Ho. destruct (L i o) as [L1 L2]; [simpl; auto|right; exact Ho|].
        split; [exact L1|]. split; [exact L2|]. apply overlap_false. intros a Ta.
        apply (XI i i o a); simpl; auto. }
    cbn [bind]. set (m1 := write (out i) (f i m) m).
    assert (M1 : forall a, ~ touches (out i) a -> m1 a = m a) by (intros; now apply write_untouched).
    assert (AG : forall j, In j order -> agree_at (out j :: ins j) m1 m).
    { intros j Hj o a Ho Ta. apply M1. intros Ti. destruct Ho as [<-|Ho].
      - apply (XO i j a); simpl; auto. intros ->. contradiction.
      - apply (XI i j o a); simpl; auto. }
    destruct (IH m1) as (m' & E & U & F).
    + exact ND'.
    + intros j o Hj Ho. destruct (L j o (or_intror Hj) Ho) as [L1 L2]. split; [exact L1|].
      rewrite present_iff in L2 |- *. intros a Ta. rewrite (AG j Hj o a Ho Ta). now apply L2.
    + intros j k o a Hj Hk. apply XI; simpl; auto.
    + intros j k a Hj Hk. apply XO; simpl; auto.
    + exists m'. split; [exact E|]. split.
      * intros j r c [<-|Hj] Hc.
        -- rewrite F.
           ++ apply write_at; [|exact Hc]. apply (L i (out i)); simpl; auto.
           ++ intros j Hj T. apply (XO i j (address (out i) r c)); simpl; auto.
              ** intros ->. contradiction.
              ** now exists r, c.
        -- rewrite (U j r c Hj Hc). f_equal. apply local; [|exact Hc]. now apply AG.
      * intros a Ha. rewrite F by (intros j Hj; apply Ha; simpl; auto).
        apply M1. apply Ha. simpl; auto.
Qed.
End Generic.

(** Operands of a batch. *)
Definition operand_of (b : batch) (s : Z -> Z -> bool) (i : Z) : operand :=
  Operand (b_layout b) (b_ptr b + i * b_stride b) (b_ld b) (b_rows b) (b_cols b) s.
Definition selects (s : Z -> Z -> bool) (P : Z -> Z -> Prop) : Prop := forall r c, s r c = true <-> P r c.
Lemma selects_all : selects everywhere whole.
Proof. intros r c. unfold everywhere, whole. tauto. Qed.
Lemma selects_triangle u d : selects (triangle u d) (in_triangle u d).
Proof.
  intros r c. unfold in_triangle. destruct u, d; cbn; rewrite ?Z.leb_le, ?Z.ltb_lt; lia.
Qed.
Lemma cell_address b s i r c : address (operand_of b s i) r c = cell b i r c.
Proof. unfold address, cell, place. cbn. destruct (b_layout b); lia. Qed.
Lemma accessed_cells b s i r c : selects s (b_part b) ->
  In (r, c) (cells (nrows (operand_of b s i)) (ncols (operand_of b s i)) (sel (operand_of b s i))) <-> accessed b r c.
Proof. intros S. rewrite In_cells. cbn. unfold accessed. rewrite (S r c). tauto. Qed.
Lemma touches_iff b s i a : selects s (b_part b) ->
  touches (operand_of b s i) a <-> exists r c, accessed b r c /\ a = cell b i r c.
Proof.
  intros S. unfold touches. split; intros (r & c & H & ->); exists r, c.
  - rewrite cell_address. split; [|reflexivity]. now apply (accessed_cells b s i r c S).
  - rewrite cell_address. split; [|reflexivity]. now apply (accessed_cells b s i r c S).
Qed.
Lemma fits_legal b s i : fits (b_layout b) (b_rows b) (b_cols b) (b_ld b) -> legal (operand_of b s i) = true.
Proof.
  intros (R & C & L & F). unfold legal. cbn. destruct (b_layout b);
    repeat (apply andb_true_intro; split); apply Z.leb_le; lia.
Qed.

Section Ops.
Context {V : Type} (zero one : V) (add mul sub div : V -> V -> V).
Local Notation mem := (@MatView_Model.mem V).
Lemma value_of b s i (m : mem) r c : value zero m (operand_of b s i) r c = matrix_of zero m b i r c.
Proof. unfold value, matrix_of. now rewrite cell_address. Qed.
Lemma allocated_present n b s i (m : mem) : selects s (b_part b) -> allocated n b m -> 0 <= i < n ->
  legal (operand_of b s i) = true /\ present m (operand_of b s i) = true.
Proof.
  intros S [F A] Hi. split; [now apply fits_legal|]. apply present_iff. intros a T.
  apply (touches_iff b s i a S) in T as (r & c & Hc & ->). now apply A.
Qed.

(** The batch theorem in terms of batches: [bs] are the inputs. *)
Lemma batch_ok (n : Z) (ins : list (batch * (Z -> Z -> bool))) (b : batch) (s : Z -> Z -> bool)
    (f : Z -> mem -> Z -> Z -> V) (order : list Z) (m : mem) :
  let inputs i := map (fun p => operand_of (fst p) (snd p) i) ins in
  selects s (b_part b) -> Forall (fun p => selects (snd p) (b_part (fst p))) ins ->
  (forall i m m' r c, agree_at (operand_of b s i :: inputs i) m m' -> accessed b r c -> f i m r c = f i m' r c) ->
  allocated n b m -> Forall (fun p => allocated n (fst p) m) ins ->
  Forall (fun p => separate n b (fst p)) ins -> spread_out n b ->
  NoDup order -> (forall i, In i order <-> 0 <= i < n) ->
  exists m', over inputs (fun i => operand_of b s i) f order m = Ok m' /\ batch_updated n b (fun i => f i m) m m'.
Proof.
  intros inputs S SI LOC AB AI X XO ND ORD.
  rewrite Forall_forall in SI, AI, X.
  destruct (over_ok inputs (fun i => operand_of b s i) f) with (order := order) (m := m) as (m' & E & U & F).
  - intros i m1 m2 r c A Hc. apply LOC; [exact A|]. now apply (accessed_cells b s i r c S).
  - exact ND.
  - intros i o Hi Ho. apply ORD in Hi. destruct Ho as [<-|Ho].
    + now apply (allocated_present n b s i m).
    + apply in_map_iff in Ho as (p & <- & Hp). apply (allocated_present n (fst p) (snd p) i m); auto.
  - intros i j o a Hi Hj Ho Ta To. apply in_map_iff in Ho as (p & <- & Hp). apply ORD in Hi, Hj.
    apply (touches_iff b s i a S) in Ta as (r & c & Hc & ->).
    apply (touches_iff (fst p) (snd p) j) in To; [|now apply SI].
    destruct To as (r' & c' & Hc' & E). exact (X p Hp i j r c r' c' Hi Hj Hc Hc' E).
  - intros i j a Hi Hj NE Ta To. apply ORD in Hi, Hj.
    apply (touches_iff b s i a S) in Ta as (r & c & Hc & ->).
    apply (touches_iff b s j) in To; [|exact S]. destruct To as (r' & c' & Hc' & E).
    exact (XO i j r c r' c' Hi Hj NE Hc Hc' E).
  - exists m'. split; [exact E|]. split.
    + intros i r c Hi Hc. rewrite <- (cell_address b s). apply U; [now apply ORD|].
      now apply (accessed_cells b s i r c S).
    + intros a Ha. apply F. intros i Hi T. apply (touches_iff b s i a S) in T as (r & c & Hc & ->).
      apply ORD in Hi. now apply (Ha i r c).
Qed.
Lemma agree_matrix os (m m' : mem) b s i r c : agree_at os m m' -> In (operand_of b s i) os ->
  selects s (b_part b) -> accessed b r c -> value zero m (operand_of b s i) r c = value zero m' (operand_of b s i) r c.
Proof.
  intros A I S H. unfold value. rewrite (A (operand_of b s i)); [reflexivity|exact I|].
  apply (touches_iff b s i _ S). exists r, c. split; [exact H|apply cell_address].
Qed.
Lemma batch_updated_ext n b f g (m m' : mem) : (forall i r c, 0 <= i < n -> accessed b r c -> f i r c = g i r c) ->
  batch_updated n b f m m' -> batch_updated n b g m m'.
Proof. intros H [U F]. split; [|exact F]. intros i r c Hi Hc. rewrite <- H by assumption. auto. Qed.

Lemma seq_order n : NoDup (map Z.of_nat (seq 0 (Z.to_nat n))) /\
  forall i, In i (map Z.of_nat (seq 0 (Z.to_nat n))) <-> 0 <= i < n.
Proof.
  split.
  - apply FinFun.Injective_map_NoDup; [intros x y; lia|apply seq_NoDup].
  - apply In_range.
Qed.
Lemma map_seq_shift n k : map Z.of_nat (seq (S k) n) = map (fun i => i + 1) (map Z.of_nat (seq k n)).
Proof. rewrite map_map, <- seq_shift, map_map. apply map_ext. lia. Qed.

(** ** gemm *)
Definition gemm_f (l : layout) (ta tb : transpose) (M N K : Z) (alpha : V) (A lda sa B ldb sb : Z) (beta : V) (C ldc sc : Z) (i : Z) (m : mem) (r c : Z) : V :=
  let bA := stored_batch ta l A lda sa M K in let bB := stored_batch tb l B ldb sb K N in let bC := Batch l C ldc sc M N whole in
  add (mul alpha (total zero add K (fun k => mul (op ta (value zero m (operand_of bA everywhere i)) r k)
                                                 (op tb (value zero m (operand_of bB everywhere i)) k c))))
      (mul beta (value zero m (operand_of bC everywhere i) r c)).
Lemma gemm_over (l : layout) (ta tb : transpose) (M N K : Z) (alpha : V) (A lda sa B ldb sb : Z) (beta : V) (C ldc sc : Z) n :
  let bA := stored_batch ta l A lda sa M K in let bB := stored_batch tb l B ldb sb K N in let bC := Batch l C ldc sc M N whole in forall k (m : mem),
  xgemm_loop zero add mul l ta tb M N K alpha lda sa ldb sb beta ldc sc n
    (A + Z.of_nat k * sa) (B + Z.of_nat k * sb) (C + Z.of_nat k * sc) m =
  over (fun i => map (fun p => operand_of (fst p) (snd p) i) [(bA, everywhere); (bB, everywhere)])
    (fun i => operand_of bC everywhere i) (gemm_f l ta tb M N K alpha A lda sa B ldb sb beta C ldc sc) (map Z.of_nat (seq k n)) m.
Proof.
  intros bA; subst bA. intros bB; subst bB. intros bC; subst bC. 
  induction n as [|n IH]; intros k m; [reflexivity|]. cbn [xgemm_loop seq map over].
  apply bind_cong.
  - destruct ta, tb; reflexivity.
  - intros m'. etransitivity; [|apply IH]. f_equal; lia.
Qed.
Lemma gemm_batch_ok (l : layout) (ta tb : transpose) (M N K : Z) (alpha : V) (A lda sa B ldb sb : Z) (beta : V) (C ldc sc : Z) n (m : mem) :
  let bA := stored_batch ta l A lda sa M K in let bB := stored_batch tb l B ldb sb K N in let bC := Batch l C ldc sc M N whole in
  allocated n bA m -> allocated n bB m -> allocated n bC m ->
  separate n bC bA -> separate n bC bB -> spread_out n bC ->
  exists m', xgemm_batch_strided zero add mul l ta tb M N K alpha A lda sa B ldb sb beta C ldc sc n m = Ok m' /\
    batch_updated n bC (fun i => (gemm_f l ta tb M N K alpha A lda sa B ldb sb beta C ldc sc) i m) m m'.
Proof.
  intros bA. intros bB. intros bC. 
  intros AA AB AC XA XB XC. unfold xgemm_batch_strided.
  pose proof (gemm_over l ta tb M N K alpha A lda sa B ldb sb beta C ldc sc (Z.to_nat n) 0 m) as E. cbn [Z.of_nat] in E. rewrite !Z.add_0_r in E. rewrite E.
  apply (batch_ok n [(bA, everywhere); (bB, everywhere)] bC everywhere (gemm_f l ta tb M N K alpha A lda sa B ldb sb beta C ldc sc));
    try exact AC; try exact XC; try apply seq_order; try apply selects_all.
  - subst bA bB bC. repeat (apply Forall_cons; [destruct ta, tb; apply selects_all|]). constructor.
  - subst bA bB bC. intros i m1 m2 r c AG (Hr & Hc & _). unfold gemm_f. f_equal; f_equal.
    + rewrite !total_Sum. apply Sum_ext. intros k Hk. f_equal.
      * destruct ta; cbn [op]; (eapply agree_matrix;
          [exact AG|right; left; reflexivity|apply selects_all|unfold accessed; cbn in *; try unfold whole; intuition lia]).
      * destruct tb; cbn [op]; (eapply agree_matrix;
          [exact AG|right; right; left; reflexivity|apply selects_all|unfold accessed; cbn in *; try unfold whole; intuition lia]).
    + eapply agree_matrix; [exact AG|left; reflexivity|apply selects_all|unfold accessed; cbn in *; try unfold whole; intuition lia].
  - subst bA bB bC. repeat (apply Forall_cons; [assumption|]). constructor.
  - subst bA bB bC. repeat (apply Forall_cons; [assumption|]). constructor.
Qed.
Lemma gemm_f_spec (l : layout) (ta tb : transpose) (M N K : Z) (alpha : V) (A lda sa B ldb sb : Z) (beta : V) (C ldc sc : Z) i (m : mem) r c :
  let bA := stored_batch ta l A lda sa M K in let bB := stored_batch tb l B ldb sb K N in let bC := Batch l C ldc sc M N whole in (gemm_f l ta tb M N K alpha A lda sa B ldb sb beta C ldc sc) i m r c =
  plus add (scaled mul alpha (product zero add mul K (maybe_transposed ta (matrix_of zero m bA i))
                                                     (maybe_transposed tb (matrix_of zero m bB i))))
           (scaled mul beta (matrix_of zero m bC i)) r c.
Proof.
  intros bA; subst bA. intros bB; subst bB. intros bC; subst bC. 
  unfold gemm_f, plus, scaled, product. rewrite total_Sum, value_of. do 2 f_equal. apply Sum_ext.
  intros k _. destruct ta, tb; cbn [op maybe_transposed]; unfold transposed; now rewrite !value_of.
Qed.

(** ** syrk *)
Definition syrk_f (l : layout) (u : uplo) (t : transpose) (N K : Z) (alpha : V) (A lda sa : Z) (beta : V) (C ldc sc : Z) (i : Z) (m : mem) (r c : Z) : V :=
  let bA := stored_batch t l A lda sa N K in let bC := Batch l C ldc sc N N (in_triangle u NonUnit) in
  add (mul alpha (total zero add K (fun k => mul (op t (value zero m (operand_of bA everywhere i)) r k)
                                                 (op t (value zero m (operand_of bA everywhere i)) c k))))
      (mul beta (value zero m (operand_of bC (triangle u NonUnit) i) r c)).
Lemma syrk_over (l : layout) (u : uplo) (t : transpose) (N K : Z) (alpha : V) (A lda sa : Z) (beta : V) (C ldc sc : Z) n :
  let bA := stored_batch t l A lda sa N K in let bC := Batch l C ldc sc N N (in_triangle u NonUnit) in forall k (m : mem),
  xsyrk_loop zero add mul l u t N K alpha lda sa beta ldc sc n (A + Z.of_nat k * sa) (C + Z.of_nat k * sc) m =
  over (fun i => map (fun p => operand_of (fst p) (snd p) i) [(bA, everywhere)])
    (fun i => operand_of bC (triangle u NonUnit) i) (syrk_f l u t N K alpha A lda sa beta C ldc sc) (map Z.of_nat (seq k n)) m.
Proof.
  intros bA; subst bA. intros bC; subst bC. 
  induction n as [|n IH]; intros k m; [reflexivity|]. cbn [xsyrk_loop seq map over].
  apply bind_cong.
  - destruct t; reflexivity.
  - intros m'. etransitivity; [|apply IH]. f_equal; lia.
Qed.
Lemma syrk_batch_ok (l : layout) (u : uplo) (t : transpose) (N K : Z) (alpha : V) (A lda sa : Z) (beta : V) (C ldc sc : Z) n (m : mem) :
  let bA := stored_batch t l A lda sa N K in let bC := Batch l C ldc sc N N (in_triangle u NonUnit) in
  allocated n bA m -> allocated n bC m -> separate n bC bA -> spread_out n bC ->
  exists m', xsyrk_batch_strided zero add mul l u t N K alpha A lda sa beta C ldc sc n m = Ok m' /\
    batch_updated n bC (fun i => (syrk_f l u t N K alpha A lda sa beta C ldc sc) i m) m m'.
Proof.
  intros bA. intros bC. 
  intros AA AC XA XC. unfold xsyrk_batch_strided.
  pose proof (syrk_over l u t N K alpha A lda sa beta C ldc sc (Z.to_nat n) 0 m) as E. cbn [Z.of_nat] in E. rewrite !Z.add_0_r in E. rewrite E.
  apply (batch_ok n [(bA, everywhere)] bC (triangle u NonUnit) (syrk_f l u t N K alpha A lda sa beta C ldc sc));
    try exact AC; try exact XC; try apply seq_order; try apply selects_triangle.
  - subst bA bC. apply Forall_cons; [destruct t; apply selects_all|]. constructor.
  - subst bA bC. intros i m1 m2 r c AG Hrc. pose proof Hrc as (Hr & Hc & _). unfold syrk_f. f_equal; f_equal.
    + rewrite !total_Sum. apply Sum_ext. intros k Hk.
      f_equal; destruct t; cbn [op]; (eapply agree_matrix;
          [exact AG|right; left; reflexivity|apply selects_all|unfold accessed; cbn in *; try unfold whole; intuition lia]).
    + eapply agree_matrix; [exact AG|left; reflexivity|apply selects_triangle|exact Hrc].
  - subst bA bC. apply Forall_cons; [assumption|]. constructor.
  - subst bA bC. apply Forall_cons; [assumption|]. constructor.
Qed.
Lemma syrk_f_spec (l : layout) (u : uplo) (t : transpose) (N K : Z) (alpha : V) (A lda sa : Z) (beta : V) (C ldc sc : Z) i (m : mem) r c :
  let bA := stored_batch t l A lda sa N K in let bC := Batch l C ldc sc N N (in_triangle u NonUnit) in (syrk_f l u t N K alpha A lda sa beta C ldc sc) i m r c =
  plus add (scaled mul alpha (product zero add mul K (maybe_transposed t (matrix_of zero m bA i))
                                                     (transposed (maybe_transposed t (matrix_of zero m bA i)))))
           (scaled mul beta (matrix_of zero m bC i)) r c.
Proof.
  intros bA; subst bA. intros bC; subst bC. 
  unfold syrk_f, plus, scaled, product. rewrite total_Sum, value_of. do 2 f_equal. apply Sum_ext.
  intros k _. destruct t; cbn [op maybe_transposed]; unfold transposed; now rewrite !value_of.
Qed.

(** ** gemv *)
Definition gemv_f (l : layout) (t : transpose) (M N : Z) (alpha : V) (a lda sa x incx sx : Z) (beta : V) (y incy sy : Z) (i : Z) (m : mem) (_ r : Z) : V :=
  let bA := Batch l a lda sa M N whole in let nx := match t with NoTrans => N | Trans => M end in let ny := match t with NoTrans => M | Trans => N end in let bx := vector_batch x incx sx nx in let by_ := vector_batch y incy sy ny in
  add (mul alpha (total zero add nx (fun k => mul (op t (value zero m (operand_of bA everywhere i)) r k)
                                                  (value zero m (operand_of bx everywhere i) 0 k))))
      (mul beta (value zero m (operand_of by_ everywhere i) 0 r)).
Lemma gemv_over (l : layout) (t : transpose) (M N : Z) (alpha : V) (a lda sa x incx sx : Z) (beta : V) (y incy sy : Z) order :
  let bA := Batch l a lda sa M N whole in let nx := match t with NoTrans => N | Trans => M end in let ny := match t with NoTrans => M | Trans => N end in let bx := vector_batch x incx sx nx in let by_ := vector_batch y incy sy ny in forall m : mem,
  xgemv_batch_strided zero add mul l t M N alpha a lda sa x incx sx beta y incy sy order m =
  over (fun i => map (fun p => operand_of (fst p) (snd p) i) [(bA, everywhere); (bx, everywhere)])
    (fun i => operand_of by_ everywhere i) (gemv_f l t M N alpha a lda sa x incx sx beta y incy sy) order m.
Proof.
  intros bA; subst bA. intros nx; subst nx. intros ny; subst ny. intros bx; subst bx. intros by_; subst by_. 
  induction order as [|i order IH]; intros m; [reflexivity|]. cbn [xgemv_batch_strided map over].
  apply bind_cong.
  - destruct t; reflexivity.
  - intros m'. apply IH.
Qed.
Lemma gemv_batch_ok (l : layout) (t : transpose) (M N : Z) (alpha : V) (a lda sa x incx sx : Z) (beta : V) (y incy sy : Z) n order (m : mem) :
  let bA := Batch l a lda sa M N whole in let nx := match t with NoTrans => N | Trans => M end in let ny := match t with NoTrans => M | Trans => N end in let bx := vector_batch x incx sx nx in let by_ := vector_batch y incy sy ny in
  allocated n bA m -> allocated n bx m -> allocated n by_ m ->
  separate n by_ bA -> separate n by_ bx -> spread_out n by_ ->
  NoDup order -> (forall i, In i order <-> 0 <= i < n) ->
  exists m', xgemv_batch_strided zero add mul l t M N alpha a lda sa x incx sx beta y incy sy order m = Ok m' /\
    batch_updated n by_ (fun i => (gemv_f l t M N alpha a lda sa x incx sx beta y incy sy) i m) m m'.
Proof.
  intros bA. intros nx. intros ny. intros bx. intros by_. 
  intros AA AB AC XA XB XC ND ORD. rewrite (gemv_over l t M N alpha a lda sa x incx sx beta y incy sy).
  apply (batch_ok n [(bA, everywhere); (bx, everywhere)] by_ everywhere (gemv_f l t M N alpha a lda sa x incx sx beta y incy sy));
    try exact AC; try exact XC; try exact ND; try exact ORD; try apply selects_all.
  - subst bA bx by_ nx ny. repeat (apply Forall_cons; [apply selects_all|]). constructor.
  - subst bA bx by_ nx ny. intros i m1 m2 r c AG (Hr & Hc & _). cbn in Hr, Hc. unfold gemv_f. f_equal; f_equal.
    + rewrite !total_Sum. apply Sum_ext. intros k Hk. f_equal.
      * destruct t; cbn [op]; (eapply agree_matrix;
          [exact AG|right; left; reflexivity|apply selects_all|unfold accessed; cbn in *; try unfold whole; intuition lia]).
      * eapply agree_matrix;
          [exact AG|right; right; left; reflexivity|apply selects_all|unfold accessed; cbn in *; try unfold whole; intuition lia].
    + eapply agree_matrix; [exact AG|left; reflexivity|apply selects_all|unfold accessed; cbn in *; try unfold whole; intuition lia].
  - subst bA bx by_ nx ny. repeat (apply Forall_cons; [assumption|]). constructor.
  - subst bA bx by_ nx ny. repeat (apply Forall_cons; [assumption|]). constructor.
Qed.
Lemma gemv_f_spec (l : layout) (t : transpose) (M N : Z) (alpha : V) (a lda sa x incx sx : Z) (beta : V) (y incy sy : Z) i (m : mem) r c :
  let bA := Batch l a lda sa M N whole in let nx := match t with NoTrans => N | Trans => M end in let ny := match t with NoTrans => M | Trans => N end in let bx := vector_batch x incx sx nx in let by_ := vector_batch y incy sy ny in (gemv_f l t M N alpha a lda sa x incx sx beta y incy sy) i m r c =
  add (mul alpha (Sum zero add nx (fun k => mul (maybe_transposed t (matrix_of zero m bA i) c k)
                                                (matrix_of zero m bx i 0 k))))
      (mul beta (matrix_of zero m by_ i 0 c)).
Proof.
  intros bA; subst bA. intros nx; subst nx. intros ny; subst ny. intros bx; subst bx. intros by_; subst by_. 
  unfold gemv_f. rewrite total_Sum, value_of. do 2 f_equal. apply Sum_ext.
  intros k _. destruct t; cbn [op maybe_transposed]; unfold transposed; now rewrite !value_of.
Qed.

(** ** trsm *)
Lemma solve_ext up T T' b b' n i :
  (forall r c, 0 <= r < n -> 0 <= c < n -> T r c = T' r c) -> (forall r, 0 <= r < n -> b r = b' r) ->
  solve zero add mul sub div up T b n i = solve zero add mul sub div up T' b' n i.
Proof.
  intros HT Hb. unfold solve. destruct up; f_equal; apply substitute_ext; intros; first [apply HT|apply Hb]; lia.
Qed.
Definition trsm_f (l : layout) (sd : side) (u : uplo) (t : transpose) (d : diag) (M N : Z) (alpha : V) (A lda sa B ldb sb : Z) (i : Z) (m : mem) (r c : Z) : V :=
  let na := match sd with Left_ => M | Right_ => N end in let bA := Batch l A lda sa na na (in_triangle u d) in let bB := Batch l B ldb sb M N whole in
  match sd with
  | Left_ => solve zero add mul sub div (op_upper u t) (op t (tri zero one m (operand_of bA (triangle u d) i) d))
               (fun k => mul alpha (value zero m (operand_of bB everywhere i) k c)) M r
  | Right_ => solve zero add mul sub div (negb (op_upper u t))
               (fun r c => op t (tri zero one m (operand_of bA (triangle u d) i) d) c r)
               (fun k => mul alpha (value zero m (operand_of bB everywhere i) r k)) N c
  end.
Lemma trsm_over (l : layout) (sd : side) (u : uplo) (t : transpose) (d : diag) (M N : Z) (alpha : V) (A lda sa B ldb sb : Z) n :
  let na := match sd with Left_ => M | Right_ => N end in let bA := Batch l A lda sa na na (in_triangle u d) in let bB := Batch l B ldb sb M N whole in forall k (m : mem),
  xtrsm_loop zero one add mul sub div l sd u t d M N alpha lda sa ldb sb n (A + Z.of_nat k * sa) (B + Z.of_nat k * sb) m =
  over (fun i => map (fun p => operand_of (fst p) (snd p) i) [(bA, triangle u d)])
    (fun i => operand_of bB everywhere i) (trsm_f l sd u t d M N alpha A lda sa B ldb sb) (map Z.of_nat (seq k n)) m.
Proof.
  intros na; subst na. intros bA; subst bA. intros bB; subst bB. 
  induction n as [|n IH]; intros k m; [reflexivity|]. cbn [xtrsm_loop seq map over].
  apply bind_cong.
  - destruct sd; reflexivity.
  - intros m'. etransitivity; [|apply IH]. f_equal; lia.
Qed.
Lemma tri_agree b u d os (m m' : mem) i r c : b_part b = in_triangle u d ->
  agree_at os m m' -> In (operand_of b (triangle u d) i) os ->
  0 <= r < b_rows b -> 0 <= c < b_cols b ->
  tri zero one m (operand_of b (triangle u d) i) d r c = tri zero one m' (operand_of b (triangle u d) i) d r c.
Proof.
  intros P AG I Hr Hc. unfold tri. destruct (sel (operand_of b (triangle u d) i) r c) eqn:E; [|reflexivity].
  eapply agree_matrix; [exact AG|exact I|rewrite P; apply selects_triangle|]. unfold accessed. rewrite P.
  apply (selects_triangle u d r c) in E. tauto.
Qed.
Lemma tri_spec b u d i (m : mem) r c : tri zero one m (operand_of b (triangle u d) i) d r c =
  triangular zero one u d (matrix_of zero m b i) r c.
Proof.
  unfold tri, triangular. rewrite value_of. cbn [sel operand_of].
  destruct u, d; cbn [triangle]; destruct (Z.eqb_spec r c) as [->|NE];
    rewrite ?Z.leb_refl, ?Z.ltb_irrefl; try reflexivity.
  - destruct (Z.leb_spec r c), (Z.ltb_spec r c); try reflexivity; lia.
  - destruct (Z.leb_spec c r), (Z.ltb_spec c r); try reflexivity; lia.
Qed.
Lemma trsm_batch_ok (l : layout) (sd : side) (u : uplo) (t : transpose) (d : diag) (M N : Z) (alpha : V) (A lda sa B ldb sb : Z) n (m : mem) :
  let na := match sd with Left_ => M | Right_ => N end in
  let bA := Batch l A lda sa na na (in_triangle u d) in let bB := Batch l B ldb sb M N whole in
  allocated n bA m -> allocated n bB m -> separate n bB bA -> spread_out n bB ->
  exists m', xtrsm_batch_strided zero one add mul sub div l sd u t d M N alpha A lda sa B ldb sb n m = Ok m' /\
    batch_updated n bB (fun i => trsm_f l sd u t d M N alpha A lda sa B ldb sb i m) m m'.
Proof.
  intros na bA bB AA AC XA XC. unfold xtrsm_batch_strided.
  pose proof (trsm_over l sd u t d M N alpha A lda sa B ldb sb (Z.to_nat n) 0 m) as E. cbn [Z.of_nat] in E.
  rewrite !Z.add_0_r in E. rewrite E. clear E.
  apply (batch_ok n [(bA, triangle u d)] bB everywhere (trsm_f l sd u t d M N alpha A lda sa B ldb sb));
    try exact AC; try exact XC; try apply seq_order; try apply selects_all.
  - apply Forall_cons; [apply selects_triangle|]. constructor.
  - intros i m1 m2 r c AG (Hr & Hc & _). cbn in Hr, Hc. unfold trsm_f.
    assert (HB : forall r c, 0 <= r < M -> 0 <= c < N -> value zero m1 (operand_of bB everywhere i) r c =
                    value zero m2 (operand_of bB everywhere i) r c).
    { intros r' c' Hr' Hc'. eapply agree_matrix; [exact AG|left; reflexivity|apply selects_all|].
      unfold accessed; cbn; try unfold whole; intuition lia. }
    assert (HA : forall r c, 0 <= r < na -> 0 <= c < na -> tri zero one m1 (operand_of bA (triangle u d) i) d r c =
                    tri zero one m2 (operand_of bA (triangle u d) i) d r c).
    { intros. eapply tri_agree; [reflexivity|exact AG|right; left; reflexivity|assumption|assumption]. }
    clear AG AA AC XA XC. subst bA bB na.
    destruct sd; (apply solve_ext; [intros; destruct t; cbn [op]; apply HA; lia|intros; f_equal; apply HB; lia]).
  - apply Forall_cons; [assumption|]. constructor.
  - apply Forall_cons; [assumption|]. constructor.
Qed.

Context (opp : V -> V) (inv : V -> V).
Hypothesis Fth : field_theory zero one add mul sub opp div inv (@eq V).
Lemma trsm_f_spec (l : layout) (sd : side) (u : uplo) (t : transpose) (d : diag) (M N : Z) (alpha : V) (A lda sa B ldb sb : Z) i (m : mem) r c :
  let na := match sd with Left_ => M | Right_ => N end in let bA := Batch l A lda sa na na (in_triangle u d) in let bB := Batch l B ldb sb M N whole in 0 <= r < M -> 0 <= c < N ->
  (d = NonUnit -> forall k, 0 <= k < na -> matrix_of zero m bA i k k <> zero) ->
  let T := maybe_transposed t (triangular zero one u d (matrix_of zero m bA i)) in
  match sd with
  | Left_ => product zero add mul M T ((trsm_f l sd u t d M N alpha A lda sa B ldb sb) i m) r c
  | Right_ => product zero add mul N ((trsm_f l sd u t d M N alpha A lda sa B ldb sb) i m) T r c
  end = mul alpha (matrix_of zero m bB i r c).
Proof using Fth.
  intros na bA bB Hr Hc NS T.
  set (X := tri zero one m (operand_of bA (triangle u d) i) d).
  assert (HT : forall r c, op t X r c = T r c).
  { intros r' c'. unfold X, T. destruct t; cbn [op maybe_transposed]; unfold transposed; apply tri_spec. }
  assert (HD : forall k, 0 <= k < na -> T k k <> zero).
  { intros k Hk. assert (T k k = triangular zero one u d (matrix_of zero m bA i) k k) as -> by (unfold T; destruct t; reflexivity).
    unfold triangular. rewrite Z.eqb_refl. destruct d.
    - now apply NS.
    - intros E. apply (F_1_neq_0 Fth). exact E. }
  assert (HZ : forall r c, (if op_upper u t then c < r else r < c) -> T r c = zero).
  { intros r' c' L. unfold T. destruct u, t; cbn [op_upper maybe_transposed] in *; unfold transposed, triangular;
      rewrite (proj2 (Z.eqb_neq _ _)) by lia; rewrite (proj2 (Z.ltb_ge _ _)) by lia; reflexivity. }
  rewrite <- (value_of bB everywhere). unfold product, trsm_f.
  assert (Fr := F_R Fth).
  fold na; fold bA; fold bB; fold X. clearbody X. clear NS. clearbody T. clearbody bB. clear bA. destruct sd; subst na.
  - transitivity (Sum zero add M (fun k => mul (op t X r k)
      (solve zero add mul sub div (op_upper u t) (op t X) (fun k => mul alpha (value zero m (operand_of bB everywhere i) k c)) M k))).
    { apply Sum_ext. intros k Hk. f_equal. symmetry. apply HT. }
    assert (HD' : forall k, 0 <= k < M -> op t X k k <> zero) by (intros; rewrite HT; now apply HD).
    destruct (op_upper u t).
    + apply (solve_upper zero one add mul sub opp div inv Fth (op t X)
        (fun k => mul alpha (value zero m (operand_of bB everywhere i) k c))); try assumption.
      intros. rewrite HT. now apply HZ.
    + apply (solve_lower zero one add mul sub opp div inv Fth (op t X)
        (fun k => mul alpha (value zero m (operand_of bB everywhere i) k c))); try assumption.
      intros. rewrite HT. now apply HZ.
  - transitivity (Sum zero add N (fun k => mul (op t X k c)
      (solve zero add mul sub div (negb (op_upper u t)) (fun r c => op t X c r) (fun k => mul alpha (value zero m (operand_of bB everywhere i) r k)) N k))).
    { apply Sum_ext. intros k Hk. rewrite <- HT. apply (Rmul_comm Fr). }
    assert (HD' : forall k, 0 <= k < N -> op t X k k <> zero) by (intros; rewrite HT; now apply HD).
    destruct (op_upper u t); cbn [negb].
    + apply (solve_lower zero one add mul sub opp div inv Fth (fun r c => op t X c r)
        (fun k => mul alpha (value zero m (operand_of bB everywhere i) r k))); try assumption.
      intros. rewrite HT. now apply HZ.
    + apply (solve_upper zero one add mul sub opp div inv Fth (fun r c => op t X c r)
        (fun k => mul alpha (value zero m (operand_of bB everywhere i) r k))); try assumption.
      intros. rewrite HT. now apply HZ.
Qed.
End Ops.
