(** Each BLAS routine, called on the operands that describe views. *)
From Verif Require Import Base MatView_Model MatView_Spec HlBlas_Model HlBlas_Spec HlBlas_Proofs.
From Coq Require Import Field.
Local Open Scope Z_scope.
Local Arguments Z.eqb : simpl never.
Local Arguments Z.leb : simpl never.

Section Routines.
Context {V : Type} (zero one : V) (add mul : V -> V -> V).
Local Notation mem := (@MatView_Model.mem V).
Local Notation shown := (shown zero).
Local Notation product := (product zero add mul).
Local Notation scaled := (scaled mul).
Local Notation plus := (plus add).
Local Notation lower_part := (lower_part zero).

Definition opt (t : transpose) (f : matrix (V := V)) : matrix (V := V) :=
  match t with NoTrans => f | Trans => transposed f end.
Lemma op_opt t f i j : op t f i j = opt t f i j.
Proof. destruct t; reflexivity. Qed.
Definition sized (t : transpose) (v : view) (m n : Z) : Prop :=
  match t with NoTrans => rows v = m /\ cols v = n | Trans => rows v = n /\ cols v = m end.
Lemma stored_describes t v m n : sized t v m n ->
  describes (stored ColMajor t (data v) (outer_stride v) m n) v all_positions.
Proof.
  intros S. destruct t; destruct S as [<- <-]; unfold describes, all_positions; cbn; tauto.
Qed.
Lemma full_describes v : describes (Operand ColMajor (data v) (outer_stride v) (rows v) (cols v) everywhere) v all_positions.
Proof. unfold describes, all_positions; cbn; tauto. Qed.
Lemma lower_describes v n : rows v = n -> cols v = n ->
  describes (Operand ColMajor (data v) (outer_stride v) n n (triangle Lower_ NonUnit)) v lower_positions.
Proof.
  intros <- E. unfold describes, lower_positions; cbn. rewrite E.
  repeat (split; [reflexivity|]). intros i j. apply Z.leb_le.
Qed.

Lemma gemm_ok ta tb M N K alpha A B beta C (m : mem) :
  usable all_positions A m -> usable all_positions B m -> usable all_positions C m ->
  sized ta A M K -> sized tb B K N -> rows C = M -> cols C = N ->
  apart C all_positions A all_positions -> apart C all_positions B all_positions ->
  exists m', cblas_gemm zero add mul ColMajor ta tb M N K alpha (data A) (outer_stride A)
               (data B) (outer_stride B) beta (data C) (outer_stride C) m = Ok m' /\
    updated m m' C all_positions
      (plus (scaled alpha (product K (opt ta (shown m A)) (opt tb (shown m B)))) (scaled beta (shown m C))).
Proof.
  intros UA UB UC SA SB <- <- XA XB.
  pose proof (stored_describes _ _ _ _ SA) as DA. pose proof (stored_describes _ _ _ _ SB) as DB.
  pose proof (full_describes C) as DC.
  unfold cblas_gemm. rewrite routine_ok.
  - eexists; split; [reflexivity|].
    eapply updated_ext; [|apply (updated_write _ _ _ _ _ DC UC)].
    intros i j R _. unfold HlBlas_Spec.plus, HlBlas_Spec.scaled, HlBlas_Spec.product. f_equal.
    + f_equal. rewrite total_Sum. apply Sum_ext. intros k Hk. rewrite !op_opt. f_equal.
      * destruct ta; cbn; unfold transposed; now rewrite (describes_value zero _ _ _ _ _ _ DA) by apply UA.
      * destruct tb; cbn; unfold transposed; now rewrite (describes_value zero _ _ _ _ _ _ DB) by apply UB.
    + f_equal. now rewrite (describes_value zero _ _ _ _ _ _ DC) by apply UC.
  - apply (describes_legal _ _ _ _ DC UC).
  - apply (describes_present _ _ _ _ DC UC).
  - intros o [<-|[<-|[]]].
    + split; [|split]; [apply (describes_legal _ _ _ _ DA UA)|apply (describes_present _ _ _ _ DA UA)|].
      apply (describes_overlap _ _ _ _ _ _ DC DA); [apply UC|apply UA|exact XA].
    + split; [|split]; [apply (describes_legal _ _ _ _ DB UB)|apply (describes_present _ _ _ _ DB UB)|].
      apply (describes_overlap _ _ _ _ _ _ DC DB); [apply UC|apply UB|exact XB].
Qed.

Lemma gemmt_ok ta tb N K alpha A B beta C (m : mem) :
  usable all_positions A m -> usable all_positions B m -> usable lower_positions C m ->
  sized ta A N K -> sized tb B K N -> rows C = N -> cols C = N ->
  apart C lower_positions A all_positions -> apart C lower_positions B all_positions ->
  exists m', cblas_gemmt zero add mul ColMajor Lower_ ta tb N K alpha (data A) (outer_stride A)
               (data B) (outer_stride B) beta (data C) (outer_stride C) m = Ok m' /\
    updated m m' C lower_positions
      (plus (scaled alpha (product K (opt ta (shown m A)) (opt tb (shown m B)))) (scaled beta (shown m C))).
Proof.
  intros UA UB UC SA SB RC CC XA XB.
  pose proof (stored_describes _ _ _ _ SA) as DA. pose proof (stored_describes _ _ _ _ SB) as DB.
  pose proof (lower_describes C N RC CC) as DC.
  unfold cblas_gemmt. rewrite routine_ok.
  - eexists; split; [reflexivity|].
    eapply updated_ext; [|apply (updated_write _ _ _ _ _ DC UC)].
    intros i j R _. unfold HlBlas_Spec.plus, HlBlas_Spec.scaled, HlBlas_Spec.product. f_equal.
    + f_equal. rewrite total_Sum. apply Sum_ext. intros k Hk. rewrite !op_opt. f_equal.
      * destruct ta; cbn; unfold transposed; now rewrite (describes_value zero _ _ _ _ _ _ DA) by apply UA.
      * destruct tb; cbn; unfold transposed; now rewrite (describes_value zero _ _ _ _ _ _ DB) by apply UB.
    + f_equal. now rewrite (describes_value zero _ _ _ _ _ _ DC) by apply UC.
  - apply (describes_legal _ _ _ _ DC UC).
  - apply (describes_present _ _ _ _ DC UC).
  - intros o [<-|[<-|[]]].
    + split; [|split]; [apply (describes_legal _ _ _ _ DA UA)|apply (describes_present _ _ _ _ DA UA)|].
      apply (describes_overlap _ _ _ _ _ _ DC DA); [apply UC|apply UA|exact XA].
    + split; [|split]; [apply (describes_legal _ _ _ _ DB UB)|apply (describes_present _ _ _ _ DB UB)|].
      apply (describes_overlap _ _ _ _ _ _ DC DB); [apply UC|apply UB|exact XB].
Qed.

Lemma syrk_ok t N K alpha A beta C (m : mem) :
  usable all_positions A m -> usable lower_positions C m ->
  sized t A N K -> rows C = N -> cols C = N ->
  apart C lower_positions A all_positions ->
  exists m', cblas_syrk zero add mul ColMajor Lower_ t N K alpha (data A) (outer_stride A)
               beta (data C) (outer_stride C) m = Ok m' /\
    updated m m' C lower_positions
      (plus (scaled alpha (product K (opt t (shown m A)) (transposed (opt t (shown m A))))) (scaled beta (shown m C))).
Proof.
  intros UA UC SA RC CC XA.
  pose proof (stored_describes _ _ _ _ SA) as DA.
  pose proof (lower_describes C N RC CC) as DC.
  unfold cblas_syrk. rewrite routine_ok.
  - eexists; split; [reflexivity|].
    eapply updated_ext; [|apply (updated_write _ _ _ _ _ DC UC)].
    intros i j R _. unfold HlBlas_Spec.plus, HlBlas_Spec.scaled, HlBlas_Spec.product. f_equal.
    + f_equal. rewrite total_Sum. apply Sum_ext. intros k Hk. rewrite !op_opt. unfold transposed at 1. f_equal.
      * destruct t; cbn; unfold transposed; now rewrite (describes_value zero _ _ _ _ _ _ DA) by apply UA.
      * destruct t; cbn; unfold transposed; now rewrite (describes_value zero _ _ _ _ _ _ DA) by apply UA.
    + f_equal. now rewrite (describes_value zero _ _ _ _ _ _ DC) by apply UC.
  - apply (describes_legal _ _ _ _ DC UC).
  - apply (describes_present _ _ _ _ DC UC).
  - intros o [<-|[]].
    split; [|split]; [apply (describes_legal _ _ _ _ DA UA)|apply (describes_present _ _ _ _ DA UA)|].
    apply (describes_overlap _ _ _ _ _ _ DC DA); [apply UC|apply UA|exact XA].
Qed.

Lemma gemv_ok t alpha A x beta y (m : mem) :
  usable all_positions A m -> usable_vector x m -> usable_vector y m ->
  sized t A (rows y) (rows x) ->
  apart y all_positions A all_positions -> apart y all_positions x all_positions ->
  exists m', cblas_gemv zero add mul ColMajor t (rows A) (cols A) alpha (data A) (outer_stride A)
               (data x) 1 beta (data y) 1 m = Ok m' /\
    updated m m' y all_positions
      (plus (scaled alpha (product (rows x) (opt t (shown m A)) (shown m x))) (scaled beta (shown m y))).
Proof.
  intros UA Ux Uy S XA XX.
  pose proof (full_describes A) as DA.
  unfold cblas_gemv.
  replace (match t with NoTrans => cols A | Trans => rows A end) with (rows x) by (destruct t, S; congruence).
  replace (match t with NoTrans => rows A | Trans => cols A end) with (rows y) by (destruct t, S; congruence).
  rewrite routine_ok.
  - eexists; split; [reflexivity|].
    eapply updated_ext; [|apply (v_updated _ _ _ Uy)].
    intros i j [R R'] _. cbv beta. assert (Hc : cols y = 1) by apply Uy. assert (j = 0) as -> by lia.
    unfold HlBlas_Spec.plus, HlBlas_Spec.scaled, HlBlas_Spec.product. f_equal.
    + f_equal. rewrite total_Sum. apply Sum_ext. intros k Hk. rewrite !op_opt. f_equal.
      * destruct t; cbn; unfold transposed; now rewrite (describes_value zero _ _ _ _ _ _ DA) by apply UA.
      * now rewrite v_value by apply Ux.
    + f_equal. now rewrite v_value by apply Uy.
  - apply (v_legal _ _ Uy).
  - apply (v_present _ _ Uy).
  - intros o [<-|[<-|[]]].
    + split; [|split]; [apply (describes_legal _ _ _ _ DA UA)|apply (describes_present _ _ _ _ DA UA)|].
      apply (v_overlap _ _ _ _ DA); [apply Uy|apply UA|apply Uy|exact XA].
    + split; [|split]; [apply (v_legal _ _ Ux)|apply (v_present _ _ Ux)|].
      apply v_v_overlap; [apply Uy|apply Ux|apply Uy|apply Ux|exact XX].
Qed.

Lemma tri_lower v n (m : mem) i j : rows v = n -> cols v = n -> inner_stride v = 1 ->
  tri zero one m (Operand ColMajor (data v) (outer_stride v) n n (triangle Lower_ NonUnit)) NonUnit i j =
  lower_part (shown m v) i j.
Proof.
  intros R C E. unfold tri, HlBlas_Spec.lower_part. cbn [HlBlas_Model.sel triangle].
  destruct (j <=? i); [|reflexivity].
  apply (describes_value zero _ _ _ _ _ _ (lower_describes v n R C) E).
Qed.
Lemma op_tri t v n (m : mem) i j : rows v = n -> cols v = n -> inner_stride v = 1 ->
  op t (tri zero one m (Operand ColMajor (data v) (outer_stride v) n n (triangle Lower_ NonUnit)) NonUnit) i j =
  opt t (lower_part (shown m v)) i j.
Proof. intros R C E. destruct t; cbn; unfold transposed; now apply tri_lower. Qed.

(** A routine that reads the lower triangle of A and overwrites B. *)
Lemma tri_routine A B n f (m : mem) : rows A = n -> cols A = n ->
  usable lower_positions A m -> usable all_positions B m -> apart B all_positions A lower_positions ->
  exists m',
    routine [Operand ColMajor (data A) (outer_stride A) n n (triangle Lower_ NonUnit)]
      (Operand ColMajor (data B) (outer_stride B) (rows B) (cols B) everywhere) f m = Ok m' /\
    updated m m' B all_positions (f m).
Proof.
  intros RA CA UA UB X.
  pose proof (lower_describes A n RA CA) as DA. pose proof (full_describes B) as DB.
  rewrite routine_ok.
  - eexists; split; [reflexivity|]. apply (updated_write _ _ _ _ _ DB UB).
  - apply (describes_legal _ _ _ _ DB UB).
  - apply (describes_present _ _ _ _ DB UB).
  - intros o [<-|[]].
    split; [|split]; [apply (describes_legal _ _ _ _ DA UA)|apply (describes_present _ _ _ _ DA UA)|].
    apply (describes_overlap _ _ _ _ _ _ DB DA); [apply UB|apply UA|exact X].
Qed.
Lemma tri_vroutine A x n f (m : mem) : rows A = n -> cols A = n ->
  usable lower_positions A m -> usable_vector x m -> apart x all_positions A lower_positions ->
  exists m',
    routine [Operand ColMajor (data A) (outer_stride A) n n (triangle Lower_ NonUnit)]
      (vector (data x) 1 (rows x)) f m = Ok m' /\
    updated m m' x all_positions (fun i _ => f m 0 i).
Proof.
  intros RA CA UA Ux X.
  pose proof (lower_describes A n RA CA) as DA.
  rewrite routine_ok.
  - eexists; split; [reflexivity|]. apply (v_updated _ _ _ Ux).
  - apply (v_legal _ _ Ux).
  - apply (v_present _ _ Ux).
  - intros o [<-|[]].
    split; [|split]; [apply (describes_legal _ _ _ _ DA UA)|apply (describes_present _ _ _ _ DA UA)|].
    apply (v_overlap _ _ _ _ DA); [apply Ux|apply UA|apply Ux|exact X].
Qed.

Lemma trmm_left_ok t alpha A B (m : mem) :
  usable lower_positions A m -> usable all_positions B m -> apart B all_positions A lower_positions ->
  rows A = rows B -> cols A = rows B ->
  exists m', cblas_trmm zero one add mul ColMajor Left_ Lower_ t NonUnit (rows B) (cols B) alpha
      (data A) (outer_stride A) (data B) (outer_stride B) m = Ok m' /\
    updated m m' B all_positions (scaled alpha (product (rows B) (opt t (lower_part (shown m A))) (shown m B))).
Proof.
  intros UA UB X RA CA. unfold cblas_trmm.
  destruct (tri_routine A B (rows B) (fun m i j => mul alpha (total zero add (rows B) (fun k =>
    mul (op t (tri zero one m (Operand ColMajor (data A) (outer_stride A) (rows B) (rows B)
                                  (triangle Lower_ NonUnit)) NonUnit) i k)
        (value zero m (Operand ColMajor (data B) (outer_stride B) (rows B) (cols B) everywhere) k j)))) m)
    as (m' & E & U); try assumption.
  exists m'. split; [exact E|]. eapply updated_ext; [|exact U].
  intros i j R _. cbv beta. unfold HlBlas_Spec.scaled, HlBlas_Spec.product. f_equal. rewrite total_Sum.
  apply Sum_ext. intros k Hk. rewrite op_tri by (try assumption; apply UA). f_equal.
  apply (describes_value zero _ _ _ _ _ _ (full_describes B)), UB.
Qed.
Lemma trmm_right_ok t alpha A B (m : mem) :
  usable lower_positions A m -> usable all_positions B m -> apart B all_positions A lower_positions ->
  rows A = cols B -> cols A = cols B ->
  exists m', cblas_trmm zero one add mul ColMajor Right_ Lower_ t NonUnit (rows B) (cols B) alpha
      (data A) (outer_stride A) (data B) (outer_stride B) m = Ok m' /\
    updated m m' B all_positions (scaled alpha (product (cols B) (shown m B) (opt t (lower_part (shown m A))))).
Proof.
  intros UA UB X RA CA. unfold cblas_trmm.
  destruct (tri_routine A B (cols B) (fun m i j => mul alpha (total zero add (cols B) (fun k =>
    mul (value zero m (Operand ColMajor (data B) (outer_stride B) (rows B) (cols B) everywhere) i k)
        (op t (tri zero one m (Operand ColMajor (data A) (outer_stride A) (cols B) (cols B)
                                  (triangle Lower_ NonUnit)) NonUnit) k j)))) m)
    as (m' & E & U); try assumption.
  exists m'. split; [exact E|]. eapply updated_ext; [|exact U].
  intros i j R _. cbv beta. unfold HlBlas_Spec.scaled, HlBlas_Spec.product. f_equal. rewrite total_Sum.
  apply Sum_ext. intros k Hk. rewrite op_tri by (try assumption; apply UA). f_equal.
  apply (describes_value zero _ _ _ _ _ _ (full_describes B)), UB.
Qed.
Lemma trmv_ok t A x (m : mem) :
  usable lower_positions A m -> usable_vector x m -> apart x all_positions A lower_positions ->
  rows A = rows x -> cols A = rows x ->
  exists m', cblas_trmv zero one add mul ColMajor Lower_ t NonUnit (rows x)
      (data A) (outer_stride A) (data x) 1 m = Ok m' /\
    updated m m' x all_positions (product (rows x) (opt t (lower_part (shown m A))) (shown m x)).
Proof.
  intros UA Ux X RA CA. unfold cblas_trmv.
  destruct (tri_vroutine A x (rows x) (fun m _ i => total zero add (rows x) (fun k =>
    mul (op t (tri zero one m (Operand ColMajor (data A) (outer_stride A) (rows x) (rows x)
                                  (triangle Lower_ NonUnit)) NonUnit) i k)
        (value zero m (vector (data x) 1 (rows x)) 0 k))) m)
    as (m' & E & U); try assumption.
  exists m'. split; [exact E|]. eapply updated_ext; [|exact U].
  intros i j [R R'] _. cbv beta. unfold HlBlas_Spec.product. rewrite total_Sum.
  assert (Hc : cols x = 1) by apply Ux. assert (j = 0) as -> by lia.
  apply Sum_ext. intros k Hk. rewrite op_tri by (try assumption; apply UA). f_equal.
  apply v_value, Ux.
Qed.

Context (sub : V -> V -> V) (opp : V -> V) (div : V -> V -> V) (inv : V -> V).
Hypothesis Fth : field_theory zero one add mul sub opp div inv (@eq V).

(** op(lower A) X = b, column by column. *)
Lemma solve_ok t A (m : mem) n b i : rows A = n -> cols A = n -> inner_stride A = 1 ->
  nonsingular zero A m -> 0 <= i < n ->
  Sum zero add n (fun k => mul (opt t (lower_part (shown m A)) i k)
     (solve zero add mul sub div (op_upper Lower_ t)
        (op t (tri zero one m (Operand ColMajor (data A) (outer_stride A) n n (triangle Lower_ NonUnit)) NonUnit)) b n k)) = b i.
Proof using Fth.
  intros R C E NS Hi.
  set (T := op t (tri zero one m (Operand ColMajor (data A) (outer_stride A) n n (triangle Lower_ NonUnit)) NonUnit)).
  assert (HT : forall r c, T r c = opt t (lower_part (shown m A)) r c) by (intros; unfold T; now apply op_tri).
  rewrite (Sum_ext zero add n _ (fun k => mul (T i k) (solve zero add mul sub div (op_upper Lower_ t) T b n k)))
    by (intros; now rewrite HT).
  assert (HD : forall r, 0 <= r < n -> T r r <> zero).
  { intros r Hr. rewrite HT. destruct t; cbn; unfold transposed, HlBlas_Spec.lower_part;
      rewrite Z.leb_refl; apply NS; lia. }
  destruct t; cbn [op_upper].
  - apply (solve_lower zero one add mul sub opp div inv Fth); try assumption.
    intros r c Hr Hc L. rewrite HT. cbn. unfold HlBlas_Spec.lower_part.
    now rewrite (proj2 (Z.leb_gt c r)) by lia.
  - apply (solve_upper zero one add mul sub opp div inv Fth); try assumption.
    intros r c Hr Hc L. rewrite HT. cbn. unfold transposed, HlBlas_Spec.lower_part.
    now rewrite (proj2 (Z.leb_gt r c)) by lia.
Qed.
(** x op(lower A) = b, row by row. *)
Lemma solve_right_ok t A (m : mem) n b i : rows A = n -> cols A = n -> inner_stride A = 1 ->
  nonsingular zero A m -> 0 <= i < n ->
  Sum zero add n (fun k => mul 
     (solve zero add mul sub div (negb (op_upper Lower_ t))
        (fun r c => op t (tri zero one m (Operand ColMajor (data A) (outer_stride A) n n (triangle Lower_ NonUnit)) NonUnit) c r) b n k)
        (opt t (lower_part (shown m A)) k i)) = b i.
Proof using Fth.
  intros R C E NS Hi.
  set (T := fun r c => op t (tri zero one m (Operand ColMajor (data A) (outer_stride A) n n (triangle Lower_ NonUnit)) NonUnit) c r).
  assert (HT : forall r c, T r c = opt t (lower_part (shown m A)) c r) by (intros; unfold T; now apply op_tri).
  rewrite (Sum_ext zero add n _ (fun k => mul (T i k) (solve zero add mul sub div (negb (op_upper Lower_ t)) T b n k)))
    by (intros; rewrite HT; apply (F_R Fth)).
  assert (HD : forall r, 0 <= r < n -> T r r <> zero).
  { intros r Hr. rewrite HT. destruct t; cbn; unfold transposed, HlBlas_Spec.lower_part;
      rewrite Z.leb_refl; apply NS; lia. }
  destruct t; cbn [op_upper negb].
  - apply (solve_upper zero one add mul sub opp div inv Fth); try assumption.
    intros r c Hr Hc L. rewrite HT. cbn. unfold HlBlas_Spec.lower_part.
    now rewrite (proj2 (Z.leb_gt r c)) by lia.
  - apply (solve_lower zero one add mul sub opp div inv Fth); try assumption.
    intros r c Hr Hc L. rewrite HT. cbn. unfold transposed, HlBlas_Spec.lower_part.
    now rewrite (proj2 (Z.leb_gt c r)) by lia.
Qed.

Lemma trsm_left_ok t alpha A B (m : mem) :
  usable lower_positions A m -> usable all_positions B m -> apart B all_positions A lower_positions ->
  rows A = rows B -> cols A = rows B -> nonsingular zero A m ->
  exists m' X, cblas_trsm zero one add mul sub div ColMajor Left_ Lower_ t NonUnit (rows B) (cols B) alpha
      (data A) (outer_stride A) (data B) (outer_stride B) m = Ok m' /\
    updated m m' B all_positions X /\
    agree_on B (product (rows B) (opt t (lower_part (shown m A))) X) (scaled alpha (shown m B)).
Proof using Fth.
  intros UA UB X RA CA NS. unfold cblas_trsm.
  match goal with |- context [routine [?a] ?b ?f] => destruct (tri_routine A B (rows B) f m) as (m' & E & U) end;
    try assumption.
  exists m'. eexists. split; [exact E|]. split; [exact U|].
  intros i j [Ri Rj]. unfold HlBlas_Spec.product, HlBlas_Spec.scaled.
  rewrite solve_ok by (try assumption; apply UA). f_equal.
  apply (describes_value zero _ _ _ _ _ _ (full_describes B)), UB.
Qed.
Lemma trsm_right_ok t alpha A B (m : mem) :
  usable lower_positions A m -> usable all_positions B m -> apart B all_positions A lower_positions ->
  rows A = cols B -> cols A = cols B -> nonsingular zero A m ->
  exists m' X, cblas_trsm zero one add mul sub div ColMajor Right_ Lower_ t NonUnit (rows B) (cols B) alpha
      (data A) (outer_stride A) (data B) (outer_stride B) m = Ok m' /\
    updated m m' B all_positions X /\
    agree_on B (product (cols B) X (opt t (lower_part (shown m A)))) (scaled alpha (shown m B)).
Proof using Fth.
  intros UA UB X RA CA NS. unfold cblas_trsm.
  match goal with |- context [routine [?a] ?b ?f] => destruct (tri_routine A B (cols B) f m) as (m' & E & U) end;
    try assumption.
  exists m'. eexists. split; [exact E|]. split; [exact U|].
  intros i j [Ri Rj]. unfold HlBlas_Spec.product, HlBlas_Spec.scaled.
  rewrite solve_right_ok by (try assumption; apply UA). f_equal.
  apply (describes_value zero _ _ _ _ _ _ (full_describes B)), UB.
Qed.
Lemma trsv_ok t A x (m : mem) :
  usable lower_positions A m -> usable_vector x m -> apart x all_positions A lower_positions ->
  rows A = rows x -> cols A = rows x -> nonsingular zero A m ->
  exists m' X, cblas_trsv zero one add mul sub div ColMajor Lower_ t NonUnit (rows x)
      (data A) (outer_stride A) (data x) 1 m = Ok m' /\
    updated m m' x all_positions X /\
    agree_on x (product (rows x) (opt t (lower_part (shown m A))) X) (shown m x).
Proof using Fth.
  intros UA Ux X RA CA NS. unfold cblas_trsv.
  match goal with |- context [routine [?a] ?b ?f] => destruct (tri_vroutine A x (rows x) f m) as (m' & E & U) end;
    try assumption.
  exists m'. eexists. split; [exact E|]. split; [exact U|].
  intros i j [Ri Rj]. unfold HlBlas_Spec.product. cbv beta.
  assert (Hc : cols x = 1) by apply Ux. assert (j = 0) as -> by lia.
  rewrite solve_ok by (try assumption; apply UA).
  apply v_value, Ux.
Qed.
End Routines.
