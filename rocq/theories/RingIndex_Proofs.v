From Verif Require Import Base RingIndex_Model RingIndex_Spec.
Local Open Scope outcome_scope.
Local Open Scope Z_scope.

Section Ring.
Variable T : itype.
Hypothesis HT : integer_type T.

Lemma conv_fits x : fits T x -> conv T x = x.
Proof. unfold fits, conv. intros H. rewrite Z.mod_small; lia. Qed.
Lemma conv_range x : fits T (conv T x).
Proof. unfold integer_type in HT. unfold fits, conv. pose proof (Z.mod_pos_bound (x - tmin T) (tmax T - tmin T + 1)). lia. Qed.
Lemma conv_shift x k : conv T (conv T x + k) = conv T (x + k).
Proof.
  unfold integer_type in HT. unfold conv.
  replace (_ + tmin T + k - tmin T) with ((x - tmin T) mod (tmax T - tmin T + 1) + k) by lia.
  rewrite Zplus_mod_idemp_l. do 2 f_equal. lia.
Qed.
Lemma conv_conv x : conv T (conv T x) = conv T x.
Proof. apply conv_fits, conv_range. Qed.
Lemma arith_fits x : fits T x -> arith T x = Ok x.
Proof.
  intros H. unfold arith. destruct (onover T); try reflexivity.
  - now rewrite conv_fits.
  - unfold fits in H. destruct (Z.leb_spec (tmin T) x), (Z.leb_spec x (tmax T)); cbn; try reflexivity; lia.
Qed.
(** Stored result of arithmetic on a type that is not signed and wide. *)
Lemma arith_conv x : onover T <> Undefined -> exists y, arith T x = Ok y /\ conv T y = conv T x.
Proof.
  intros H. unfold arith. destruct (onover T); [|contradiction|].
  - exists (conv T x). auto using conv_conv.
  - exists x. auto.
Qed.

Lemma mod_step c max : 0 <= c < max -> (if c + 1 =? max then 0 else c + 1) = (c + 1) mod max.
Proof.
  intros H. destruct (Z.eqb_spec (c + 1) max) as [E|E].
  - rewrite E. now rewrite Z_mod_same_full.
  - symmetry. apply Z.mod_small. lia.
Qed.
Lemma mod_back c max : 0 <= c < max -> (if c =? 0 then max - 1 else c - 1) = (c - 1) mod max.
Proof.
  intros H. destruct (Z.eqb_spec c 0) as [E|E].
  - subst. apply Z.mod_unique with (-1); lia.
  - symmetry. apply Z.mod_small. lia.
Qed.

(** One step without assertion. *)
Lemma inc_rel z c m : 0 <= c < m -> fits T m ->
  inc_ix T false (Iter z c m) =
  (z' <- arith T (z + 1) ;; Ok (Iter (conv T z') ((c + 1) mod m) m)).
Proof.
  intros H F. unfold inc_ix. cbn [zb circ mx andb]. destruct (arith T (z + 1)); cbn [bind]; try reflexivity.
  unfold integer_type in HT. unfold fits in F.
  rewrite (arith_fits (c + 1)) by (unfold fits; lia). cbn [bind].
  rewrite (conv_fits (c + 1)) by (unfold fits; lia). now rewrite mod_step.
Qed.
Lemma dec_rel z c m : 0 <= c < m -> fits T m ->
  dec_ix T false (Iter z c m) =
  (z' <- arith T (z - 1) ;; Ok (Iter (conv T z') ((c - 1) mod m) m)).
Proof.
  intros H F. unfold dec_ix. cbn [zb circ mx andb]. destruct (arith T (z - 1)); cbn [bind]; try reflexivity.
  unfold integer_type in HT. unfold fits in F.
  rewrite <- mod_back by exact H.
  destruct (Z.eqb_spec c 0).
  - rewrite arith_fits by (unfold fits; lia). cbn [bind]. rewrite (conv_fits (m - 1)) by (unfold fits; lia). reflexivity.
  - rewrite arith_fits by (unfold fits; lia). cbn [bind]. rewrite (conv_fits (c - 1)) by (unfold fits; lia). reflexivity.
Qed.
Lemma inc_dbg z c m : inc_ix T true (Iter z c m) = if z <? m then inc_ix T false (Iter z c m) else Abort.
Proof. unfold inc_ix. cbn [zb circ mx andb]. destruct (z <? m); reflexivity. Qed.
Lemma dec_dbg z c m : dec_ix T true (Iter z c m) = if 0 <? z then dec_ix T false (Iter z c m) else Abort.
Proof. unfold dec_ix. cbn [zb circ mx andb]. destruct (0 <? z); reflexivity. Qed.

Definition step (b : bool) : Z := if b then 1 else -1.
Lemma move_rel (b : bool) z c m : 0 <= c < m -> fits T m ->
  (if b then inc_ix T false (Iter z c m) else dec_ix T false (Iter z c m)) =
  (z' <- arith T (z + step b) ;; Ok (Iter (conv T z') ((c + step b) mod m) m)).
Proof. destruct b; intros; [apply inc_rel | apply dec_rel]; assumption. Qed.

Lemma move_in (b : bool) z c m : 0 <= c < m -> fits T m -> fits T (z + step b) ->
  (if b then inc_ix T false (Iter z c m) else dec_ix T false (Iter z c m)) = Ok (Iter (z + step b) ((c + step b) mod m) m).
Proof. intros. rewrite move_rel by assumption. rewrite arith_fits by assumption. cbn. now rewrite conv_fits. Qed.

Lemma way_cons P z b l : on_the_way P z (b :: l) <-> P z /\ on_the_way P (z + step b) l.
Proof.
  unfold on_the_way. split.
  - intros H. split; [specialize (H O ltac:(cbn; lia)); cbn in H; now rewrite Z.add_0_r in H|].
    intros k K. specialize (H (S k) ltac:(cbn; lia)). cbn in H. unfold step. now rewrite <- Z.add_assoc.
  - intros [A B] [|k] K; [cbn; now rewrite Z.add_0_r|]. specialize (B k ltac:(cbn in K; lia)).
    cbn. unfold step in B. now rewrite Z.add_assoc.
Qed.
Lemma way_end P z l : on_the_way P z l -> P (z + displacement l).
Proof. intros H. specialize (H (length l) ltac:(lia)). now rewrite firstn_all in H. Qed.

Lemma mod_mod_step c d m : 0 < m -> ((c + d) mod m) = ((c mod m + d) mod m).
Proof. intros. now rewrite Zplus_mod_idemp_l. Qed.

Lemma moves_release l : forall z c m, 0 <= c < m -> fits T m -> on_the_way (fits T) z l ->
  moves_ix T false l (Iter z c m) = Ok (Iter (z + displacement l) ((c + displacement l) mod m) m).
Proof.
  induction l as [|b l IH]; intros z c m C F W.
  - cbn. rewrite !Z.add_0_r, Z.mod_small by lia. reflexivity.
  - apply way_cons in W. destruct W as [W0 W]. cbn [moves_ix].
    rewrite move_in; auto.
    + cbn [bind]. rewrite IH; auto.
      * cbn [displacement]. fold (step b). rewrite Zplus_mod_idemp_l, !Z.add_assoc. reflexivity.
      * apply Z.mod_pos_bound. lia.
    + specialize (W O ltac:(lia)). cbn in W. now rewrite Z.add_0_r in W.
Qed.
(** Without undefined overflow: any sequence. *)
Lemma moves_wrap l : onover T <> Undefined -> forall z c m, fits T z -> 0 <= c < m -> fits T m ->
  moves_ix T false l (Iter z c m) = Ok (Iter (conv T (z + displacement l)) ((c + displacement l) mod m) m).
Proof.
  intros N. induction l as [|b l IH]; intros z c m Fz C F.
  - cbn. rewrite !Z.add_0_r, Z.mod_small, conv_fits by (assumption || lia). reflexivity.
  - cbn [moves_ix]. rewrite move_rel by assumption.
    destruct (arith_conv (z + step b) N) as (y & -> & Ey). cbn [bind]. rewrite Ey.
    rewrite IH; auto using conv_range.
    + cbn [displacement]. fold (step b). rewrite conv_shift, Zplus_mod_idemp_l, !Z.add_assoc. reflexivity.
    + apply Z.mod_pos_bound. lia.
Qed.
(** The circular index never leaves [0, max) on any build and path. *)
Lemma move_circ (b dbg : bool) i i' : 0 <= circ i < mx i -> fits T (mx i) ->
  (if b then inc_ix T dbg i else dec_ix T dbg i) = Ok i' -> 0 <= circ i' < mx i' /\ mx i' = mx i.
Proof.
  destruct i as [z c m]. cbn [circ mx]. intros C F E.
  assert (E' : (if b then inc_ix T false (Iter z c m) else dec_ix T false (Iter z c m)) = Ok i').
  { destruct dbg; [|exact E]. destruct b; [rewrite inc_dbg in E | rewrite dec_dbg in E];
    match goal with H : context [if ?x then _ else _] |- _ => destruct x end; congruence. }
  rewrite move_rel in E' by assumption. destruct (arith T (z + step b)); try discriminate. cbn in E'. injection E' as <-. cbn.
  split; [apply Z.mod_pos_bound; lia|reflexivity].
Qed.
Lemma moves_circ l : forall dbg i i', 0 <= circ i < mx i -> fits T (mx i) ->
  moves_ix T dbg l i = Ok i' -> 0 <= circ i' < mx i' /\ mx i' = mx i.
Proof.
  induction l as [|b l IH]; intros dbg i i' C F E.
  - cbn in E. injection E as <-. auto.
  - cbn [moves_ix] in E. destruct (if b then inc_ix T dbg i else dec_ix T dbg i) as [i1| | |] eqn:M; try discriminate.
    cbn in E. destruct (move_circ b dbg i i1 C F M) as [C1 E1].
    destruct (IH dbg i1 i') as [C2 E2]; auto; [now rewrite E1|]. split; congruence.
Qed.

(** With assertions. *)
Definition within (m x : Z) := 0 <= x <= m.
Lemma moves_debug l : forall z c m, 0 <= c < m -> fits T m -> within m z ->
  (on_the_way (within m) z l -> moves_ix T true l (Iter z c m) = moves_ix T false l (Iter z c m)) /\
  (~ on_the_way (within m) z l -> moves_ix T true l (Iter z c m) = Abort).
Proof.
  unfold integer_type in HT.
  induction l as [|b l IH]; intros z c m C F Wz.
  - split; [reflexivity|]. intros H. exfalso. apply H. intros k K. cbn in K.
    assert (k = O) as -> by lia. cbn. now rewrite Z.add_0_r.
  - assert (D : within m (z + step b) \/ ~ within m (z + step b)) by (unfold within; lia).
    destruct D as [D|D].
    + assert (M : (if b then inc_ix T true (Iter z c m) else dec_ix T true (Iter z c m)) = Ok (Iter (z + step b) ((c + step b) mod m) m)).
      { rewrite <- move_in; auto; [|unfold fits in *; unfold within in D; lia].
        unfold within, step in *. destruct b; [rewrite inc_dbg | rewrite dec_dbg].
        - destruct (Z.ltb_spec z m); [reflexivity|lia].
        - destruct (Z.ltb_spec 0 z); [reflexivity|lia]. }
      cbn [moves_ix]. rewrite M, move_in; auto; [|unfold fits in *; unfold within in D; lia]. cbn [bind].
      destruct (IH (z + step b) ((c + step b) mod m) m) as [I1 I2]; auto; [apply Z.mod_pos_bound; lia|].
      split; intros H.
      * apply way_cons in H. apply I1. tauto.
      * apply I2. intros K. apply H. apply way_cons. auto.
    + split; intros H.
      * exfalso. apply way_cons in H. destruct H as [_ H]. apply D. specialize (H O ltac:(lia)). cbn in H. now rewrite Z.add_0_r in H.
      * cbn [moves_ix]. unfold within, step in *. destruct b; [rewrite inc_dbg | rewrite dec_dbg].
        -- destruct (Z.ltb_spec z m); [lia|reflexivity].
        -- destruct (Z.ltb_spec 0 z); [lia|reflexivity].
Qed.

(** Ranges. *)
Lemma eq_ok dbg z1 c1 z2 c2 m : eq_ix dbg (Iter z1 c1 m) (Iter z2 c2 m) = Ok (z1 =? z2).
Proof. unfold eq_ix. cbn. rewrite Z.eqb_refl. now destruct dbg. Qed.

Definition ents (z c m : Z) (n : nat) : list (Z * Z) :=
  map (fun k => (z + Z.of_nat k, (c + Z.of_nat k) mod m)) (seq 0 n).
Lemma ents_S z c m n : 0 <= c < m -> ents z c m (S n) = (z, c) :: ents (z + 1) ((c + 1) mod m) m n.
Proof.
  intros H. unfold ents. cbn [seq map]. rewrite !Z.add_0_r, Z.mod_small by lia. f_equal.
  rewrite <- seq_shift, map_map. apply map_ext. intros k.
  rewrite Nat2Z.inj_succ, Zplus_mod_idemp_l. f_equal; [|f_equal]; lia.
Qed.

Lemma walk_fwd dbg n : forall fuel z c c2 m, 0 <= c < m -> fits T m ->
  0 <= z -> fits T (z + Z.of_nat n) -> (dbg = true -> z + Z.of_nat n <= m) -> (n < fuel)%nat ->
  walk_ix T dbg true fuel (Iter z c m) (Iter (z + Z.of_nat n) c2 m) = Ok (Some (ents z c m n)).
Proof.
  unfold integer_type in HT.
  induction n as [|n IH]; intros fuel z c c2 m C F Z0 FE DB FU; (destruct fuel as [|fuel]; [lia|]).
  - cbn [walk_ix]. rewrite eq_ok. cbn [bind]. rewrite Z.add_0_r, Z.eqb_refl. reflexivity.
  - cbn [walk_ix]. rewrite eq_ok. cbn [bind].
    destruct (Z.eqb_spec z (z + Z.of_nat (S n))) as [E|_]; [lia|].
    assert (M : inc_ix T dbg (Iter z c m) = Ok (Iter (z + 1) ((c + 1) mod m) m)).
    { pose proof (move_in true z c m C F) as M. cbn [step] in M. unfold fits in *. rewrite <- M by lia.
      destruct dbg; [|reflexivity]. rewrite inc_dbg. destruct (Z.ltb_spec z m); [reflexivity|]. specialize (DB eq_refl). lia. }
    rewrite M. cbn [bind]. replace (z + Z.of_nat (S n)) with (z + 1 + Z.of_nat n) in * by lia.
    rewrite IH; auto; [| apply Z.mod_pos_bound; lia | lia | lia].
    rewrite ents_S by exact C. reflexivity.
Qed.

Lemma range_ok dbg fuel size idx1 idx2 max : 0 <= idx1 < max -> fits T max -> 0 <= size -> fits T size ->
  (dbg = true -> size <= max) -> (Z.to_nat size < fuel)%nat ->
  range_ix T dbg fuel size idx1 idx2 max = Ok (Some (entries size idx1 max)).
Proof.
  intros. unfold range_ix, begin_ix, end_ix.
  pose proof (walk_fwd dbg (Z.to_nat size) fuel 0 idx1 idx2 max) as W. rewrite !Z2Nat.id in W by lia.
  replace (0 + size) with size in W by lia. rewrite W; auto; lia.
Qed.

Lemma walk_abort k : forall fuel z c z2 c2 m, 0 <= c < m -> fits T m -> 0 <= z -> Z.of_nat k = m - z -> (z2 < z \/ m < z2) ->
  (k < fuel)%nat -> walk_ix T true true fuel (Iter z c m) (Iter z2 c2 m) = Abort.
Proof.
  unfold integer_type in HT.
  induction k as [|k IH]; intros fuel z c z2 c2 m C F Z0 K B FU; (destruct fuel as [|fuel]; [lia|]);
  cbn [walk_ix]; rewrite eq_ok; cbn [bind]; (destruct (Z.eqb_spec z z2) as [E|_]; [lia|]); rewrite inc_dbg.
  - destruct (Z.ltb_spec z m); [lia|reflexivity].
  - destruct (Z.ltb_spec z m); [|lia].
    pose proof (move_in true z c m C F) as M. cbn [step] in M. unfold fits in *. rewrite M by lia. cbn [bind].
    rewrite IH; auto; try lia. apply Z.mod_pos_bound; lia.
Qed.

Lemma range_abort fuel size idx1 idx2 max : 0 <= idx1 < max -> fits T max -> size < 0 \/ max < size ->
  (Z.to_nat max < fuel)%nat -> range_ix T true fuel size idx1 idx2 max = Abort.
Proof. intros. unfold range_ix, begin_ix, end_ix. apply (walk_abort (Z.to_nat max)); lia || assumption. Qed.

Lemma ents_snoc z c m n : ents z c m (S n) = ents z c m n ++ [(z + Z.of_nat n, (c + Z.of_nat n) mod m)].
Proof. unfold ents. now rewrite seq_S, map_app. Qed.

Lemma walk_bwd dbg n : forall fuel c0 c2 m, 0 <= c0 < m -> fits T m -> fits T (Z.of_nat n) -> (n < fuel)%nat ->
  walk_ix T dbg false fuel (Iter (Z.of_nat n) ((c0 + Z.of_nat n) mod m) m) (Iter 0 c2 m) = Ok (Some (rev (ents 0 c0 m n))).
Proof.
  unfold integer_type in HT.
  induction n as [|n IH]; intros fuel c0 c2 m C F FN FU; (destruct fuel as [|fuel]; [lia|]).
  - cbn [walk_ix]. rewrite eq_ok. reflexivity.
  - cbn [walk_ix]. rewrite eq_ok. cbn [bind]. destruct (Z.eqb_spec (Z.of_nat (S n)) 0) as [E|_]; [lia|].
    assert (CM : 0 <= (c0 + Z.of_nat (S n)) mod m < m) by (apply Z.mod_pos_bound; lia).
    assert (M : dec_ix T dbg (Iter (Z.of_nat (S n)) ((c0 + Z.of_nat (S n)) mod m) m) = Ok (Iter (Z.of_nat n) ((c0 + Z.of_nat n) mod m) m)).
    { pose proof (move_in false (Z.of_nat (S n)) _ m CM F) as M.
      replace (Z.of_nat (S n) + step false) with (Z.of_nat n) in M by (unfold step; lia).
      rewrite Zplus_mod_idemp_l in M. replace (c0 + Z.of_nat (S n) + step false) with (c0 + Z.of_nat n) in M by (unfold step; lia).
      unfold fits in *. rewrite <- M by lia.
      destruct dbg; [|reflexivity]. rewrite dec_dbg. destruct (Z.ltb_spec 0 (Z.of_nat (S n))); [reflexivity|lia]. }
    rewrite M. cbn [bind]. rewrite IH; auto; [|unfold fits in *; lia|lia].
    rewrite ents_snoc, rev_app_distr. reflexivity.
Qed.
Lemma reverse_ok dbg fuel size idx1 idx2 max : 0 <= idx1 < max -> fits T max -> 0 <= size -> fits T size ->
  idx2 = (idx1 + size) mod max -> (Z.to_nat size < fuel)%nat ->
  reverse_range_ix T dbg fuel size idx1 idx2 max = Ok (Some (rev (entries size idx1 max))).
Proof.
  intros. subst idx2. unfold reverse_range_ix, begin_ix, end_ix.
  pose proof (walk_bwd dbg (Z.to_nat size) fuel idx1 idx1 max) as W. rewrite !Z2Nat.id in W by lia. now apply W.
Qed.
End Ring.
