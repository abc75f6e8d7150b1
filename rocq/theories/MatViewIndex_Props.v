(** C88: the index arithmetic of MatrixView. *)
From Verif Require Import Base MatView_Model MatView_Spec MatView_Proofs MatView_Props MatViewIndex_Model.
Local Open Scope outcome_scope.
Local Open Scope Z_scope.

(** A signed type of at least [bits] bits, for example Index (-2^31) (2^31-1) = int. *)
Definition signed (bits : Z) : index_type := Index (- 2 ^ (bits - 1)) (2 ^ (bits - 1) - 1).
Definition int32 := signed 32.
Definition int64 := signed 64.

(** The view object exists: its members are values of index_type, none is negative. *)
Definition members_fit (I : index_type) (v : view) : Prop :=
  imin I < 0 /\ 0 <= rows v <= imax I /\ 0 <= cols v <= imax I /\
  0 <= inner_stride v <= imax I /\ 0 <= outer_stride v <= imax I.
(** The last element is at an offset that index_type can represent. *)
Definition offsets_fit (I : index_type) (v : view) : Prop :=
  (rows v - 1) * inner_stride v + (cols v - 1) * outer_stride v <= imax I.

Lemma ix_ok I x : imin I <= x <= imax I -> ix I x = Ok x.
Proof. intros H. unfold ix. now replace ((imin I <=? x) && (x <=? imax I)) with true by lia. Qed.
Lemma ix_ub I x : x < imin I \/ imax I < x -> ix I x = UB.
Proof. intros H. unfold ix. now replace ((imin I <=? x) && (x <=? imax I)) with false by lia. Qed.

Lemma at_ix_in I v r c : members_fit I v -> in_range v r c ->
  at_ix I v r c = if r * inner_stride v + c * outer_stride v <=? imax I then Ok (elem v r c) else UB.
Proof.
  intros (Hm & Hr & Hc & Hi & Ho) [R C]. unfold at_ix.
  replace ((0 <=? r) && (r <? rows v)) with true by lia.
  replace ((0 <=? c) && (c <? cols v)) with true by lia.
  assert (0 <= r * inner_stride v) by (apply Z.mul_nonneg_nonneg; lia).
  assert (0 <= c * outer_stride v) by (apply Z.mul_nonneg_nonneg; lia).
  destruct (Z.leb_spec (r * inner_stride v + c * outer_stride v) (imax I)) as [L|L].
  - rewrite !ix_ok by lia. cbn [bind]. rewrite ix_ok by lia. cbn [bind]. f_equal. unfold elem. lia.
  - destruct (Z_le_dec (r * inner_stride v) (imax I)); [rewrite (ix_ok I (r * _)) by lia|now rewrite ix_ub by lia].
    cbn [bind]. destruct (Z_le_dec (c * outer_stride v) (imax I)); [rewrite (ix_ok I (c * _)) by lia|now rewrite ix_ub by lia].
    cbn [bind]. now rewrite ix_ub by lia.
Qed.

Lemma at_ix_out I v r c : ~ in_range v r c -> at_ix I v r c = Abort.
Proof.
  intros H. unfold at_ix, in_range in *.
  destruct ((0 <=? r) && (r <? rows v)) eqn:E1; [|reflexivity].
  destruct ((0 <=? c) && (c <? cols v)) eqn:E2; [|reflexivity]. exfalso. apply H. lia.
Qed.

Lemma in_range_dec v r c : {in_range v r c} + {~ in_range v r c}.
Proof.
  unfold in_range. destruct (Z_le_dec 0 r), (Z_lt_dec r (rows v)), (Z_le_dec 0 c), (Z_lt_dec c (cols v));
    ((left; lia) || (right; lia)).
Qed.

Lemma offset_le v r c : 0 <= inner_stride v -> 0 <= outer_stride v -> in_range v r c ->
  r * inner_stride v + c * outer_stride v <= (rows v - 1) * inner_stride v + (cols v - 1) * outer_stride v.
Proof.
  intros Hi Ho [R C].
  assert (r * inner_stride v <= (rows v - 1) * inner_stride v) by (apply Z.mul_le_mono_nonneg_r; lia).
  assert (c * outer_stride v <= (cols v - 1) * outer_stride v) by (apply Z.mul_le_mono_nonneg_r; lia). lia.
Qed.

(** Element access is the same as with unbounded integers at exactly the offsets that
    index_type can represent; beyond, it overflows. *)
Theorem C88_element_access_exact :
  forall I v r c, members_fit I v ->
    (in_range v r c -> r * inner_stride v + c * outer_stride v <= imax I -> at_ix I v r c = Ok (elem v r c)) /\
    (in_range v r c -> imax I < r * inner_stride v + c * outer_stride v -> at_ix I v r c = UB) /\
    (~ in_range v r c -> at_ix I v r c = Abort) /\
    (1 <= rows v -> 1 <= cols v ->
       ((forall r c, in_range v r c -> at_ix I v r c <> UB) <-> offsets_fit I v)).
Proof.
  intros I v r c M. split; [|split; [|split]].
  - intros Hin L. rewrite at_ix_in by assumption. now replace (_ <=? _) with true by lia.
  - intros Hin L. rewrite at_ix_in by assumption. now replace (_ <=? _) with false by lia.
  - apply at_ix_out.
  - intros R C. split.
    + intros H. unfold offsets_fit. destruct (Z_le_dec ((rows v - 1) * inner_stride v + (cols v - 1) * outer_stride v) (imax I)) as [L|L]; [exact L|].
      exfalso. assert (Hin : in_range v (rows v - 1) (cols v - 1)) by (unfold in_range; lia).
      apply (H _ _ Hin). rewrite at_ix_in by assumption. now replace (_ <=? _) with false by lia.
    + intros F r1 c1 Hin. rewrite at_ix_in by assumption. destruct M as (_ & _ & _ & Hi & Ho).
      pose proof (offset_le v r1 c1 ltac:(lia) ltac:(lia) Hin). unfold offsets_fit in F.
      replace (_ <=? _) with true by lia. discriminate.
Qed.
Print Assumptions C88_element_access_exact.

Lemma at_ix_fits I v r c : members_fit I v -> offsets_fit I v -> at_ix I v r c = at_ v r c.
Proof.
  intros M F. destruct (in_range_dec v r c) as [Hin|N].
  - rewrite at_ix_in by assumption. rewrite at_ok by assumption. destruct M as (_ & _ & _ & Hi & Ho).
    pose proof (offset_le v r c ltac:(lia) ltac:(lia) Hin). unfold offsets_fit in F. now replace (_ <=? _) with true by lia.
  - now rewrite at_ix_out, at_abort by assumption.
Qed.

Lemma for_ext_in {S} lo hi (f g : Z -> S -> outcome S) s :
  (forall i s, lo <= i < hi -> f i s = g i s) -> for_ lo hi f s = for_ lo hi g s.
Proof.
  intros H. unfold for_. assert (H' : forall i s, lo <= i < lo + Z.of_nat (Z.to_nat (hi - lo)) -> f i s = g i s) by (intros; apply H; lia).
  clear H. revert H'. generalize (Z.to_nat (hi - lo)). intros n. revert lo s.
  induction n as [|n IH]; intros lo s H; cbn [loop]; [reflexivity|].
  rewrite H by lia. destruct (g lo s); cbn [bind]; auto. apply IH. intros; apply H; lia.
Qed.

(** C88, positive part: if the offset of the last element fits, everything is as with
    unbounded integers. The empty parts at the far end are excluded, see below. *)
Theorem C88_fits_partial :
  forall (V : Type) I v, members_fit I v -> offsets_fit I v -> 1 <= rows v -> 1 <= cols v ->
    (forall r c, at_ix I v r c = at_ v r c) /\
    (forall n, 1 <= n -> bottom_rows_ix I v n = bottom_rows v n) /\
    (forall n, 1 <= n -> right_cols_ix I v n = right_cols v n) /\
    (forall r c nr nc, 0 <= r < rows v -> 0 <= c < cols v -> block_ix I v r c nr nc = block v r c nr nc) /\
    (forall (t : V) m, set_constant_ix I v t m = set_constant v t m) /\
    (forall (gen : nat -> V) m, generate_ix I gen v m = generate gen v m) /\
    (forall (t : V) m, 2 <= rows v -> 2 <= cols v -> set_diagonal_ix I v t m = set_diagonal v t m).
Proof.
  intros V I v M F R C. pose proof M as (Hm & Hr & Hc & Hi & Ho). unfold offsets_fit in F.
  assert (BR : forall n, 1 <= n -> bottom_rows_ix I v n = bottom_rows v n).
  { intros n Hn. unfold bottom_rows_ix, bottom_rows. destruct ((0 <=? n) && (n <=? rows v)) eqn:E; [|reflexivity].
    rewrite ix_ok by lia. cbn [bind].
    assert (0 <= inner_stride v * (rows v - n) <= (rows v - 1) * inner_stride v) by nia.
    assert (0 <= (cols v - 1) * outer_stride v) by (apply Z.mul_nonneg_nonneg; lia).
    rewrite ix_ok by lia. reflexivity. }
  assert (RC : forall w n, 1 <= n -> cols w = cols v -> outer_stride w = outer_stride v -> right_cols_ix I w n = right_cols w n).
  { intros w n Hn E1 E2. unfold right_cols_ix, right_cols. rewrite E1, E2. destruct ((0 <=? n) && (n <=? cols v)) eqn:E; [|reflexivity].
    rewrite ix_ok by lia. cbn [bind].
    assert (0 <= outer_stride v * (cols v - n) <= (cols v - 1) * outer_stride v) by nia.
    assert (0 <= (rows v - 1) * inner_stride v) by (apply Z.mul_nonneg_nonneg; lia).
    rewrite ix_ok by lia. reflexivity. }
  split; [intros; now apply at_ix_fits|]. split; [exact BR|]. split; [intros n Hn; now apply RC|].
  split; [|split; [|split]].
  - intros r c nr nc Hrr Hcc. unfold block_ix, block, middle_rows_ix, middle_rows.
    rewrite ix_ok by lia. cbn [bind]. rewrite BR by lia.
    destruct (bottom_rows v (rows v - r)) as [w| | |] eqn:B; try reflexivity. cbn [bind].
    destruct (top_rows w nr) as [w'| | |] eqn:T; try reflexivity. cbn [bind].
    unfold bottom_rows in B. destruct (_ && _) in B; [|discriminate B]. injection B as <-.
    unfold top_rows in T. cbn [data rows cols inner_stride outer_stride] in T. destruct (_ && _) in T; [|discriminate T]. injection T as <-.
    unfold middle_cols_ix, middle_cols. cbn [cols]. rewrite ix_ok by lia. cbn [bind].
    rewrite RC by (reflexivity || lia). reflexivity.
  - intros t m. unfold set_constant_ix, set_constant. destruct (inner_stride v =? 1) eqn:E.
    + apply for_ext_in. intros c m1 Hcc. 
      assert (0 <= c * outer_stride v <= (cols v - 1) * outer_stride v) by nia.
      assert (0 <= (rows v - 1) * inner_stride v) by (apply Z.mul_nonneg_nonneg; lia).
      rewrite ix_ok by lia. reflexivity.
    + apply for_ext_in. intros c m1 Hcc. apply for_ext_in. intros r m2 Hrr. now rewrite at_ix_fits by assumption.
  - intros gen m. unfold generate_ix, generate. apply for_ext_in. intros c s Hcc. apply for_ext_in. intros r [m2 k] Hrr.
    now rewrite at_ix_fits by assumption.
  - intros t m R2 C2. unfold set_diagonal_ix, set_diagonal. f_equal. apply for_ext_in. intros i [m1 p] _.
    rewrite ix_ok; [reflexivity|]. nia.
Qed.
Print Assumptions C88_fits_partial.

(** The default index type: an array cannot have more elements than ptrdiff_t can count,
    so offsets_fit holds for every view of elements of one array; e.g. any view
    whose elements lie within 2^63 - 1 elements from the first. *)
Theorem C88_ptrdiff :
  forall v size, 1 <= rows v -> 1 <= cols v -> size <= 2 ^ 63 ->
    (forall r c, in_range v r c -> data v <= elem v r c < data v + size) -> offsets_fit int64 v.
Proof.
  intros v size R C L H. unfold offsets_fit.
  assert (Hin : in_range v (rows v - 1) (cols v - 1)) by (unfold in_range; lia).
  specialize (H _ _ Hin). unfold elem in H. unfold int64, signed. cbn [imax]. change (64 - 1) with 63. lia.
Qed.
Print Assumptions C88_ptrdiff.

(** as_column has the elements of the span exactly if their number is representable:
    otherwise the number of rows is reduced modulo 2^N. *)
Theorem C88_as_column_exact :
  forall bits d n, 2 <= bits -> 0 <= n ->
    exists v, as_column_ix (signed bits) d n = Ok v /\ data v = d /\ cols v = 1 /\
      (rows v = n <-> n < 2 ^ (bits - 1)) /\
      (rows v - n) mod 2 ^ bits = 0 /\ - 2 ^ (bits - 1) <= rows v < 2 ^ (bits - 1).
Proof.
  intros bits d n Hb Hn. unfold as_column_ix, plain_ix.
  set (h := 2 ^ (bits - 1)).
  assert (H2 : 2 ^ bits = 2 * h) by (unfold h; replace bits with (Z.succ (bits - 1)) at 1 by lia; rewrite Z.pow_succ_r by lia; reflexivity).
  assert (Hh : 0 < h) by (unfold h; apply Z.pow_pos_nonneg; lia).
  assert (Hc : cast (signed bits) n = (n + h) mod (2 * h) - h).
  { unfold cast, signed. cbn [imin imax]. fold h. replace (n - - h) with (n + h) by lia. replace (h - 1 - - h + 1) with (2 * h) by lia. lia. }
  pose proof (Z.mod_pos_bound (n + h) (2 * h) ltac:(lia)) as B.
  rewrite Hc. rewrite ix_ok by (unfold signed; cbn [imin imax]; fold h; lia). cbn [bind].
  eexists; split; [reflexivity|]. cbn [data rows cols]. split; [reflexivity|]. split; [reflexivity|].
  split; [|split; [|lia]].
  - split; [lia|]. intros L. rewrite Z.mod_small by lia. lia.
  - rewrite H2. pose proof (Z.div_mod (n + h) (2 * h) ltac:(lia)) as E.
    replace ((n + h) mod (2 * h) - h - n) with (- ((n + h) / (2 * h)) * (2 * h)) by lia. apply Z.mod_mul. lia.
Qed.
Print Assumptions C88_as_column_exact.

(** diagonal() computes a default outer stride that no element needs: exactly when it
    overflows. *)
Theorem C88_diagonal_exact :
  forall I v, members_fit I v -> rows v = cols v -> 1 <= rows v ->
    (diagonal_ix I v = Ok (diagonal v) <-> (outer_stride v + inner_stride v) * rows v <= imax I) /\
    (imax I < (outer_stride v + inner_stride v) * rows v -> diagonal_ix I v = UB).
Proof.
  intros I v (Hm & Hr & Hc & Hi & Ho) Hsq R. unfold diagonal_ix, diagonal, plain_ix, plain. rewrite <- Hsq, Z.max_id.
  set (s := outer_stride v + inner_stride v).
  assert (Hs : s <= s * rows v) by (unfold s; nia).
  assert (H : imax I < s * rows v -> bind (ix I s) (fun s => bind (ix I (s * rows v)) (fun os => Ok (View (data v) (rows v) 1 s os))) = UB).
  { intros L. destruct (Z_le_dec s (imax I)) as [K|K]; [|now rewrite ix_ub by lia].
    rewrite ix_ok by (unfold s in *; lia). cbn [bind]. now rewrite ix_ub by lia. }
  split; [|exact H]. split.
  - intros E. destruct (Z_le_dec (s * rows v) (imax I)) as [L|L]; [exact L|]. rewrite H in E by lia. discriminate E.
  - intros L. rewrite ix_ok by (unfold s in *; lia). cbn [bind]. rewrite ix_ok by (unfold s in *; nia). reflexivity.
Qed.
Print Assumptions C88_diagonal_exact.

(** A loop that stops in the middle. *)
Lemma for_ub {S} lo mid hi (body : Z -> S -> outcome S) s s1 : lo <= mid < hi ->
  for_ lo mid body s = Ok s1 -> body mid s1 = UB -> for_ lo hi body s = UB.
Proof.
  intros H E U.
  assert (Sp : forall (k : nat) lo n s, loop k lo body s = Ok s1 ->
      loop (k + n) lo body s = loop n (lo + Z.of_nat k) body s1).
  { induction k as [|k IH]; intros lo0 n s0 E0; cbn [loop Nat.add] in *.
    - injection E0 as ->. f_equal. lia.
    - destruct (body lo0 s0); cbn [bind] in *; try discriminate E0. rewrite (IH _ _ _ E0). f_equal. lia. }
  unfold for_ in *.
  replace (Z.to_nat (hi - lo)) with (Z.to_nat (mid - lo) + Datatypes.S (Z.to_nat (hi - mid - 1)))%nat by lia.
  rewrite (Sp _ _ _ _ E). rewrite Z2Nat.id by lia. replace (lo + (mid - lo)) with mid by lia.
  cbn [loop]. now rewrite U.
Qed.

(** C88 refuted: with int indices, (1) a 65536 x 65536 matrix can be made and assigned but
    not read at its far corner or filled; (2) the last element of a 2 x 2 view with
    outer stride 2^30 is accessible but diagonal() and the empty right_cols(0) overflow;
    (3) a span of 2^32 elements becomes a column without rows. *)
Theorem C88_index_arithmetic_refuted :
  (exists v, plain_ix int32 0 65536 65536 1 = Ok v /\ members_fit int32 v /\ in_range v 65535 65535 /\
     at_ix int32 v 65535 65535 = UB /\ at_ v 65535 65535 = Ok 4294967295 /\
     (forall (t : Z) m, (forall a, 0 <= a < 2 ^ 32 -> m a <> None) -> set_constant_ix int32 v t m = UB)) /\
  (let v := View 0 2 2 1 (2 ^ 30) in
     members_fit int32 v /\ offsets_fit int32 v /\ at_ix int32 v 1 1 = Ok (2 ^ 30 + 1) /\
     diagonal_ix int32 v = UB /\ right_cols_ix int32 v 0 = UB) /\
  (exists v, as_column_ix int32 0 (2 ^ 32) = Ok v /\ rows v = 0).
Proof.
  split; [|split].
  - exists (View 0 65536 65536 1 65536). split; [reflexivity|]. split; [unfold members_fit; cbn; lia|].
    split; [unfold in_range; cbn; lia|]. split; [reflexivity|]. split; [reflexivity|].
    intros t m A. unfold set_constant_ix. cbn [inner_stride]. change (1 =? 1) with true. cbv iota.
    cbn [cols rows data outer_stride].
    (* the first 32768 columns are filled, then the offset overflows *)
    assert (P : exists m1, for_ 0 32768 (fun c m => bind (ix int32 (c * 65536)) (fun o => fill_n (0 + o) 65536 t m)) m = Ok m1).
    { destruct (for_rule (fun _ m1 => forall a, 0 <= a < 2 ^ 32 -> m1 a <> None)
        (fun c m => bind (ix int32 (c * 65536)) (fun o => fill_n (0 + o) 65536 t m)) 0 32768 m A) as (m1 & E & _); [|now exists m1].
      intros c m1 Hc H1. rewrite ix_ok by (cbn; lia). cbn [bind].
      destruct (filled_fill_n (fun _ => False) t m1 m1 (0 + c * 65536) 65536 (filled_nil t m1)) as (m2 & E & F).
      - intros i Hi. apply H1. lia.
      - exists m2. split; [exact E|]. intros a Ha. destruct F as (_ & _ & F). now apply F, H1. }
    destruct P as (m1 & P).
    apply (for_ub 0 32768 65536 _ m m1); [lia|exact P|]. cbv beta. rewrite ix_ub by (cbn; lia). reflexivity.
  - cbn zeta. split; [unfold members_fit; cbn; lia|]. split; [unfold offsets_fit; cbn; lia|]. repeat split.
  - eexists; split; reflexivity.
Qed.
Print Assumptions C88_index_arithmetic_refuted.

Example C88_nonvacuous :
  let v := View 100 4 5 2 20 in
  members_fit int32 v /\ offsets_fit int32 v /\ block_ix int32 v 1 2 2 3 = Ok (View 142 2 3 2 20) /\
  at_ix int32 v 3 4 = Ok 186 /\ at_ix int32 v 4 0 = Abort.
Proof. cbn zeta. split; [unfold members_fit; cbn; lia|]. split; [unfold offsets_fit; cbn; lia|]. repeat split. Qed.
