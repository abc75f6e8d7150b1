(** Proofs for C71. *)
From Verif Require Import Base Sparsity_Spec Sparsity_Model Sparsity_Base Sparsity_Csc SparseOps_Spec.
Local Open Scope outcome_scope.
Local Arguments Nat.eqb : simpl never.
Local Arguments Nat.leb : simpl never.
Local Arguments Nat.ltb : simpl never.

(** ** convert_triplets_to_ccs *)
Lemma below_sorted l v : StronglySorted Z.le l -> below l v = count_lt l v.
Proof.
  unfold below. induction 1 as [|x l Hs IH Hf]; cbn; [reflexivity|].
  destruct (Z.ltb_spec x v); cbn; [now rewrite IH|].
  rewrite (proj2 (length_zero_iff_nil _)); [reflexivity|].
  clear IH Hs. induction Hf as [|y l Hy Hf IH]; cbn; [reflexivity|].
  rewrite (proj2 (Z.ltb_ge _ _)) by lia. exact IH.
Qed.

Lemma count_le l v : count_lt l v <= length l.
Proof. induction l as [|x l IH]; cbn; [lia|]. destruct (x <? v)%Z; lia. Qed.

Lemma fill_any {A} (g : A -> outcome Z) (h : A -> Z) : forall l (done rest : list Z), (forall x, In x l -> g x = Ok (h x)) -> length l <= length rest ->
  foldm (fun x '(v, k) => y <- g x ;; v' <- set v k y ;; Ok (v', S k)) l (done ++ rest, length done)
  = Ok (done ++ map h l ++ skipn (length l) rest, length done + length l).
Proof.
  induction l as [|x l IH]; intros done rest Hg Hl; cbn [foldm map app length skipn]; [now rewrite Nat.add_0_r|].
  destruct rest as [|z rest]; cbn in Hl; [lia|]. rewrite Hg by now left. cbn [bind]. rewrite set_mid. cbn [bind].
  replace (done ++ h x :: rest) with ((done ++ [h x]) ++ rest) by now rewrite <- app_assoc.
  replace (S (length done)) with (length (done ++ [h x])) by (rewrite app_length; cbn; lia).
  rewrite IH by (auto using in_cons; lia). rewrite <- app_assoc, app_length. cbn [skipn app length].
  replace (length done + 1 + length l) with (length done + S (length l)) by lia. reflexivity.
Qed.

Lemma convert_any dbg tf ti ts rows cols inner outer b :
  StronglySorted Z.le cols ->
  length rows <= length inner -> (dbg = true -> length rows = length inner) ->
  fits ti b -> Forall (fun r => fits ti r /\ fits ti (r - b)) rows ->
  fits tf (Z.of_nat (length outer)) -> (forall c, c < length outer -> fits tf (Z.of_nat c + b)) ->
  fits ts (Z.of_nat (length cols)) ->
  convert_triplets_to_ccs dbg tf ti ts rows cols inner outer b
  = Ok (map (fun r => (r - b)%Z) rows ++ skipn (length rows) inner,
        map (fun c => Z.of_nat (below cols (Z.of_nat c + b))) (seq 0 (length outer))).
Proof.
  intros Hs Hl Hd Hb Hr Hn Hc Ht. unfold convert_triplets_to_ccs.
  assert (A : assert dbg (Nat.eqb (length rows) (length inner)) = Ok tt).
  { destruct dbg; cbn; [rewrite (Hd eq_refl), Nat.eqb_refl; reflexivity|now destruct (Nat.eqb _ _)]. }
  rewrite A. cbn [bind].
  pose proof (fill_any (fun r => chk ti (cast ti r - cast ti b)) (fun r => (r - b)%Z) rows [] inner) as F.
  cbn [app length Nat.add] in F. rewrite F; clear F; auto.
  2:{ intros r Hin. rewrite Forall_forall in Hr. destruct (Hr r Hin). rewrite !cast_id by auto. now apply chk_ok. }
  cbn [bind]. rewrite cast_id by auto.
  assert (E : zrange 0 (Z.of_nat (length outer)) = map Z.of_nat (seq 0 (length outer))).
  { unfold zrange. rewrite Z.sub_0_r, Nat2Z.id. apply map_ext. intros; lia. }
  rewrite E, foldm_map. set (F := fun c => Z.of_nat (below cols (Z.of_nat c + b))).
  assert (G : forall post k done pos, length outer = k + length post -> length done = k ->
     (post <> [] -> exists v, (v <= Z.of_nat k + b)%Z /\ pos = count_lt cols v) ->
     exists it, foldm (fun c '(o, it) => v <- chk tf (Z.of_nat c + b) ;; it' <- lower_bound cols it v ;;
       o' <- set o (Z.to_nat (Z.of_nat c)) (cast ts (Z.of_nat it')) ;; Ok (o', it'))
       (seq k (length post)) (done ++ post, pos) = Ok (done ++ map F (seq k (length post)), it)).
  { induction post as [|z post IH]; intros k done pos HL HD HP; cbn [seq length foldm map].
    - exists pos. reflexivity.
    - destruct HP as (v & Hv & ->); [discriminate|].
      rewrite chk_ok by (apply Hc; cbn in HL; lia). cbn [bind]. rewrite (lower_bound_ok cols cols eq_refl Hs v) by auto. cbn [bind].
      rewrite Nat2Z.id, <- HD, set_mid. cbn [bind]. rewrite HD.
      rewrite cast_id.
      2:{ apply (fits_between ts 0 (Z.of_nat (length cols))); auto using fits_0.
          pose proof (count_le cols (Z.of_nat k + b)%Z). lia. }
      replace (done ++ Z.of_nat (count_lt cols (Z.of_nat k + b)%Z) :: post) with ((done ++ [F k]) ++ post)
        by (unfold F; rewrite below_sorted by auto; now rewrite <- app_assoc).
      destruct (IH (S k) (done ++ [F k]) (count_lt cols (Z.of_nat k + b)%Z)) as (it & ->).
      + cbn in HL. lia.
      + rewrite app_length. cbn. lia.
      + intros _. exists (Z.of_nat k + b)%Z. split; [lia|reflexivity].
      + exists it. rewrite <- app_assoc. reflexivity. }
  assert (P : outer <> [] -> exists v, (v <= Z.of_nat 0 + b)%Z /\ 0 = count_lt cols v).
  { intros _. destruct cols as [|x cols']; [exists b; split; [lia|reflexivity]|].
    exists (Z.min x b). split; [lia|]. cbn. rewrite (proj2 (Z.ltb_ge _ _)) by lia. reflexivity. }
  destruct (G outer 0 [] 0 eq_refl eq_refl P) as (it & Eq). cbn [app] in Eq. rewrite Eq. reflexivity.
Qed.

(** ** sort_triplets, sort_triplets_col *)
Lemma unzip_lengths (l : list (Z * Z * Z)) : forall r c v, unzip3 l = (r, c, v) ->
  length r = length l /\ length c = length l /\ length v = length l /\ combine (combine r c) v = l.
Proof.
  unfold unzip3. intros r c v [= <- <- <-]. rewrite !map_length. repeat split.
  induction l as [|[[x y] z] l IH]; cbn; [reflexivity|]. now rewrite IH.
Qed.
Lemma sorted_map_in {A B} (R : A -> A -> Prop) (Q : B -> B -> Prop) (f : A -> B) l :
  (forall x y, R x y -> Q (f x) (f y)) -> StronglySorted R l -> StronglySorted Q (map f l).
Proof.
  intros H. induction 1 as [|x l Hs IH Hf]; cbn; constructor; auto.
  rewrite Forall_forall in *. intros y Hy. apply in_map_iff in Hy. destruct Hy as (z & <- & Hz). auto.
Qed.
Lemma sort_triplets_any srt (Hsrt : good_sorter srt) rows cols vals :
  length rows = length cols -> length cols = length vals ->
  exists r c v, sort_triplets srt rows cols vals = (r, c, v) /\
    length r = length rows /\ length c = length cols /\ length v = length vals /\
    Permutation (combine (combine r c) v) (combine (combine rows cols) vals) /\
    StronglySorted col_major (combine r c).
Proof.
  intros H1 H2. unfold sort_triplets.
  destruct (Hsrt (Z * Z * Z)%type 0 lt_col_row (combine (combine rows cols) vals) lt_col_row_swo) as [P S].
  set (l := srt _ 0 lt_col_row _) in *. destruct (unzip3 l) as [[r c] v] eqn:E.
  destruct (unzip_lengths l r c v E) as (L1 & L2 & L3 & L4).
  pose proof (Permutation_length P) as PL. rewrite !combine_length in PL.
  exists r, c, v. split; [reflexivity|]. repeat split; try lia.
  - now rewrite L4.
  - rewrite <- (map_fst_combine (combine r c) v) by (rewrite combine_length; lia). rewrite L4.
    eapply sorted_map_in; [|exact S]. intros [[a b] d] [[a' b'] d']. unfold lt_col_row, col_major. cbn. lia.
Qed.
Lemma sort_triplets_col_any srt (Hsrt : good_sorter srt) rows cols vals :
  length rows = length cols -> length cols = length vals ->
  exists r c v, sort_triplets_col srt rows cols vals = (r, c, v) /\
    length r = length rows /\ length c = length cols /\ length v = length vals /\
    Permutation (combine (combine r c) v) (combine (combine rows cols) vals) /\
    StronglySorted Z.le c.
Proof.
  intros H1 H2. unfold sort_triplets_col.
  destruct (Hsrt (Z * Z * Z)%type 0 lt_col (combine (combine rows cols) vals) lt_col_swo) as [P S].
  set (l := srt _ 0 lt_col _) in *. destruct (unzip3 l) as [[r c] v] eqn:E.
  destruct (unzip_lengths l r c v E) as (L1 & L2 & L3 & L4).
  pose proof (Permutation_length P) as PL. rewrite !combine_length in PL.
  exists r, c, v. split; [reflexivity|]. repeat split; try lia.
  - now rewrite L4.
  - rewrite <- (map_snd_combine r c) by lia.
    rewrite <- (map_fst_combine (combine r c) v) by (rewrite combine_length; lia). rewrite L4, map_map.
    eapply sorted_map_in; [|exact S]. intros [[a b] d] [[a' b'] d']. unfold lt_col. cbn. lia.
Qed.

(** ** sort_rows_csc *)
Lemma nth_ext_list {A} : forall l l' : list A, (forall i, nth_error l i = nth_error l' i) -> l = l'.
Proof.
  induction l as [|x l IH]; intros [|y l'] H; auto; try (specialize (H 0); discriminate).
  pose proof (H 0) as H0. injection H0 as ->. f_equal. apply IH. intros i. exact (H (S i)).
Qed.
Lemma nth_error_skipn' {A} (l : list A) : forall a i, nth_error (skipn a l) i = nth_error l (a + i).
Proof. induction l as [|x l IH]; intros [|a] i; cbn; auto. now destruct i. Qed.
Lemma splice_length {A} (l : list A) a new : a + length new <= length l -> length (splice l (Z.of_nat a) new) = length l.
Proof. intros H. unfold splice. rewrite Nat2Z.id, !app_length, firstn_length, skipn_length. lia. Qed.
Lemma splice_nth {A} (l : list A) a new i : a + length new <= length l ->
  nth_error (splice l (Z.of_nat a) new) i =
    if Nat.ltb i a then nth_error l i else if Nat.ltb i (a + length new) then nth_error new (i - a) else nth_error l i.
Proof.
  intros H. unfold splice. rewrite Nat2Z.id. assert (L : length (firstn a l) = a) by (rewrite firstn_length; lia).
  destruct (Nat.ltb_spec i a).
  - rewrite nth_error_app1 by lia. now apply nth_error_firstn_lt.
  - rewrite nth_error_app2, L by lia. destruct (Nat.ltb_spec i (a + length new)).
    + rewrite nth_error_app1 by lia. reflexivity.
    + rewrite nth_error_app2 by lia. rewrite nth_error_skipn'. f_equal. lia.
Qed.
Lemma splice_slice_here {A} (l : list A) a b new : a <= b -> b <= length l -> length new = b - a ->
  slice (splice l (Z.of_nat a) new) a b = new.
Proof.
  intros H1 H2 H3. apply nth_ext_list. intros i. rewrite slice_nth. destruct (Nat.ltb_spec i (b - a)).
  - rewrite splice_nth by lia. rewrite (proj2 (Nat.ltb_ge _ _)) by lia. rewrite (proj2 (Nat.ltb_lt _ _)) by lia. f_equal. lia.
  - symmetry. apply nth_error_None. lia.
Qed.
Lemma slice_unchanged {A} (l l' : list A) a b : (forall i, a <= i < b -> nth_error l' i = nth_error l i) -> slice l' a b = slice l a b.
Proof.
  intros H. apply nth_ext_list. intros i. rewrite !slice_nth. destruct (Nat.ltb_spec i (b - a)); auto. apply H. lia.
Qed.

Section SortRows.
Context (srt : sorter) (Hsrt : good_sorter srt) (outer : list Z) (inner vals : list Z).
Context (Hlen : length inner = length vals) (Hcut : cuts outer (length inner)).
Notation off := (at_ outer).

Lemma off_get c : c < length outer -> get outer c = Ok (Z.of_nat (off c)) /\ off c <= length inner.
Proof.
  intros H. destruct Hcut as [_ Hf]. rewrite Forall_forall in Hf. pose proof (Hf _ (nth_In outer 0%Z H)) as B.
  unfold get, at_. rewrite (nth_error_nth' _ 0%Z H). split; [f_equal|]; lia.
Qed.
Lemma off_step c : S c < length outer -> off c <= off (S c).
Proof.
  intros H. destruct Hcut as [Hm Hf]. specialize (Hm c H). rewrite Forall_forall in Hf.
  pose proof (Hf _ (nth_In outer 0%Z H)). unfold at_. lia.
Qed.
Lemma off_mono' c d : c <= d -> d < length outer -> off c <= off d.
Proof. induction 1 as [|d H IH]; intros Hd; [lia|]. pose proof (off_step d Hd). specialize (IH ltac:(lia)). lia. Qed.

Definition sorted_so_far (k : nat) (st : list Z * list Z) : Prop :=
  let '(inn, prm) := st in
  length inn = length inner /\ length prm = length vals /\
  (forall c, c < k -> Permutation (combine (slice inn (off c) (off (S c))) (slice prm (off c) (off (S c))))
                                  (combine (slice inner (off c) (off (S c))) (slice vals (off c) (off (S c)))) /\
                      StronglySorted Z.le (slice inn (off c) (off (S c)))) /\
  (forall i, i < off 0 \/ off k <= i -> nth_error inn i = nth_error inner i /\ nth_error prm i = nth_error vals i).

Lemma sort_rows_any : outer <> [] -> exists st, sort_rows_csc srt outer inner vals = Ok st /\ sorted_so_far (length outer - 1) st.
Proof.
  intros Hne. unfold sort_rows_csc. assert (Hlo : length outer <> 0) by (destruct outer; cbn; [congruence|lia]).
  rewrite (proj2 (Nat.eqb_neq _ _)) by lia. unfold for_.
  assert (K : forall k, k < length outer -> exists st, foldm (fun c '(inn, prm) =>
    a <- get outer c ;; b <- get outer (c + 1) ;; xs <- subrange inn a b ;; ps <- subrange prm a b ;;
    let sorted := srt (Z * Z)%type c lt_row (combine xs ps) in
    Ok (splice inn a (map fst sorted), splice prm a (map snd sorted))) (seq 0 k) (inner, vals) = Ok st /\ sorted_so_far k st).
  { induction k as [|k IH]; intros Hk.
    - exists (inner, vals). split; [reflexivity|]. repeat split; auto; intros; lia.
    - destruct IH as ([inn prm] & E & (L1 & L2 & Hc & Ho)); [lia|]. rewrite seq_S, foldm_app, E. cbn [foldm bind Nat.add].
      destruct (off_get k ltac:(lia)) as [-> B1]. rewrite Nat.add_1_r. destruct (off_get (S k) ltac:(lia)) as [-> B2]. cbn [bind].
      pose proof (off_step k Hk) as M. pose proof (off_mono' 0 k ltac:(lia) ltac:(lia)) as M0.
      assert (Sub : forall l : list Z, length l = length inner -> subrange l (Z.of_nat (off k)) (Z.of_nat (off (S k))) = Ok (slice l (off k) (off (S k)))).
      { intros l Hl. unfold subrange. rewrite Hl, !(proj2 (Z.leb_le _ _)) by lia. cbn. now rewrite !Nat2Z.id. }
      rewrite !Sub by lia. cbn [bind].
      rewrite (slice_unchanged inner inn) by (intros; apply Ho; lia). rewrite (slice_unchanged vals prm) by (intros; apply Ho; lia).
      destruct (Hsrt (Z * Z)%type k lt_row (combine (slice inner (off k) (off (S k))) (slice vals (off k) (off (S k)))) lt_row_swo) as [P S1].
      set (zs := srt _ k lt_row _) in *. pose proof (Permutation_length P) as PL. rewrite combine_length, !slice_length in PL by lia.
      eexists. split; [reflexivity|]. unfold sorted_so_far.
      assert (La : length (map fst zs) = off (S k) - off k) by (rewrite map_length; lia).
      assert (Lb : length (map snd zs) = off (S k) - off k) by (rewrite map_length; lia).
      split; [rewrite splice_length; lia|]. split; [rewrite splice_length; lia|]. split.
      + intros c Hck. destruct (Nat.eq_dec c k) as [->|Hn].
        * rewrite !splice_slice_here by lia. split; [rewrite combine_fst_snd; exact P|].
          eapply sorted_map_in; [|exact S1]. unfold lt_row. intros x y. lia.
        * assert (Hlt : c < k) by lia. pose proof (off_mono' (S c) k ltac:(lia) ltac:(lia)).
          rewrite (slice_unchanged inn (splice inn (Z.of_nat (off k)) (map fst zs))) by (intros i Hi; rewrite splice_nth by lia; rewrite (proj2 (Nat.ltb_lt _ _)) by lia; reflexivity).
          rewrite (slice_unchanged prm (splice prm (Z.of_nat (off k)) (map snd zs))) by (intros i Hi; rewrite splice_nth by lia; rewrite (proj2 (Nat.ltb_lt _ _)) by lia; reflexivity).
          now apply Hc.
      + intros i Hi. rewrite !splice_nth by lia. destruct Hi as [Hi|Hi].
        * rewrite !(proj2 (Nat.ltb_lt i (off k))) by lia. apply Ho. now left.
        * rewrite !(proj2 (Nat.ltb_ge i (off k))) by lia. rewrite !(proj2 (Nat.ltb_ge i _)) by lia. apply Ho. lia. }
  apply K. lia.
Qed.
End SortRows.
