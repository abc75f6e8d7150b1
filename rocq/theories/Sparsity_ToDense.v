(** CSC and COO to Dense. *)
From Verif Require Import Base Sparsity_Spec Sparsity_Model Sparsity_Base Sparsity_Csc Sparsity_Conv Sparsity_CscCsc.
Local Open Scope outcome_scope.
Local Arguments Nat.eqb : simpl never.
Local Arguments Nat.leb : simpl never.
Local Arguments Nat.ltb : simpl never.

Section Place.
Context {V : Type} (zero : V) (dbg : bool) (sy : symmetry) (rows cols : nat).
Hypothesis Hsq : shape_ok sy rows cols.
Definition inb (e : Z * Z) : Prop := in_bounds rows (fst e) /\ in_bounds cols (snd e).

Lemma idx_lt r c : r < rows -> c < cols -> r + c * rows < rows * cols. Proof. nia. Qed.
Lemma idx_inj r c r' c' : r < rows -> r' < rows -> r + c * rows = r' + c' * rows -> r = r' /\ c = c'.
Proof.
  intros H H' E. assert (c = c'). { destruct (Nat.lt_total c c') as [L|[L|L]]; auto; exfalso; nia. } subst. lia.
Qed.
Lemma put_ok (w : list V) r c v : length w = rows * cols -> in_bounds rows r -> in_bounds cols c ->
  put dbg rows w r c v = Ok (upd w (Z.to_nat r + Z.to_nat c * rows) v).
Proof.
  intros Hl Hr Hc. unfold in_bounds in *. unfold put. rewrite !cast_sz_ok by lia. cbn [bind]. unfold set.
  rewrite (proj2 (Nat.ltb_lt _ _)); [reflexivity|]. rewrite Hl. apply idx_lt; lia.
Qed.
(** What one step does. *)
Lemma place_ok (w : list V) e v : length w = rows * cols -> inb e -> ~ wrong_side sy e ->
  place dbg sy rows w (fst e) (snd e) v =
  Ok (let w1 := upd w (Z.to_nat (fst e) + Z.to_nat (snd e) * rows) v in
      match sy with Unsymmetric => w1 | _ => upd w1 (Z.to_nat (snd e) + Z.to_nat (fst e) * rows) v end).
Proof.
  intros Hl [Hr Hc] Hw. unfold place, wrong_side, shape_ok in *.
  destruct sy; [now apply put_ok| |]; (rewrite (proj2 (Z.ltb_ge _ _)) by lia); rewrite put_ok by auto; cbn [bind];
    assert (rows = cols) as Hrc by (apply Hsq; discriminate); unfold in_bounds in *; rewrite put_ok; auto; rewrite ?upd_length; auto; unfold in_bounds; lia.
Qed.
Lemma place_wrong (w : list V) e v : wrong_side sy e -> place dbg sy rows w (fst e) (snd e) v = Throw invalid_argument.
Proof. unfold wrong_side, place. destruct sy; [intros []| |]; intros H; rewrite (proj2 (Z.ltb_lt _ _)) by lia; reflexivity. Qed.
Lemma wrong_side_dec e : wrong_side sy e \/ ~ wrong_side sy e.
Proof using. clear. unfold wrong_side. destruct sy; [now right| |]; lia. Qed.
Lemma step_length (w : list V) i j v : length (let w1 := upd w i v in match sy with Unsymmetric => w1 | _ => upd w1 j v end) = length w.
Proof. destruct sy; cbn; now rewrite ?upd_length. Qed.

Notation step := (fun (ev : (Z * Z) * V) w => place dbg sy rows w (fst (fst ev)) (snd (fst ev)) (snd ev)).
Lemma place_throws l : forall w, length w = rows * cols -> (forall ev, In ev l -> inb (fst ev)) ->
  (exists ev, In ev l /\ wrong_side sy (fst ev)) -> foldm step l w = Throw invalid_argument.
Proof.
  induction l as [|ev l IH]; intros w Hl Hb (x & Hx & Hw); [destruct Hx|]. cbn [foldm].
  destruct (wrong_side_dec (fst ev)) as [W|W].
  - now rewrite place_wrong.
  - rewrite place_ok by (auto; apply Hb; now left). cbn [bind]. apply IH.
    + now rewrite step_length.
    + intros; apply Hb; now right.
    + destruct Hx as [<-|Hx]; [contradiction|]. eauto.
Qed.

(** The matrix after placing a list of entries. *)
Definition hit (l : list ((Z * Z) * V)) (r c : nat) (v : V) : Prop :=
  In ((Z.of_nat r, Z.of_nat c), v) l \/ (sy <> Unsymmetric /\ In ((Z.of_nat c, Z.of_nat r), v) l).
Definition touches (e : Z * Z) (r c : nat) : Prop :=
  e = (Z.of_nat r, Z.of_nat c) \/ (sy <> Unsymmetric /\ e = (Z.of_nat c, Z.of_nat r)).
Lemma touches_dec e r c : touches e r c \/ ~ touches e r c.
Proof.
  unfold touches. destruct e as [a b]. 
  destruct (Z.eq_dec a (Z.of_nat r)) as [->|N1], (Z.eq_dec b (Z.of_nat c)) as [->|N2]; auto;
  destruct sy eqn:E; try (right; intros [H|[H K]]; congruence);
  match goal with |- context [(?x, ?y) = (Z.of_nat c, Z.of_nat r)] =>
    destruct (Z.eq_dec x (Z.of_nat c)) as [E1|N3], (Z.eq_dec y (Z.of_nat r)) as [E2|N4] end;
  try (left; right; split; congruence); right; intros [H|[_ H]]; congruence.
Qed.
Lemma step_element (w : list V) e v r c : length w = rows * cols -> inb e -> r < rows -> c < cols ->
  let w' := (let w1 := upd w (Z.to_nat (fst e) + Z.to_nat (snd e) * rows) v in
      match sy with Unsymmetric => w1 | _ => upd w1 (Z.to_nat (snd e) + Z.to_nat (fst e) * rows) v end) in
  (touches e r c -> element rows w' r c = Some v) /\ (~ touches e r c -> element rows w' r c = element rows w r c).
Proof.
  intros Hl [Hr Hc] Lr Lc w'. unfold in_bounds in *. destruct e as [a b]. cbn [fst snd] in *. unfold element.
  assert (Li : r + c * rows < length w) by (rewrite Hl; now apply idx_lt).
  assert (Eq1 : forall x y : Z, (0 <= x < Z.of_nat rows)%Z -> (0 <= y)%Z -> Z.to_nat x + Z.to_nat y * rows = r + c * rows -> (x, y) = (Z.of_nat r, Z.of_nat c)).
  { intros x y Hx Hy E. apply idx_inj in E; [|lia|lia]. f_equal; lia. }
  split.
  - intros [E|[Hs E]]; injection E as -> ->; rewrite ?Nat2Z.id in *.
    + subst w'. cbv zeta. rewrite !Nat2Z.id. destruct sy eqn:Es.
      * now apply upd_same.
      * destruct (Nat.eq_dec (c + r * rows) (r + c * rows)) as [E|N].
        { rewrite E. apply upd_same. now rewrite upd_length. }
        { rewrite upd_other by auto. now apply upd_same. }
      * destruct (Nat.eq_dec (c + r * rows) (r + c * rows)) as [E|N].
        { rewrite E. apply upd_same. now rewrite upd_length. }
        { rewrite upd_other by auto. now apply upd_same. }
    + subst w'. cbv zeta. rewrite !Nat2Z.id. destruct sy eqn:Es; [congruence| |]; apply upd_same; now rewrite upd_length.
  - intros Ht. unfold touches in Ht. subst w'. cbv zeta.
    assert (N1 : Z.to_nat a + Z.to_nat b * rows <> r + c * rows).
    { intros E. apply Ht. left. apply Eq1; auto; lia. }
    destruct sy eqn:Es; [now apply upd_other| |];
      (assert (Hrc : rows = cols) by (apply Hsq; discriminate);
       assert (N2 : Z.to_nat b + Z.to_nat a * rows <> r + c * rows);
       [intros E; apply Ht; right; split; [discriminate|]; assert (K : (b, a) = (Z.of_nat r, Z.of_nat c)) by (apply Eq1; auto; lia); congruence|];
       rewrite upd_other by auto; now apply upd_other).
Qed.

Lemma place_all (l : list ((Z * Z) * V)) : NoDup (map fst l) -> (forall ev, In ev l -> inb (fst ev)) -> (forall ev, In ev l -> ~ wrong_side sy (fst ev)) ->
  exists w, foldm step l (repeat zero (rows * cols)) = Ok w /\ length w = rows * cols /\
    forall r c, r < rows -> c < cols -> (forall v, hit l r c v -> element rows w r c = Some v) /\
       ((forall v, ~ hit l r c v) -> element rows w r c = Some zero).
Proof.
  intros Hn Hb Hw.
  destruct (foldm_inv step (fun pre w => length w = rows * cols /\ 
     forall r c, r < rows -> c < cols -> (forall v, hit pre r c v -> element rows w r c = Some v) /\
       ((forall v, ~ hit pre r c v) -> element rows w r c = Some zero)) l (repeat zero (rows * cols))) as (w & E & Hl & H).
  - split; [apply repeat_length|]. intros r c Lr Lc. split; [intros v [[]|[_ []]]|]. intros _. unfold element.
    apply nth_error_repeat. now apply idx_lt.
  - intros pre [e v] post w El [Hl H].
    assert (Hin : In (e, v) l) by (rewrite El; apply in_elt).
    pose proof (Hb _ Hin) as He. pose proof (Hw _ Hin) as We. cbn [fst snd] in *.
    rewrite place_ok by auto. eexists. split; [reflexivity|]. rewrite step_length. split; [exact Hl|]. intros r c Lr Lc.
    destruct (step_element w e v r c Hl He Lr Lc) as [S1 S2]. destruct (H r c Lr Lc) as [H1 H2].
    assert (Fresh : forall x y u, In ((x, y), u) pre -> (x, y) <> e).
    { intros x y u Hu E. rewrite El, map_app in Hn. cbn [map fst] in Hn. apply NoDup_remove_2 in Hn. apply Hn. apply in_or_app. left.
      apply in_map_iff. exists ((x, y), u). split; auto. }
    assert (Hpre : touches e r c -> forall u, ~ hit pre r c u).
    { intros T u Hu.
      assert (Both : sy <> Unsymmetric -> forall x, In ((snd e, fst e), x) pre -> False).
      { intros Hs x Hx. assert (~ wrong_side sy (snd e, fst e)) as W2.
        { apply (Hw ((snd e, fst e), x)). rewrite El. apply in_or_app. auto. }
        apply (Fresh _ _ _ Hx). unfold wrong_side in *. destruct sy; [congruence| |]; cbn in *; destruct e; cbn in *; f_equal; lia. }
      destruct T as [->|[Hs ->]], Hu as [Hu|[Hs' Hu]].
      - exact (Fresh _ _ _ Hu eq_refl).
      - exact (Both Hs' _ Hu).
      - exact (Both Hs _ Hu).
      - exact (Fresh _ _ _ Hu eq_refl). }
    split.
    + intros u Hu. destruct (touches_dec e r c) as [T|T].
      * assert (u = v) as ->; [|now apply S1].
        destruct Hu as [Hu|[Hs Hu]]; apply in_app_or in Hu; destruct Hu as [Hu|[Hu|[]]]; try congruence; exfalso; apply (Hpre T u); [left|right]; auto.
      * rewrite S2 by auto. apply H1. destruct Hu as [Hu|[Hs Hu]]; apply in_app_or in Hu; destruct Hu as [Hu|[Hu|[]]]; try (left; now auto); try (right; now auto);
          exfalso; apply T; injection Hu as -> _; [left|right]; auto.
    + intros Hu. destruct (touches_dec e r c) as [T|T].
      * exfalso. apply (Hu v). destruct T as [->|[Hs ->]]; [left|right; split; auto]; apply in_or_app; right; now left.
      * rewrite S2 by auto. apply H2. intros u Hp. apply (Hu u). destruct Hp as [Hp|[Hs Hp]]; [left|right; split; auto]; apply in_or_app; now left.
  - exists w. auto.
Qed.
Lemma in_combine_nth {A B} (a : list A) : forall (b : list B) x y, In (x, y) (combine a b) <-> exists i, nth_error a i = Some x /\ nth_error b i = Some y.
Proof.
  induction a as [|p a IH]; intros [|q b] x y; cbn [combine In].
  - split; [intros []|]. intros ([|i] & H & K); discriminate.
  - split; [intros []|]. intros ([|i] & H & K); discriminate.
  - split; [intros []|]. intros ([|i] & H & K); discriminate.
  - split.
    + intros [[= -> ->]|H]; [exists 0; auto|]. apply IH in H. destruct H as (i & H & K). exists (S i). auto.
    + intros ([|i] & H & K); cbn in *; [left; congruence|right]. apply IH. eauto.
Qed.
Lemma hit_stored es (vals : list V) r c v : hit (combine es vals) r c v <-> stored sy es vals r c v.
Proof.
  unfold hit, stored. rewrite !in_combine_nth. split.
  - intros [(i & H & K)|[Hs (i & H & K)]]; exists i; auto.
  - intros (i & K & [H|[Hs H]]); [left|right; split; auto]; exists i; auto.
Qed.
(** Both outcomes, for entries and values in parallel. *)
Lemma place_spec es (vals : list V) : length es = length vals -> NoDup es -> Forall inb es ->
  (Forall (fun e => ~ wrong_side sy e) es ->
     exists w, foldm step (combine es vals) (repeat zero (rows * cols)) = Ok w /\ is_dense_of zero rows cols sy es vals w) /\
  (Exists (wrong_side sy) es -> foldm step (combine es vals) (repeat zero (rows * cols)) = Throw invalid_argument).
Proof.
  intros Hl Hn Hb. rewrite Forall_forall in Hb.
  assert (Hin : forall ev, In ev (combine es vals) -> In (fst ev) es).
  { intros [e v] H. eapply in_combine_l; eauto. }
  split.
  - intros Hw. rewrite Forall_forall in Hw.
    destruct (place_all (combine es vals)) as (w & E & Lw & H).
    + now rewrite map_fst_combine.
    + auto.
    + auto.
    + exists w. split; [exact E|]. split; [exact Lw|]. intros r c Lr Lc. destruct (H r c Lr Lc) as [H1 H2]. split.
      * intros v Hs. apply H1. now apply hit_stored.
      * intros Hs. apply H2. intros v Hv. apply (Hs v). now apply hit_stored.
  - intros Hx. apply place_throws.
    + apply repeat_length.
    + auto.
    + apply Exists_exists in Hx. destruct Hx as (e & He & W).
      rewrite <- (map_fst_combine es vals Hl) in He. apply in_map_iff in He. destruct He as (ev & <- & He). eauto.
Qed.
End Place.

Lemma map_const {A B} (z : B) (l : list A) : map (fun _ => z) l = repeat z (length l).
Proof. induction l as [|x l IH]; cbn; congruence. Qed.

Section CooDense.
Context {V : Type} (zero : V) (dbg : bool) (ti : ity) (p : coo).
Hypothesis (Hv : valid_coo p) (Hn : NoDup (coo_entries p)).
Hypothesis (Hf : fits ti (Z.of_nat (o_rows p))) (Hf2 : fits ti (Z.of_nat (o_cols p))).
Notation d := (Dense (o_rows p) (o_cols p) (o_sym p)).
Lemma coo_dense_ok : coo_dense dbg ti p =
  if sym_nonsquare (o_sym p) (o_rows p) (o_cols p) then Throw invalid_argument else Ok (CooDense ti p d).
Proof.
  unfold coo_dense. rewrite assert_true'; [reflexivity|]. intros _. unfold check_uniqueness_triplets.
  apply no_adjacent_nodup; [apply pair_eqb_iff|]. unfold coo_entries in Hn. rewrite combine_map in Hn. now apply NoDup_map_inv in Hn.
Qed.
Lemma coo_entries_length : length (coo_entries p) = length (o_row p).
Proof. unfold coo_entries. rewrite combine_length, !map_length, <- (proj1 Hv). lia. Qed.
Lemma coo_dense_values (vals work : list V) : length vals = length (o_row p) -> length work = o_rows p * o_cols p ->
  convert_values dbg zero (CooDense ti p d) vals work
  = (w <- foldm (fun ev w => place dbg (o_sym p) (o_rows p) w (fst (fst ev)) (snd (fst ev)) (snd ev)) (combine (coo_entries p) vals) (repeat zero (o_rows p * o_cols p)) ;; Ok (RWork, w)).
Proof.
  intros Hl Hw. unfold convert_values, nnz_from, work_size. cbn [d_rows d_cols].
  assert (Hnnz : coo_nnz dbg p = Ok (length (o_row p))) by (unfold coo_nnz; rewrite (proj1 Hv), Nat.eqb_refl; reflexivity).
  rewrite Hnnz. cbn [bind]. rewrite Hl, Hw, !Nat.eqb_refl. cbn [assert bind]. rewrite map_const, Hw.
  unfold for_.
  replace (length (o_row p)) with (length (combine (coo_entries p) vals)) by (rewrite combine_length, coo_entries_length; lia).
  rewrite (foldm_seq_nth _ (fun ev w => place dbg (o_sym p) (o_rows p) w (fst (fst ev)) (snd (fst ev)) (snd ev)) (combine (coo_entries p) vals)); [reflexivity|].
  intros l [[r c] v] w Hlv. cbn [Nat.add fst snd].
  assert (Hin : In (r, c) (coo_entries p)) by (eapply in_combine_l, nth_error_In, Hlv).
  destruct (Hv) as [Hlen Hb]. rewrite Forall_forall in Hb. specialize (Hb _ Hin). cbn in Hb. destruct Hb as [Hr Hc].
  assert (K : exists r0 c0, nth_error (o_row p) l = Some r0 /\ nth_error (o_col p) l = Some c0 /\ nth_error vals l = Some v /\ r = (r0 - o_first p)%Z /\ c = (c0 - o_first p)%Z).
  { clear - Hlv. unfold coo_entries in Hlv. revert Hlv. generalize (o_row p) (o_col p) vals. revert l.
    induction l as [|l IH]; intros [|r0 rs] [|c0 cs] [|v0 vs]; cbn; try discriminate.
    - intros [= <- <- <-]. exists r0, c0. auto.
    - apply IH. }
  destruct K as (r0 & c0 & K1 & K2 & K3 & -> & ->). unfold get. rewrite K1, K2, K3. cbn [bind]. unfold in_bounds in *.
  rewrite !chk_ok; [reflexivity| |].
  - apply (fits_between ti 0 (Z.of_nat (o_cols p))); auto using fits_0. lia.
  - apply (fits_between ti 0 (Z.of_nat (o_rows p))); auto using fits_0. lia.
Qed.
End CooDense.

Section CscDense.
Context {V : Type} (zero : V) (dbg : bool) (p : csc).
Hypothesis (Hv : valid_csc p) (Hn : NoDup (csc_entries p)).
Notation d := (Dense (c_rows p) (c_cols p) (c_sym p)).
Lemma csc_dense_ok : csc_dense dbg p =
  if sym_nonsquare (c_sym p) (c_rows p) (c_cols p) then Throw invalid_argument else Ok (CscDense p d).
Proof.
  unfold csc_dense. rewrite unique_check_ok by auto. cbn [bind assert]. destruct dbg; reflexivity.
Qed.
Lemma csc_dense_values (vals work : list V) : length vals = length (c_inner p) -> length work = c_rows p * c_cols p ->
  convert_values dbg zero (CscDense p d) vals work
  = (w <- foldm (fun ev w => place dbg (c_sym p) (c_rows p) w (fst (fst ev)) (snd (fst ev)) (snd ev)) (combine (csc_entries p) vals) (repeat zero (c_rows p * c_cols p)) ;; Ok (RWork, w)).
Proof.
  intros Hl Hw. unfold convert_values, nnz_from, work_size. cbn [d_rows d_cols]. rewrite nnz_ok by auto. cbn [bind].
  rewrite Hl, Hw, !Nat.eqb_refl. cbn [assert bind]. rewrite map_const, Hw.
  pose proof (csc_iter p Hv dbg (fun r c '(w, l) => v <- get vals l ;; w' <- place dbg (c_sym p) (c_rows p) w r c v ;; Ok (w', S l)) (repeat zero (c_rows p * c_cols p), 0)) as It.
  match goal with |- bind ?m _ = _ => match type of It with _ = ?R => assert (E : m = R) end end.
  { rewrite <- It. unfold for_. apply foldm_ext. intros c st Hc. destruct (get (c_outer p) c); auto. cbn [bind].
    destruct (get (c_outer p) (c + 1)); auto. cbn [bind]. apply foldm_ext. intros i [w l] Hi. reflexivity. }
  rewrite E.
  pose proof (foldm_count (fun (e : Z * Z) v w => place dbg (c_sym p) (c_rows p) w (fst e) (snd e) v) vals (csc_entries p) 0 (repeat zero (c_rows p * c_cols p))) as C.
  rewrite entries_length in C by auto. specialize (C ltac:(lia)). cbn [skipn] in C.
  match goal with |- bind ?m _ = _ => match type of C with _ = ?R => assert (E2 : m = R) end end.
  { rewrite <- C. apply foldm_ext. intros e [w l] He. reflexivity. }
  rewrite E2. destruct (foldm _ (combine (csc_entries p) vals) _); reflexivity.
Qed.
End CscDense.
