(** convert_values_copy, convert_values_into, uniqueness checks. *)
From Verif Require Import Base Sparsity_Spec Sparsity_Model Sparsity_Base Sparsity_Csc Sparsity_Conv Sparsity_CscCsc Sparsity_ToCoo Sparsity_FromDense Sparsity_ToDense Sparsity_All.
Local Open Scope outcome_scope.
Local Arguments Nat.eqb : simpl never.
Local Arguments Nat.leb : simpl never.
Local Arguments Nat.ltb : simpl never.

Section Into.
Context {V : Type} (zero : V) (dbg : bool).
Lemma copy_ok c n ws out vals : converts zero dbg c n ws out -> length vals = n -> convert_values_copy dbg zero c vals = Ok (out vals).
Proof.
  intros (H1 & H2 & H3) Hl. unfold convert_values_copy. rewrite H2. cbn [bind].
  destruct (H3 vals (repeat zero ws) Hl (repeat_length _ _)) as (r & w & E & E2 & _). rewrite E. cbn [bind].
  rewrite <- E2. unfold values_out. reflexivity.
Qed.
Lemma store_all (l new : list V) : length new = length l -> store_first l new = new.
Proof. intros H. unfold store_first. rewrite skipn_all2 by lia. apply app_nil_r. Qed.
Lemma resize_length (l : list V) n : length (resize zero l n) = n.
Proof. unfold resize. rewrite app_length, firstn_length, repeat_length. lia. Qed.
Lemma into_ok c n ws out rnull result eval work : converts zero dbg c n ws out -> length (eval n) = n ->
  length result = length (out (eval n)) -> (ws = 0 -> work = []) -> (dbg = true -> result = [] -> rnull = true) ->
  exists work', convert_values_into dbg zero c rnull result eval work = Ok (out (eval n), [n], work') /\ (ws = 0 -> work' = []).
Proof.
  intros (H1 & H2 & H3) Hev Hlr Hw Hnull. unfold convert_values_into. rewrite H1, H2. cbn [bind].
  destruct (Nat.eqb_spec ws 0) as [E0|N0]; cbn [andb].
  - specialize (Hw E0). subst work.
    destruct (H3 (eval n) [] Hev (eq_sym E0)) as (r & w & E & E2 & E3 & E4 & E5 & E6).
    specialize (E5 E0).
    assert (Hlen : length (out (eval n)) = n \/ (n = 0 /\ out (eval n) = [])).
    { destruct E5 as [->|En]; [left; rewrite <- E2; exact Hev|]. rewrite <- E2. destruct r; cbn [values_out] in *; [left; exact Hev| |now right].
      right. split; auto. destruct w; auto. cbn in E3. lia. }
    assert (Hle : n <= length result) by lia. rewrite (proj2 (Nat.leb_le _ _)) by auto.
    assert (Es : store_first result (eval n) = eval n) by (apply store_all; destruct Hlen as [|[? Ho]]; [lia|rewrite Ho in Hlr; cbn in Hlr; lia]).
    rewrite Es, E. cbn [bind].
    assert (Hw0 : w = []) by (destruct w; auto; cbn in E3; lia).
    destruct r; [| |congruence].
    + cbn [assert bind]. cbn [values_out] in E2. rewrite <- E2. exists w. auto.
    + cbn [values_out] in E2. destruct E5 as [E5|En]; [discriminate|].
      assert (Hr0 : result = []). { rewrite <- E2, Hw0 in Hlr. destruct result; auto. discriminate. }
      rewrite assert_true' by (intros Hd; rewrite (Hnull Hd Hr0); reflexivity). cbn [bind].
      exists w. split; auto. rewrite <- E2, Hw0. destruct (eval n); auto. cbn in Hev. lia.
  - assert (Es : store_first (resize zero work n) (eval n) = eval n) by (apply store_all; rewrite resize_length; auto).
    rewrite Es.
    assert (Hrw : forall r w, values_out r (eval n) w = out (eval n) -> r = match ws with 0 => r | _ => RWork end -> r = RWork).
    { intros r w _ Hr. destruct ws; congruence. }
    destruct (H3 (eval n) (repeat zero ws) Hev (repeat_length _ _)) as (r & w & E & E2 & E3 & E4 & _).
    pose proof (Hrw r w E2 E4) as ->. cbn [values_out] in E2.
    assert (Hlr2 : length result = ws) by (rewrite Hlr, <- E2; exact E3).
    destruct (H3 (eval n) result Hev Hlr2) as (r & w2 & F & F2 & F3 & F4 & _).
    pose proof (Hrw r w2 F2 F4) as ->. cbn [values_out] in F2. rewrite F. cbn [bind assert].
    exists (eval n). split; [rewrite F2; reflexivity|]. intros; contradiction.
Qed.
End Into.

(** ** Uniqueness *)
Lemma no_adjacent_sorted {A} (eqb : A -> A -> bool) (R : A -> A -> Prop) (Heq : forall x y, eqb x y = true <-> x = y)
  (Hanti : forall x y, R x y -> R y x -> x = y) l : StronglySorted R l -> (no_adjacent eqb l = true <-> NoDup l).
Proof.
  intros Hs. split; [|apply no_adjacent_nodup; auto]. induction Hs as [|x l Hs IH Hf]; intros H; constructor.
  - destruct l as [|y l]; [auto|]. cbn in H. apply andb_true_iff in H. destruct H as [H _].
    apply negb_true_iff in H. intros Hin. rewrite Forall_forall in Hf.
    assert (x = y) as ->.
    { destruct Hin as [->|Hin]; auto. apply Hanti; [apply Hf; now left|]. inversion Hs as [|? ? _ Hf2]; subst.
      rewrite Forall_forall in Hf2. apply Hf2; auto. }
    assert (eqb y y = true) by now apply Heq. congruence.
  - apply IH. destruct l as [|y l]; auto. cbn in H. apply andb_true_iff in H. apply H.
Qed.
Lemma NoDup_tagged (l : list Z) (t : Z) : NoDup (map (fun r => (r, t)) l) <-> NoDup l.
Proof. split; [apply NoDup_map_inv|]. apply FinFun.Injective_map_NoDup. intros x y [= ->]. reflexivity. Qed.
Lemma NoDup_app_intro {A} (l k : list A) : NoDup l -> NoDup k -> (forall x, In x l -> ~ In x k) -> NoDup (l ++ k).
Proof.
  intros Hl Hk H. induction Hl as [|x l Hx Hl IH]; cbn; auto. constructor.
  - intros Hi. apply in_app_or in Hi. destruct Hi as [Hi|Hi]; [contradiction|]. apply (H x); auto. now left.
  - apply IH. intros y Hy. apply H. now right.
Qed.
Lemma NoDup_columns p : (forall c, c < c_cols p -> NoDup (csc_column p c)) -> NoDup (csc_entries p).
Proof.
  unfold csc_entries. generalize (c_cols p) as n. induction n as [|n IH]; intros H; [constructor|].
  rewrite seq_S, flat_map_app. cbn [flat_map Nat.add]. rewrite app_nil_r. apply NoDup_app_intro.
  - apply IH. auto.
  - apply NoDup_tagged. apply H. lia.
  - intros x Hx Hy. apply in_flat_map in Hx. destruct Hx as (c & Hc & Hx). apply in_seq in Hc.
    apply in_map_iff in Hx, Hy. destruct Hx as (? & <- & _), Hy as (? & E & _). injection E as _ E. lia.
Qed.
Lemma csc_unique_iff p : valid_csc p -> (forall c, c < c_cols p -> StronglySorted Z.le (csc_column p c)) ->
  exists b, check_uniqueness_csc (c_outer p) (c_inner p) = Ok b /\ (b = true <-> NoDup (csc_entries p)).
Proof.
  intros Hv Hs. rewrite check_uniqueness_csc_eq by auto. eexists. split; [reflexivity|]. rewrite forallb_forall. split.
  - intros H. apply NoDup_columns. intros c Hc. apply (no_adjacent_sorted Z.eqb Z.le Z.eqb_eq ltac:(intros; lia)); auto. apply H. apply in_seq. lia.
  - intros Hn c Hc. apply in_seq in Hc. apply no_adjacent_nodup; [apply Z.eqb_eq|].
    apply (NoDup_flat_map _ _ c) in Hn; [now apply NoDup_tagged in Hn|]. apply in_seq. lia.
Qed.
Lemma triplets_unique_iff rows cols : (StronglySorted col_major (combine rows cols) \/ StronglySorted row_major (combine rows cols)) ->
  (check_uniqueness_triplets rows cols = true <-> NoDup (combine rows cols)).
Proof.
  unfold check_uniqueness_triplets. intros [H|H].
  - apply (no_adjacent_sorted pair_eqb col_major pair_eqb_iff); auto. intros [a b] [c d]. unfold col_major. cbn. intros. f_equal; lia.
  - apply (no_adjacent_sorted pair_eqb row_major pair_eqb_iff); auto. intros [a b] [c d]. unfold row_major. cbn. intros. f_equal; lia.
Qed.

(** ** Every constructed converter *)
Section Every.
Context {V : Type} (zero : V) (dbg : bool) (srt : sorter) (Hsrt : good_sorter srt).
Lemma every_converts s to : source_ok s -> supported s to -> indices_fit s to -> no_duplicates dbg s to -> request_ok dbg s to ->
  (to = ToDense -> Forall (fun e => ~ wrong_side (source_sym s) e) (source_entries s) \/ exists d, s = SpDense d) ->
  exists c ws out, construct dbg srt s to = Ok c /\ converts zero dbg c (source_size s) ws out.
Proof.
  intros Hs Hsup Hf Hn Hr Hw. destruct to as [|ti f|ti ts o].
  - destruct s as [d|ti ts p|ti p].
    + exists (DenseDense d), 0, (fun vals => vals). split.
      { cbn [construct]. unfold dense_dense. cbn [supported source_sym source_rows source_cols] in Hsup.
        now rewrite (proj2 (sym_nonsquare_iff _ _ _) Hsup). }
      split; [reflexivity|]. split; [reflexivity|]. intros vals work H1 H2. exists RFrom, work.
      split; [unfold convert_values; cbn [nnz_from bind]; cbn in H1; rewrite H1, Nat.eqb_refl; reflexivity|].
      cbn. repeat split; auto. discriminate.
    + destruct (to_dense zero dbg srt (SpCsc ti ts p)) as (c & E & _ & N & W & C); auto; [discriminate|].
      destruct (Hw eq_refl) as [Hw'|[d Hd]]; [|discriminate].
      exists c, (c_rows p * c_cols p), (fun vals => match convert_values dbg zero c vals (repeat zero (c_rows p * c_cols p)) with Ok (_, w) => w | _ => [] end).
      split; [exact E|]. split; [exact N|]. split; [exact W|]. intros vals work H1 H2.
      destruct (C vals work H1 H2) as [C1 _]. destruct (C1 Hw') as (w & Ew & Hd). exists RWork, w. split; [exact Ew|].
      destruct (C vals (repeat zero (c_rows p * c_cols p)) H1 (repeat_length _ _)) as [C2 _]. destruct (C2 Hw') as (w2 & Ew2 & Hd2).
      rewrite Ew2. cbn [values_out].
      assert (Ec : c = CscDense p (Dense (c_rows p) (c_cols p) (c_sym p))).
      { cbn [construct] in E. rewrite csc_dense_ok in E by (auto; apply Hs). destruct (sym_nonsquare _ _ _); congruence. }
      destruct Hs as [Hv Ht].
      assert (w = w2) as ->.
      { rewrite Ec in Ew, Ew2. rewrite csc_dense_values in Ew, Ew2 by (auto; apply repeat_length). congruence. }
      split; [reflexivity|]. split; [exact (proj1 Hd2)|]. split; [destruct (c_rows p * c_cols p); reflexivity|]. split; [|discriminate].
      intros E0. right. cbn [source_size].
      assert (K : csc_entries p = []).
      { destruct (csc_entries p) as [|e l] eqn:Ee; auto. exfalso.
        destruct (entries_bounds p Hv e) as [B1 B2]; [rewrite Ee; now left|]. unfold in_bounds in *. nia. }
      rewrite <- (entries_length p Hv), K. reflexivity.
    + destruct (to_dense zero dbg srt (SpCoo ti p)) as (c & E & _ & N & W & C); auto; [discriminate|].
      destruct (Hw eq_refl) as [Hw'|[d Hd]]; [|discriminate].
      exists c, (o_rows p * o_cols p), (fun vals => match convert_values dbg zero c vals (repeat zero (o_rows p * o_cols p)) with Ok (_, w) => w | _ => [] end).
      split; [exact E|]. split; [exact N|]. split; [exact W|]. intros vals work H1 H2.
      destruct (C vals work H1 H2) as [C1 _]. destruct (C1 Hw') as (w & Ew & Hd). exists RWork, w. split; [exact Ew|].
      destruct (C vals (repeat zero (o_rows p * o_cols p)) H1 (repeat_length _ _)) as [C2 _]. destruct (C2 Hw') as (w2 & Ew2 & Hd2).
      rewrite Ew2. cbn [values_out].
      assert (Ec : c = CooDense ti p (Dense (o_rows p) (o_cols p) (o_sym p))).
      { cbn [construct] in E. rewrite coo_dense_ok in E by auto. destruct (sym_nonsquare _ _ _); congruence. }
      destruct Hs as [Hv Ht]. destruct Hf as [F1 F2].
      assert (w = w2) as ->.
      { rewrite Ec in Ew, Ew2. rewrite coo_dense_values in Ew, Ew2 by (auto; apply repeat_length). congruence. }
      split; [reflexivity|]. split; [exact (proj1 Hd2)|]. split; [destruct (o_rows p * o_cols p); reflexivity|]. split; [|discriminate].
      intros E0. right. cbn [source_size].
      assert (K : coo_entries p = []).
      { destruct (coo_entries p) as [|e l] eqn:Ee; auto. exfalso. destruct Hv as [_ Hb]. rewrite Ee in Hb. inversion Hb as [|? ? [B1 B2] _]; subst.
        unfold in_bounds in *. nia. }
      rewrite <- (coo_entries_length p Hv), K. reflexivity.
  - destruct (to_coo zero dbg srt s ti f Hs Hsup Hf Hn) as (c & t & ws & out & E & _ & _ & _ & _ & _ & _ & _ & _ & _ & C & _). eauto.
  - destruct (to_csc zero dbg srt Hsrt s ti ts o Hs Hsup Hf Hn) as (c & t & ws & out & E & _ & _ & _ & _ & _ & _ & _ & _ & _ & C & _); eauto.
    intros Hd -> t p ->. cbn in Hr. auto.
Qed.
End Every.
