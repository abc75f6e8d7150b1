From Verif Require Import Base StringUtil_Spec StringUtil_Model.
Local Arguments Nat.eqb : simpl never.

Lemma prefixb_spec tok s : prefixb tok s = true <-> exists b, s = tok ++ b.
Proof.
  revert s; induction tok as [|t tok IH]; intros s; simpl.
  - split; [eauto|reflexivity].
  - destruct s as [|c s]; [split; [discriminate|intros (b & H); discriminate]|].
    rewrite andb_true_iff, Z.eqb_eq, IH. split.
    + intros (-> & b & ->). eauto.
    + intros (b & [= -> ->]). eauto.
Qed.

Lemma occurs_at_cons tok c s p : occurs_at tok (c :: s) (S p) <-> occurs_at tok s p.
Proof.
  split.
  - intros ([|x a] & b & H & Hl); [discriminate|]. injection H as -> H. injection Hl as Hl.
    exists a, b; auto.
  - intros (a & b & -> & <-). exists (c :: a), b; auto.
Qed.
Lemma occurs_at_0 tok s : occurs_at tok s 0 <-> prefixb tok s = true.
Proof.
  rewrite prefixb_spec. split.
  - intros ([|x a] & b & H & Hl); [|discriminate]. simpl in H. eauto.
  - intros (b & ->). exists [], b; auto.
Qed.

Lemma find_spec s tok :
  match find s tok with
  | Some p => occurs_at tok s p /\ forall q, occurs_at tok s q -> p <= q
  | None => forall q, ~ occurs_at tok s q
  end.
Proof.
  induction s as [|c s IH]; simpl.
  - destruct (prefixb tok []) eqn:E.
    + split; [now apply occurs_at_0|lia].
    + intros [|q] H; [apply occurs_at_0 in H; congruence|].
      destruct H as ([|x a] & b & H & Hl); discriminate.
  - destruct (prefixb tok (c :: s)) eqn:E.
    + split; [now apply occurs_at_0|lia].
    + destruct (find s tok) as [p|]; simpl.
      * destruct IH as [H1 H2]. split; [now apply occurs_at_cons|].
        intros [|q] H; [apply occurs_at_0 in H; congruence|].
        apply (proj1 (occurs_at_cons _ _ _ _)) in H. apply H2 in H. lia.
      * intros [|q] H; [apply occurs_at_0 in H; congruence|].
        apply (proj1 (occurs_at_cons _ _ _ _)) in H. now apply IH in H.
Qed.

Lemma find_cut s tok p : occurs_at tok s p ->
  s = firstn p s ++ tok ++ skipn (p + length tok) s /\ length (firstn p s) = p.
Proof.
  intros (a & b & -> & <-). rewrite firstn_app, Nat.sub_diag, firstn_all. simpl.
  rewrite app_nil_r. split; [|reflexivity].
  rewrite skipn_app. rewrite skipn_all2 by lia. simpl.
  replace (length a + length tok - length a) with (length tok) by lia.
  rewrite skipn_app, skipn_all, Nat.sub_diag. reflexivity.
Qed.

Lemma split_spec full tok key rem : split full tok = (key, rem) ->
  (occurs tok full -> full = key ++ tok ++ rem /\ forall p, occurs_at tok full p -> length key <= p) /\
  (~ occurs tok full -> key = full /\ rem = []).
Proof.
  unfold split. pose proof (find_spec full tok) as H.
  destruct (find full tok) as [p|]; intros [= <- <-].
  - destruct H as [H1 H2]. destruct (find_cut _ _ _ H1) as [H3 H4]. split.
    + intros _. split; [exact H3|]. intros q Hq. rewrite H4. auto.
    + intros Hn. exfalso. apply Hn. eexists; eauto.
  - split; [|auto]. intros (q & Hq). exfalso. now apply (H q).
Qed.

Lemma split_second_spec full tok key rem : split_second full tok = (key, rem) ->
  (occurs tok full -> full = key ++ tok ++ rem /\ forall p, occurs_at tok full p -> length key <= p) /\
  (~ occurs tok full -> key = [] /\ rem = full).
Proof.
  unfold split_second. pose proof (find_spec full tok) as H.
  destruct (find full tok) as [p|]; intros [= <- <-].
  - destruct H as [H1 H2]. destruct (find_cut _ _ _ H1) as [H3 H4]. split.
    + intros _. split; [exact H3|]. intros q Hq. rewrite H4. auto.
    + intros Hn. exfalso. apply Hn. eexists; eauto.
  - split; [|auto]. intros (q & Hq). exfalso. now apply (H q).
Qed.

Lemma join_spec ss sep empty :
  join ss sep empty = match ss with [] => empty | _ => interspersed sep ss end.
Proof.
  destruct ss as [|s ss]; [reflexivity|]. simpl.
  assert (H : forall ss s, fold_left (fun acc e => (acc ++ sep) ++ e) ss s =
                           match ss with [] => s | _ => s ++ sep ++ interspersed sep ss end).
  { induction ss0 as [|x ss0 IH]; intros s0; [reflexivity|]. cbn [fold_left].
    rewrite IH. destruct ss0 as [|y ss0]; simpl; now rewrite <- !app_assoc. }
  rewrite H. now destruct ss.
Qed.

Lemma join_quote_spec ss sep empty ql qr :
  join_quote ss sep empty ql qr =
  match ss with [] => empty | _ => interspersed sep (map (fun s => ql ++ s ++ qr) ss) end.
Proof.
  destruct ss as [|s ss]; [reflexivity|]. unfold join_quote.
  assert (H : forall ss s, fold_left (fun acc e => (((acc ++ qr) ++ sep) ++ ql) ++ e) ss s ++ qr =
     match ss with [] => s ++ qr
     | _ => s ++ qr ++ sep ++ interspersed sep (map (fun s => ql ++ s ++ qr) ss) end).
  { induction ss0 as [|x ss0 IH]; intros s0; [reflexivity|]. cbn [fold_left].
    rewrite IH. destruct ss0 as [|y ss0]; cbn [map interspersed]; now rewrite <- !app_assoc. }
  rewrite H. destruct ss as [|y ss]; cbn [map interspersed].
  - now rewrite <- app_assoc.
  - now rewrite <- !app_assoc.
Qed.

(** Cutting two decompositions of one list at the same place. *)
Lemma app_split_le {X} (a b c d : list X) : a ++ b = c ++ d -> length a <= length c ->
  exists m, c = a ++ m /\ b = m ++ d.
Proof.
  revert c; induction a as [|x a IH]; intros c H Hl; simpl in *.
  - exists c; auto.
  - destruct c as [|y c]; [simpl in Hl; lia|]. injection H as -> H.
    destruct (IH c H) as (m & -> & ->); [simpl in Hl; lia|]. exists m; auto.
Qed.

Lemma first_occ sep e rest p :
  sep <> [] -> unbordered sep -> ~ occurs sep e ->
  occurs_at sep (e ++ sep ++ rest) p -> length e <= p.
Proof.
  intros Hne Hub Hno (a & b & Heq & <-).
  destruct (Nat.le_gt_cases (length e) (length a)) as [H|H]; [exact H|exfalso].
  symmetry in Heq.
  destruct (app_split_le _ _ _ _ Heq ltac:(lia)) as (m & -> & Hm).
  (* sep ++ b = m ++ sep ++ rest, m nonempty *)
  rewrite app_length in H.
  destruct (Nat.le_gt_cases (length sep) (length m)) as [Hs|Hs].
  - destruct (app_split_le _ _ _ _ Hm Hs) as (m' & -> & _).
    apply Hno. exists (length a), a, m'. auto.
  - symmetry in Hm. destruct (app_split_le _ _ _ _ Hm ltac:(lia)) as (t & Ht & Ht2).
    (* sep = m ++ t ; sep ++ rest = t ++ b *)
    symmetry in Ht2.
    assert (Hlt : length t <= length sep) by (rewrite Ht, app_length; lia).
    destruct (app_split_le _ _ _ _ Ht2 Hlt) as (u & Hu & _).
    assert (Htne : t <> []). { intros ->. rewrite app_nil_r in Ht. subst. lia. }
    pose proof (Hub t u m Hu Ht Htne) as He.
    assert (length t = length sep) by now rewrite He.
    rewrite Ht in H0. rewrite app_length in H0. lia.
Qed.

Lemma occurs_refl_app sep a b : occurs sep (a ++ sep ++ b).
Proof. exists (length a), a, b; auto. Qed.

Lemma split_all_join sep : sep <> [] -> unbordered sep ->
  forall ss fuel, ss <> [] -> Forall (fun s => ~ occurs sep s) ss -> length ss <= fuel ->
  split_all fuel (interspersed sep ss) sep = Some ss.
Proof.
  intros Hne Hub. induction ss as [|s ss IH]; intros fuel Hss Hall Hf; [congruence|].
  inversion Hall as [|? ? Hs Hall']; subst.
  destruct fuel as [|fuel]; [simpl in Hf; lia|]. cbn [split_all].
  destruct ss as [|s2 ss].
  - cbn [interspersed]. destruct (split s sep) as [key rem] eqn:E.
    apply split_spec in E as [_ E]. destruct (E Hs) as [-> ->].
    now rewrite Nat.eqb_refl.
  - assert (Hi : interspersed sep (s :: s2 :: ss) = s ++ sep ++ interspersed sep (s2 :: ss)) by reflexivity.
    rewrite Hi. destruct (split _ sep) as [key rem] eqn:E.
    apply split_spec in E as [E _]. destruct (E (occurs_refl_app _ _ _)) as [Heq Hmin].
    assert (Hk : length key = length s).
    { assert (length key <= length s) by (apply Hmin; eexists _, _; split; reflexivity).
      assert (length s <= length key).
      { eapply (first_occ sep s (interspersed sep (s2 :: ss))); eauto.
        eexists _, _; split; [exact Heq|reflexivity]. }
      lia. }
    destruct (app_split_le _ _ _ _ Heq ltac:(lia)) as (m & -> & Hm).
    rewrite app_length in Hk. destruct m; [|simpl in Hk; lia]. rewrite app_nil_r in *. simpl in Hm.
    apply app_inv_head in Hm. subst rem.
    replace (length s =? length (s ++ sep ++ interspersed sep (s2 :: ss))) with false.
    + rewrite IH; [reflexivity|discriminate|assumption|simpl in *; lia].
    + symmetry. apply Nat.eqb_neq. rewrite !app_length. destruct sep; [congruence|simpl; lia].
Qed.

(** Lexicographic order. *)
Lemma lexb_spec a b : lexb a b = true <-> lex_before a b.
Proof.
  revert b; induction a as [|x a IH]; intros [|y b]; simpl.
  - split; [discriminate|]. intros [(c & r & H)|(p & u & v & r & s & _ & H & _)]; [discriminate|].
    destruct p; discriminate.
  - split; [intros _; left; exists y, b; reflexivity|reflexivity].
  - split; [discriminate|]. intros [(c & r & H)|(p & u & v & r & s & _ & H & _)]; [discriminate|].
    destruct p; discriminate.
  - destruct (Z.ltb_spec x y) as [H|H]; [|destruct (Z.ltb_spec y x) as [H2|H2]].
    + split; [|reflexivity]. intros _. right. exists [], x, y, a, b. auto.
    + split; [discriminate|]. intros [(c & r & E)|([|z p] & u & v & r & s & Ea & Eb & Huv)].
      * injection E as -> _. lia.
      * simpl in *. injection Ea as <- <-. injection Eb as <- <-. lia.
      * simpl in *. injection Ea as <- _. injection Eb as -> _. lia.
    + assert (x = y) by lia. subst y. rewrite IH. split.
      * intros [(c & r & ->)|(p & u & v & r & s & -> & -> & Huv)].
        -- left. exists c, r; reflexivity.
        -- right. exists (x :: p), u, v, r, s. auto.
      * intros [(c & r & E)|([|z p] & u & v & r & s & Ea & Eb & Huv)].
        -- injection E as ->. left. eauto.
        -- simpl in *. injection Ea as <- <-. injection Eb as <- <-. lia.
        -- simpl in *. injection Ea as _ ->. injection Eb as _ ->. right. exists p, u, v, r, s. auto.
Qed.

Lemma lexb_irrefl a : lexb a a = false.
Proof. induction a as [|x a IH]; simpl; [reflexivity|]. now rewrite Z.ltb_irrefl. Qed.

Lemma lexb_total a b : lexb a b = false -> lexb b a = false -> a = b.
Proof.
  revert b; induction a as [|x a IH]; intros [|y b]; simpl; try discriminate; [reflexivity|].
  destruct (Z.ltb_spec x y); [discriminate|]. destruct (Z.ltb_spec y x); [discriminate|].
  intros H1 H2. f_equal; [lia|auto].
Qed.

Lemma lexb_trans a b c : lexb a b = true -> lexb b c = true -> lexb a c = true.
Proof.
  revert b c; induction a as [|x a IH]; intros [|y b] [|z c]; simpl; try discriminate; auto.
  destruct (Z.ltb_spec x y); destruct (Z.ltb_spec y z); destruct (Z.ltb_spec x z);
    destruct (Z.ltb_spec y x); destruct (Z.ltb_spec z y); destruct (Z.ltb_spec z x);
    try lia; try discriminate; auto. apply IH.
Qed.

Lemma ci_swo up : is_strict_weak_order (ci_less up).
Proof.
  unfold is_strict_weak_order, ci_less. split; [|split].
  - intros a. apply lexb_irrefl.
  - intros a b c. apply lexb_trans.
  - intros a b c H1 H2 H3 H4. rewrite (lexb_total _ _ H1 H2). auto.
Qed.

Lemma ci_equiv up a b : (ci_less up a b = false /\ ci_less up b a = false) <-> map up a = map up b.
Proof.
  unfold ci_less. split.
  - intros [H1 H2]. now apply lexb_total.
  - intros ->. split; apply lexb_irrefl.
Qed.

Lemma lexb_neg_trans a b c : lexb b a = false -> lexb c b = false -> lexb c a = false.
Proof.
  intros H1 H2. destruct (lexb c a) eqn:E; [|reflexivity].
  destruct (lexb a b) eqn:E2.
  - rewrite (lexb_trans c a b E E2) in H2. discriminate.
  - rewrite (lexb_total _ _ E2 H1) in E. congruence.
Qed.

Lemma sorted_strong up l : Sorted (fun a b => ci_less up b a = false) l ->
  StronglySorted (fun a b => ci_less up b a = false) l.
Proof.
  apply Sorted_StronglySorted. intros a b c H1 H2. unfold ci_less in *.
  eapply lexb_neg_trans; eauto.
Qed.

Lemma ss_nth {X} (R : X -> X -> Prop) l : StronglySorted R l ->
  forall i j x y, i < j -> nth_error l i = Some x -> nth_error l j = Some y -> R x y.
Proof.
  induction 1 as [|z l Hs IH Hall]; intros i j x y Hij Hx Hy; [destruct i; discriminate|].
  destruct j as [|j]; [lia|]. destruct i as [|i]; simpl in *.
  - injection Hx as <-. rewrite Forall_forall in Hall. apply Hall. eapply nth_error_In; eauto.
  - eapply IH; [|exact Hx|exact Hy]. lia.
Qed.

Lemma sort_ci_spec up l l' : sort_case_insensitive up l l' ->
  Permutation l l' /\
  forall i j a b, i < j -> nth_error l' i = Some a -> nth_error l' j = Some b ->
    ~ lex_before (map up b) (map up a).
Proof.
  intros H. destruct (H (ci_swo up)) as [Hp Hs]. split; [exact Hp|].
  intros i j a b Hij Ha Hb Hlex.
  pose proof (ss_nth _ _ (sorted_strong up _ Hs) _ _ _ _ Hij Ha Hb) as Hc. simpl in Hc.
  unfold ci_less in Hc. apply lexb_spec in Hlex. congruence.
Qed.
