From Verif Require Import Base MaxHistory_Spec MaxHistory_Model.
Local Arguments Nat.eqb : simpl never.

Section Proofs.
Context {T : Type} (ltb gtb eqb : T -> T -> bool) (dflt : T).
Hypothesis Hord : good_order ltb gtb eqb.

Notation is_max := (is_max ltb).
Notation mh_add := (mh_add ltb gtb eqb).
Notation run := (run ltb gtb eqb dflt).
Notation step := (step ltb gtb eqb dflt).

Lemma is_max_ext m l l' : (forall y, In y l <-> In y l') -> is_max m l -> is_max m l'.
Proof. intros H [Hi Hm]; split; [now apply H|]. intros y Hy; apply Hm, H, Hy. Qed.

Lemma max_fold l x m :
  fold_left (fun m y => if ltb m y then y else m) l x = m -> is_max m (x :: l).
Proof.
  revert x; induction l as [|z l IH]; simpl; intros x Hf.
  - subst. split; [now left|]. intros y [<-|[]]. apply (lt_irrefl _ _ _ Hord).
  - apply IH in Hf as [Hin Hmax]. destruct (ltb x z) eqn:E; split.
    + right. exact Hin.
    + intros y [<-|Hy]; [|now apply Hmax].
      destruct (ltb m x) eqn:E2; [|reflexivity].
      rewrite <- (Hmax z (or_introl eq_refl)). symmetry.
      eapply (lt_trans _ _ _ Hord); eauto.
    + destruct Hin as [->|Hin]; [now left|right; now right].
    + intros y [<-|[<-|Hy]].
      * apply Hmax; now left.
      * eapply (lt_weak _ _ _ Hord); [|exact E]. apply Hmax; now left.
      * apply Hmax; now right.
Qed.

Lemma max_element_ok l : l <> [] -> exists m, max_element ltb l = Ok m /\ is_max m l.
Proof. destruct l as [|x l]; [congruence|]. intros _. eexists; split; [reflexivity|].
  now apply max_fold with (1 := eq_refl). Qed.

Definition repr (n : nat) (vals v : list T) (pos : nat) (full : bool) (m : T) : Prop :=
  length v = n /\ 0 < n /\
  (if full then n <= length vals /\
                exists a b, v = a ++ b /\ window n vals = b ++ a /\ length a = pos /\ b <> []
   else length vals < n /\ firstn (length vals) v = vals /\ pos = length vals) /\
  (vals <> [] -> is_max m (window n vals)).

Lemma window_short n (l : list T) : length l <= n -> window n l = l.
Proof. unfold window; intros H. replace (length l - n) with 0 by lia. reflexivity. Qed.

Lemma window_snoc n (l : list T) x : n <= length l -> 0 < n ->
  window n (l ++ [x]) = tl (window n l) ++ [x].
Proof.
  intros H Hn. unfold window. rewrite app_length; simpl.
  rewrite skipn_app.
  replace (length l + 1 - n - length l) with 0 by lia. simpl.
  replace (length l + 1 - n) with (S (length l - n)) by lia.
  generalize (length l - n). intros k. f_equal. revert k.
  induction l as [|y l IH]; intros k; simpl.
  - now rewrite skipn_nil.
  - destruct k; [reflexivity|]. simpl in *.
    assert (Hs : forall (l : list T) k, skipn (S k) l = tl (skipn k l)).
    { clear. induction l as [|y l IH]; intros k; [now rewrite !skipn_nil|].
      destruct k; [reflexivity|]. simpl. simpl in IH. now rewrite <- IH. }
    apply Hs.
Qed.

(** The effect of one add on an object whose iterator points into its own
    vector. *)
Lemma own_add n vals v pos full m x :
  repr n vals v pos full m ->
  exists old v' pos' full' m',
    nth_error v pos = Some old /\ v' = upd v pos x /\
    repr n (vals ++ [x]) v' pos' full' m' /\
    (if full
     then full' = true /\
          (if gtb x m then m' = x else
           if eqb old m then max_element ltb v' = Ok m' else m' = m)
     else m' = (if Nat.eqb pos 0 || gtb x m then x else m) /\
          full' = Nat.eqb (S pos) (length v)) /\
    pos' = (if Nat.eqb (S pos) (length v) then 0 else S pos).
Proof.
  intros (Hlen & Hn & Hf & Hmax). destruct full.
  - destruct Hf as (Hle & a & b & -> & Hw & Hpos & Hb).
    destruct b as [|old b]; [congruence|]. clear Hb.
    assert (Hvals : vals <> []) by (intros ->; simpl in Hle; lia).
    specialize (Hmax Hvals). destruct Hmax as [Hin Hmax].
    exists old, (a ++ x :: b). subst pos.
    assert (Hnth : nth_error (a ++ old :: b) (length a) = Some old).
    { rewrite nth_error_app2 by lia. now rewrite Nat.sub_diag. }
    assert (Hnw : window n (vals ++ [x]) = (b ++ a) ++ [x]).
    { rewrite window_snoc by lia. rewrite Hw. reflexivity. }
    rewrite Hw in Hin, Hmax.
    destruct (max_element_ok (a ++ x :: b)) as (mm & Hmm & Hmmax).
    { destruct a; discriminate. }
    pose (m' := if gtb x m then x else if eqb old m then mm else m).
    exists (if Nat.eqb (S (length a)) (length (a ++ old :: b)) then 0 else S (length a)), true, m'.
    split; [exact Hnth|]. split; [now rewrite upd_app_mid|]. split.
    + unfold repr. split; [rewrite ?app_length in *; simpl in *; lia|]. split; [lia|].
      split.
      { split; [rewrite app_length; simpl; lia|].
        rewrite Hnw.
        destruct b as [|z b].
        - exists [], (a ++ [x]). rewrite ?app_length in *; simpl in *.
          replace (S (length a) =? length a + 1) with true by (symmetry; apply Nat.eqb_eq; lia).
          repeat split; auto. { now rewrite app_nil_r. } destruct a; discriminate.
        - exists (a ++ [x]), (z :: b). rewrite ?app_length in *; simpl in *.
          destruct (Nat.eqb_spec (S (length a)) (length a + S (S (length b)))) as [He|He]; [lia|].
          repeat split; auto.
          + now rewrite <- app_assoc.
          + now rewrite <- app_assoc.
          + lia.
          + discriminate. }
      intros _. rewrite Hnw. unfold m'.
      rewrite (gt_lt _ _ _ Hord). destruct (ltb m x) eqn:Emx.
      * split; [apply in_or_app; right; now left|].
        intros y Hy. destruct (ltb x y) eqn:Exy; [|reflexivity].
        apply in_app_or in Hy as [Hy|[<-|[]]].
        -- rewrite <- (Hmax y (or_intror Hy)). symmetry.
           eapply (lt_trans _ _ _ Hord); eauto.
        -- now rewrite (lt_irrefl _ _ _ Hord) in Exy.
      * destruct (eqb old m) eqn:Eo.
        -- eapply is_max_ext; [|exact Hmmax]. intros y.
           rewrite !in_app_iff; simpl. tauto.
        -- split.
           ++ simpl in Hin. destruct Hin as [->|Hin]; [|apply in_or_app; now left].
              assert (Ht : eqb m m = true).
              { apply (eq_lt _ _ _ Hord). split; apply (lt_irrefl _ _ _ Hord). }
              congruence.
           ++ intros y Hy. apply in_app_or in Hy as [Hy|[<-|[]]]; [|exact Emx].
              apply Hmax. now right.
    + split; [|reflexivity]. split; [reflexivity|]. unfold m'.
      destruct (gtb x m); [reflexivity|]. destruct (eqb old m); [exact Hmm|reflexivity].
  - destruct Hf as (Hlt & Hfst & ->).
    assert (Hsplit : exists old rest, v = vals ++ old :: rest).
    { rewrite <- (firstn_skipn (length vals) v), Hfst.
      destruct (skipn (length vals) v) as [|old rest] eqn:E.
      - assert (length (skipn (length vals) v) = 0) by now rewrite E.
        rewrite skipn_length in H. lia.
      - eauto. }
    destruct Hsplit as (old & rest & ->). clear Hfst.
    exists old, (vals ++ x :: rest).
    exists (if Nat.eqb (S (length vals)) (length (vals ++ old :: rest)) then 0 else S (length vals)).
    exists (Nat.eqb (S (length vals)) (length (vals ++ old :: rest))).
    exists (if Nat.eqb (length vals) 0 || gtb x m then x else m).
    split; [rewrite nth_error_app2 by lia; now rewrite Nat.sub_diag|].
    split; [now rewrite upd_app_mid|]. split; [|auto].
    unfold repr. rewrite !app_length in *; simpl in *.
    split; [lia|]. split; [lia|].
    assert (Hwin : window n (vals ++ [x]) = vals ++ [x]).
    { apply window_short. rewrite app_length; simpl; lia. }
    split.
    + destruct (Nat.eqb_spec (S (length vals)) (length vals + S (length rest))) as [He|He].
      * split; [lia|]. destruct rest; [|simpl in He; lia].
        exists [], (vals ++ [x]). rewrite Hwin. repeat split; auto.
        { now rewrite app_nil_r. } destruct vals; discriminate.
      * split; [lia|]. split; [|lia].
        replace (length vals + 1) with (length (vals ++ [x])) by (rewrite app_length; simpl; lia).
        replace (vals ++ x :: rest) with ((vals ++ [x]) ++ rest) by now rewrite <- app_assoc.
        rewrite firstn_app, Nat.sub_diag. simpl. rewrite app_nil_r. apply firstn_all.
    + intros _. rewrite Hwin. rewrite (gt_lt _ _ _ Hord).
      destruct (Nat.eqb_spec (length vals) 0) as [H0|H0]; cbn [orb].
      { destruct vals; [|discriminate]. simpl. split; [now left|].
        intros y [<-|[]]. apply (lt_irrefl _ _ _ Hord). }
      assert (Hvals : vals <> []) by (intros ->; now apply H0).
      specialize (Hmax Hvals). rewrite window_short in Hmax by lia.
      destruct Hmax as [Hin Hmax].
      destruct (ltb m x) eqn:Emx.
      * split; [apply in_or_app; right; now left|].
        intros y Hy. apply in_app_or in Hy as [Hy|[<-|[]]]; [|apply (lt_irrefl _ _ _ Hord)].
        destruct (ltb x y) eqn:Exy; [|reflexivity].
        rewrite <- (Hmax y Hy). symmetry. eapply (lt_trans _ _ _ Hord); eauto.
      * split; [apply in_or_app; now left|].
        intros y Hy. apply in_app_or in Hy as [Hy|[<-|[]]]; auto.
Qed.

(** One object of the world against its abstract history. *)
Definition obj_ok (w : world T) (o : obj T) (a : absobj T) : Prop :=
  o_buf o < length (w_bufs w) /\
  match a_kind a with
  | Original => exists v, nth_error (w_bufs w) (o_buf o) = Some v /\
                fst (o_it o) = o_buf o /\
                repr (a_n a) (a_vals a) v (snd (o_it o)) (o_full o) (o_max o)
  | Copied => a_vals a <> [] -> is_max (o_max o) (window (a_n a) (a_vals a))
  | MovedFrom | Destroyed => True
  end.

Definition inv (w : world T) (s : list (absobj T)) : Prop :=
  length (w_objs w) = length s /\
  (forall i o a, nth_error (w_objs w) i = Some o -> nth_error s i = Some a -> obj_ok w o a) /\
  (forall i j o1 o2, nth_error (w_objs w) i = Some o1 -> nth_error (w_objs w) j = Some o2 ->
     o_buf o1 = o_buf o2 -> i = j).

Lemma inv_lookup w s i a : inv w s -> nth_error s i = Some a ->
  exists o, nth_error (w_objs w) i = Some o /\ obj_ok w o a.
Proof.
  intros (Hl & Ho & _) Ha.
  destruct (nth_error (w_objs w) i) as [o|] eqn:E; [eauto|].
  apply nth_error_None in E. assert (nth_error s i <> None) by congruence.
  apply nth_error_Some in H. lia.
Qed.

Lemma nth_error_snoc {A} (l : list A) x i y :
  nth_error (l ++ [x]) i = Some y ->
  (i < length l /\ nth_error l i = Some y) \/ (i = length l /\ y = x).
Proof.
  intros H. destruct (Nat.lt_ge_cases i (length l)) as [Hi|Hi].
  - rewrite nth_error_app1 in H by lia. auto.
  - rewrite nth_error_app2 in H by lia.
    destruct (i - length l) as [|k] eqn:E; simpl in H.
    + injection H as <-. right; split; [lia|reflexivity].
    + destruct k; discriminate.
Qed.

Lemma nth_error_lt {A} (l : list A) i x : nth_error l i = Some x -> i < length l.
Proof. intros H. apply nth_error_Some. congruence. Qed.

Lemma obj_ok_bufs_app w o a v objs' :
  obj_ok w o a -> obj_ok (World (w_bufs w ++ [v]) objs') o a.
Proof.
  intros [Hb Hk]. split; [simpl; rewrite app_length; simpl; lia|]. simpl.
  destruct (a_kind a); auto.
  destruct Hk as (v0 & Hv & H). exists v0. rewrite nth_error_app1 by assumption. auto.
Qed.

(** Vectors change only where no live original has its own, and new ones appear at the end. *)
Lemma obj_ok_change w o a bufs objs :
  obj_ok w o a -> length (w_bufs w) <= length bufs ->
  (a_kind a = Original -> nth_error bufs (o_buf o) = nth_error (w_bufs w) (o_buf o)) -> obj_ok (World bufs objs) o a.
Proof.
  intros [Hb Hk] Hl He. split; [simpl; lia|]. simpl. destruct (a_kind a); auto.
  destruct Hk as (v0 & Hv & H). exists v0. rewrite He by reflexivity. auto.
Qed.
Lemma nth_error_upd_inv {A} (l : list A) i x j y : nth_error (upd l i x) j = Some y ->
  (i = j /\ y = x /\ i < length l) \/ (i <> j /\ nth_error l j = Some y).
Proof.
  intros H. rewrite nth_error_upd in H. destruct (Nat.eqb_spec i j) as [->|N]; [|auto].
  destruct (Nat.ltb_spec j (length l)); [|discriminate]. injection H as <-. auto.
Qed.
Lemma inv_bound w s i o : inv w s -> nth_error (w_objs w) i = Some o -> o_buf o < length (w_bufs w).
Proof.
  intros (Hl & Ho & _) H. destruct (nth_error s i) as [a|] eqn:E.
  - now destruct (Ho _ _ _ H E).
  - apply nth_error_None in E. apply nth_error_lt in H. lia.
Qed.

Lemma step_inv w s o s' :
  inv w s -> spec_step s o = Some s' ->
  (match o with Add i _ => forall a, nth_error s i = Some a -> a_kind a <> Copied | _ => True end) ->
  exists w', step w o = Ok w' /\ inv w' s'.
Proof.
  intros Hinv Hs Hnc. pose proof Hinv as (Hlen & Hobj & Hdis).
  destruct o as [n|i|i|i x|i j ip|i j|i]; simpl in *.
  - (* New *)
    destruct n as [|n]; [discriminate|]. injection Hs as <-.
    eexists; split; [reflexivity|]. unfold mh_new. split; [|split].
    + simpl. rewrite !app_length; simpl; lia.
    + cbn [w_objs w_bufs]. intros i o a Hi Ha.
      apply nth_error_snoc in Hi as [[Hlt Hi]|[-> ->]];
        apply nth_error_snoc in Ha as [[Hlt2 Ha]|[Ha ->]]; try lia.
      * apply obj_ok_bufs_app. eauto.
      * split; [simpl; rewrite app_length; simpl; lia|]. cbn [a_kind a_n a_vals o_it o_buf fst snd].
        exists (repeat dflt (S n)). cbn [w_bufs o_full o_max].
        split; [rewrite nth_error_app2, Nat.sub_diag by lia; reflexivity|].
        split; [reflexivity|]. unfold repr. rewrite repeat_length.
        repeat split; try (simpl; lia). all: congruence.
    + cbn [w_objs]. intros i j o1 o2 H1 H2 He.
      apply nth_error_snoc in H1 as [[L1 H1]|[-> ->]];
        apply nth_error_snoc in H2 as [[L2 H2]|[-> ->]]; try lia; eauto.
      * simpl in He. destruct (nth_error s i) as [a|] eqn:Ea.
        -- destruct (Hobj _ _ _ H1 Ea). lia.
        -- apply nth_error_None in Ea. lia.
      * simpl in He. destruct (nth_error s j) as [a|] eqn:Ea.
        -- destruct (Hobj _ _ _ H2 Ea). lia.
        -- apply nth_error_None in Ea. lia.
  - (* Copy *)
    destruct (nth_error s i) as [a|] eqn:Ea; [|discriminate].
    destruct (inv_lookup _ _ _ _ Hinv Ea) as (o & Ho & Hok).
    destruct Hok as [Hb Hk].
    unfold mh_copy. rewrite Ho.
    destruct (nth_error (w_bufs w) (o_buf o)) as [v|] eqn:Ev;
      [|apply nth_error_None in Ev; lia].
    eexists; split; [reflexivity|].
    assert (Hmaxa : live (a_kind a) -> a_vals a <> [] -> is_max (o_max o) (window (a_n a) (a_vals a))).
    { intros Hm Hv. destruct (a_kind a); [|auto|destruct Hm; discriminate..].
      destruct Hk as (v0 & _ & _ & Hr). now apply Hr. }
    assert (Hs' : s' = s ++ [Abs (a_n a) (a_vals a) Copied] /\ live (a_kind a)).
    { unfold live. destruct a as [n l [| | |]]; simpl in *; inversion Hs; split; auto. }
    destruct Hs' as [-> Hkm].
    split; [|split].
    + simpl. rewrite !app_length; simpl; lia.
    + cbn [w_objs w_bufs]. intros i' o' a' Hi' Ha'.
      apply nth_error_snoc in Hi' as [[Hlt Hi']|[-> ->]];
        apply nth_error_snoc in Ha' as [[Hlt2 Ha']|[Ha' ->]]; try lia.
      * apply obj_ok_bufs_app. eauto.
      * split; [simpl; rewrite app_length; simpl; lia|]. simpl. auto.
    + cbn [w_objs]. intros i1 j o1 o2 H1 H2 He.
      apply nth_error_snoc in H1 as [[L1 H1]|[-> ->]];
        apply nth_error_snoc in H2 as [[L2 H2]|[-> ->]]; try lia; eauto.
      * simpl in He. destruct (nth_error s i1) as [a1|] eqn:Ea1.
        -- destruct (Hobj _ _ _ H1 Ea1). lia.
        -- apply nth_error_None in Ea1. lia.
      * simpl in He. destruct (nth_error s j) as [a1|] eqn:Ea1.
        -- destruct (Hobj _ _ _ H2 Ea1). lia.
        -- apply nth_error_None in Ea1. lia.
  - (* Move *)
    destruct (nth_error s i) as [a|] eqn:Ea; [|discriminate].
    destruct (inv_lookup _ _ _ _ Hinv Ea) as (o & Ho & Hok).
    unfold mh_move. rewrite Ho.
    eexists; split; [reflexivity|].
    assert (Hs' : s' = upd s i (Abs (a_n a) (a_vals a) MovedFrom) ++ [a]).
    { destruct a as [n l [| | |]]; simpl in *; inversion Hs; reflexivity. }
    subst s'. pose proof (nth_error_lt _ _ _ Ho) as Hi.
    split; [|split].
    + simpl. rewrite !app_length, !upd_length; simpl; lia.
    + cbn [w_objs w_bufs]. intros i' o' a' Hi' Ha'.
      apply nth_error_snoc in Hi' as [[Hlt Hi']|[-> ->]];
        apply nth_error_snoc in Ha' as [[Hlt2 Ha']|[Ha' ->]];
        rewrite ?upd_length in *; try lia.
      * rewrite nth_error_upd in Hi'. rewrite nth_error_upd in Ha'.
        destruct (Nat.eqb_spec i i') as [->|Hne].
        -- destruct (Nat.ltb_spec i' (length (w_objs w))); [|discriminate].
           destruct (Nat.ltb_spec i' (length s)); [|discriminate].
           injection Hi' as <-. injection Ha' as <-.
           split; [simpl; rewrite app_length; simpl; lia|]. exact I.
        -- apply obj_ok_bufs_app. eauto.
      * now apply obj_ok_bufs_app.
    + cbn [w_objs]. intros i1 j o1 o2 H1 H2 He.
      assert (Hbnd : forall k ok, nth_error (w_objs w) k = Some ok -> o_buf ok < length (w_bufs w)).
      { intros k ok Hk. destruct (nth_error s k) as [ak|] eqn:Eak.
        - now destruct (Hobj _ _ _ Hk Eak).
        - apply nth_error_None in Eak. apply nth_error_lt in Hk. lia. }
      apply nth_error_snoc in H1 as [[L1 H1]|[-> ->]];
        apply nth_error_snoc in H2 as [[L2 H2]|[-> ->]]; rewrite ?upd_length in *; try lia;
        try rewrite nth_error_upd in H1; try rewrite nth_error_upd in H2.
      * destruct (Nat.eqb_spec i i1) as [E1|N1]; destruct (Nat.eqb_spec i j) as [E2|N2]; eauto; try lia.
        -- destruct (Nat.ltb_spec i (length (w_objs w))); [|discriminate]. injection H1 as <-.
           simpl in He. apply Hbnd in H2. lia.
        -- destruct (Nat.ltb_spec i (length (w_objs w))); [|discriminate]. injection H2 as <-.
           simpl in He. apply Hbnd in H1. lia.
      * destruct (Nat.eqb_spec i i1) as [->|N1].
        -- destruct (Nat.ltb_spec i1 (length (w_objs w))); [|discriminate]. injection H1 as <-.
           simpl in He. apply Hbnd in Ho. lia.
        -- exfalso. apply N1. symmetry. eapply Hdis; eauto.
      * destruct (Nat.eqb_spec i j) as [->|N1].
        -- destruct (Nat.ltb_spec j (length (w_objs w))); [|discriminate]. injection H2 as <-.
           simpl in He. apply Hbnd in Ho. lia.
        -- exfalso. apply N1. eapply Hdis; eauto.
  - (* Add *)
    destruct (nth_error s i) as [a|] eqn:Ea; [|discriminate].
    specialize (Hnc _ eq_refl).
    destruct (inv_lookup _ _ _ _ Hinv Ea) as (o & Ho & Hok).
    destruct a as [n l k]. simpl in Hnc. destruct k; [|congruence|discriminate..].
    injection Hs as <-.
    destruct Hok as [Hb (v & Hv & Hit & Hrepr)].
    destruct o as [ob ofull [itb itp] om].
    cbn [o_buf o_full o_it o_max a_n a_vals fst snd] in *. subst itb.
    destruct (own_add _ _ _ _ _ _ x Hrepr) as (old & v' & pos' & full' & m' & Hold & -> & Hrepr' & Hm & Hpos').
    assert (Hgoal : step w (Add i x) =
       Ok (World (upd (w_bufs w) ob (upd v itp x)) (upd (w_objs w) i (Obj ob full' (ob, pos') m')))).
    { simpl. unfold mh_add. rewrite Ho. cbn [o_buf o_full o_it o_max fst snd]. rewrite Hv.
      unfold load, store. cbn [fst snd]. rewrite Hv, Hold. cbn [bind].
      unfold iter_eqb. cbn [fst snd]. rewrite Nat.eqb_refl. cbn [andb].
      destruct ofull.
      - rewrite upd_same by (now apply nth_error_lt in Hv). cbn [bind].
        destruct Hm as [-> Hm]. subst pos'.
        destruct (gtb x om).
        + subst m'. cbn [bind]. destruct (Nat.eqb (S itp) (length v)); reflexivity.
        + destruct (eqb old om).
          * rewrite Hm. cbn [bind]. destruct (Nat.eqb (S itp) (length v)); reflexivity.
          * subst m'. cbn [bind]. destruct (Nat.eqb (S itp) (length v)); reflexivity.
      - destruct Hm as [-> ->]. subst pos'.
        destruct (Nat.eqb (S itp) (length v)); reflexivity. }
    simpl in Hgoal. rewrite Hgoal. eexists; split; [reflexivity|].
    split; [|split].
    + simpl. now rewrite !upd_length.
    + cbn [w_objs]. intros i' o' a' Hi' Ha'. rewrite nth_error_upd in Hi'. rewrite nth_error_upd in Ha'.
      destruct (Nat.eqb_spec i i') as [->|Hne].
      * destruct (Nat.ltb_spec i' (length (w_objs w))); [|discriminate].
        destruct (Nat.ltb_spec i' (length s)); [|discriminate].
        injection Hi' as <-. injection Ha' as <-.
        split; [simpl; now rewrite upd_length|]. cbn [a_kind a_n a_vals o_buf o_it o_full o_max fst snd].
        exists (upd v itp x). cbn [w_bufs]. split; [now apply upd_same|]. auto.
      * destruct (Hobj _ _ _ Hi' Ha') as [Hb' Hk']. split; [simpl; now rewrite upd_length|].
        destruct (a_kind a'); auto. destruct Hk' as (v1 & Hv1 & H1). exists v1. cbn [w_bufs].
        rewrite upd_other; [auto|]. intros Heq. apply Hne.
        eapply Hdis; [exact Ho|exact Hi'|]. simpl. congruence.
    + cbn [w_objs]. intros i1 j o1 o2 H1 H2 He. rewrite nth_error_upd in H1. rewrite nth_error_upd in H2.
      destruct (Nat.eqb_spec i i1) as [E1|N1]; destruct (Nat.eqb_spec i j) as [E2|N2]; eauto; try lia.
      * destruct (Nat.ltb_spec i (length (w_objs w))); [|discriminate]. injection H1 as <-.
        subst i1. eapply Hdis; eauto.
      * destruct (Nat.ltb_spec i (length (w_objs w))); [|discriminate]. injection H2 as <-.
        subst j. eapply Hdis; eauto.
  - (* CopyAssign *)
    destruct (nth_error s i) as [ai|] eqn:Eai; [|discriminate].
    destruct (nth_error s j) as [aj|] eqn:Eaj; [|destruct ai as [? ? []]; discriminate].
    destruct (inv_lookup _ _ _ _ Hinv Eai) as (oi & Hoi & Hoki).
    destruct (inv_lookup _ _ _ _ Hinv Eaj) as (oj & Hoj & Hokj).
    unfold mh_copy_assign. rewrite Hoi, Hoj.
    assert (Hs' : s' = (if Nat.eqb i j then s else upd s i (Abs (a_n aj) (a_vals aj) Copied)) /\ live (a_kind aj)).
    { unfold live. destruct ai as [? ? []], aj as [? ? []]; try discriminate; injection Hs as <-; auto. }
    clear Hs. destruct Hs' as [-> Hlive]. destruct (Nat.eqb_spec i j) as [->|Hij]; [eauto|].
    destruct (nth_error (w_bufs w) (o_buf oj)) as [v|] eqn:Ev; [|apply nth_error_None in Ev; destruct Hokj; lia].
    assert (Hmaxa : a_vals aj <> [] -> is_max (o_max oj) (window (a_n aj) (a_vals aj))).
    { intros Hv. destruct Hokj as [_ Hk]. destruct (a_kind aj); [|auto|destruct Hlive; discriminate..].
      destruct Hk as (v0 & _ & _ & Hr). now apply Hr. }
    pose proof (fun k ok => inv_bound w s k ok Hinv) as Hbnd. pose proof (Hbnd _ _ Hoi) as Hbi.
    destruct ip; eexists; (split; [reflexivity|]); (split; [simpl; now rewrite !upd_length|split]); cbn [w_objs].
    + intros k ok ak Hk Hak. apply nth_error_upd_inv in Hk as [(<- & -> & _)|[Nk Hk]];
        apply nth_error_upd_inv in Hak as [(Q & -> & _)|[Nak Hak]]; try congruence.
      * split; [simpl; rewrite upd_length; lia|]. exact Hmaxa.
      * apply (obj_ok_change w); [eauto|rewrite upd_length; lia|]. intros _. apply upd_other.
        intros E. apply Nk. eapply Hdis; eauto.
    + intros k l o1 o2 H1 H2 He. apply nth_error_upd_inv in H1 as [(<- & -> & _)|[N1 H1]];
        apply nth_error_upd_inv in H2 as [(Q & -> & _)|[N2 H2]]; auto; cbn [o_buf] in He.
      * eapply Hdis; eauto.
      * subst l. eapply Hdis; eauto.
      * eapply Hdis; eauto.
    + intros k ok ak Hk Hak. apply nth_error_upd_inv in Hk as [(<- & -> & _)|[Nk Hk]];
        apply nth_error_upd_inv in Hak as [(Q & -> & _)|[Nak Hak]]; try congruence.
      * split; [simpl; rewrite app_length, upd_length; simpl; lia|]. exact Hmaxa.
      * apply (obj_ok_change w); [eauto|rewrite app_length, upd_length; simpl; lia|]. intros _.
        rewrite nth_error_app1 by (rewrite upd_length; eauto). apply upd_other.
        intros E. apply Nk. eapply Hdis; eauto.
    + intros k l o1 o2 H1 H2 He. apply nth_error_upd_inv in H1 as [(<- & -> & _)|[N1 H1]];
        apply nth_error_upd_inv in H2 as [(Q & -> & _)|[N2 H2]]; auto; cbn [o_buf] in He.
      * apply Hbnd in H2. lia.
      * apply Hbnd in H1. lia.
      * eapply Hdis; eauto.
  - (* MoveAssign *)
    destruct (nth_error s i) as [ai|] eqn:Eai; [|discriminate].
    destruct (nth_error s j) as [aj|] eqn:Eaj; [|destruct ai as [? ? []]; discriminate].
    destruct (inv_lookup _ _ _ _ Hinv Eai) as (oi & Hoi & Hoki).
    destruct (inv_lookup _ _ _ _ Hinv Eaj) as (oj & Hoj & Hokj).
    unfold mh_move_assign. rewrite Hoi, Hoj.
    assert (Hs' : i <> j /\ s' = upd (upd s j (Abs (a_n aj) (a_vals aj) MovedFrom)) i aj).
    { destruct (Nat.eqb_spec i j) as [E|E]; destruct ai as [? ? []], aj as [? ? []]; try discriminate; injection Hs as <-; auto. }
    clear Hs. destruct Hs' as [Hij ->].
    pose proof (fun k ok => inv_bound w s k ok Hinv) as Hbnd. pose proof (Hbnd _ _ Hoi) as Hbi. pose proof (Hbnd _ _ Hoj) as Hbj.
    assert (Hbij : o_buf oi <> o_buf oj) by (intros E; apply Hij; eapply Hdis; eauto).
    eexists; (split; [reflexivity|]); (split; [simpl; now rewrite !upd_length|split]); cbn [w_objs].
    + intros k ok ak Hk Hak.
      apply nth_error_upd_inv in Hk as [(<- & -> & _)|[Nk Hk]]; apply nth_error_upd_inv in Hak as [(Q & -> & _)|[Nak Hak]]; try congruence.
      * apply (obj_ok_change w); [assumption|rewrite app_length, upd_length; simpl; lia|]. intros _.
        rewrite nth_error_app1 by (rewrite upd_length; eauto). now apply upd_other.
      * apply nth_error_upd_inv in Hk as [(<- & -> & _)|[Nk2 Hk]]; apply nth_error_upd_inv in Hak as [(Q & -> & _)|[Nak2 Hak]]; try congruence.
        -- split; [simpl; rewrite app_length, upd_length; simpl; lia|]. exact I.
        -- apply (obj_ok_change w); [eauto|rewrite app_length, upd_length; simpl; lia|]. intros _.
           rewrite nth_error_app1 by (rewrite upd_length; eauto). apply upd_other.
           intros E. apply Nk. eapply Hdis; eauto.
    + intros k l o1 o2 H1 H2 He.
      assert (X : forall k o, nth_error (upd (upd (w_objs w) j (Obj (length (w_bufs w)) (o_full oj) (o_it oj) (o_max oj))) i oj) k = Some o ->
        (k = i /\ o_buf o = o_buf oj) \/ (k = j /\ o_buf o = length (w_bufs w)) \/ (k <> i /\ k <> j /\ nth_error (w_objs w) k = Some o)).
      { intros k0 o0 H0. apply nth_error_upd_inv in H0 as [(<- & -> & _)|[Nk Hk]]; [auto|].
        apply nth_error_upd_inv in Hk as [(<- & -> & _)|[Nk2 Hk]]; [auto|]. right. right. auto. }
      apply X in H1 as [[-> E1]|[[-> E1]|(A1 & B1 & H1)]]; apply X in H2 as [[-> E2]|[[-> E2]|(A2 & B2 & H2)]];
        auto; try lia; rewrite ?E1, ?E2 in He.
      * exfalso. apply B2. eapply Hdis; [exact H2|exact Hoj|congruence].
      * apply Hbnd in H2. lia.
      * exfalso. apply B1. eapply Hdis; [exact H1|exact Hoj|congruence].
      * apply Hbnd in H1. lia.
      * eapply Hdis; eauto.
  - (* Destroy *)
    destruct (nth_error s i) as [a|] eqn:Ea; [|discriminate].
    destruct (inv_lookup _ _ _ _ Hinv Ea) as (o & Ho & Hok).
    unfold mh_destroy. rewrite Ho. eexists. split; [reflexivity|].
    assert (Hs' : s' = upd s i (Abs (a_n a) (a_vals a) Destroyed)).
    { destruct a as [? ? []]; try discriminate; injection Hs as <-; auto. }
    subst s'. split; [simpl; now rewrite upd_length|split]; cbn [w_objs]; [|exact Hdis].
    intros k ok ak Hk Hak. apply nth_error_upd_inv in Hak as [(<- & -> & _)|[Nak Hak]].
    + split; [|exact I]. simpl. rewrite upd_length. eapply inv_bound; eauto.
    + apply (obj_ok_change w); [eauto|rewrite upd_length; lia|]. intros _. apply upd_other.
      intros E. apply Nak. eapply Hdis; eauto.
Qed.

Lemma run_inv ops : forall w s s',
  inv w s -> spec_run s ops = Some s' -> no_add_to_copy s ops ->
  exists w', run w ops = Ok w' /\ inv w' s'.
Proof.
  induction ops as [|o ops IH]; cbn [spec_run no_add_to_copy MaxHistory_Model.run]; intros w s s' Hinv Hs Hc.
  - injection Hs as <-. eauto.
  - destruct (spec_step s o) as [s1|] eqn:E; [|discriminate]. destruct Hc as [Hc1 Hc2].
    destruct (step_inv _ _ _ _ Hinv E Hc1) as (w1 & Hw1 & Hinv1).
    rewrite Hw1. cbn [bind]. eauto.
Qed.

Lemma inv_init : inv (init) [].
Proof. split; [reflexivity|]. split; intros i; destruct i; discriminate. Qed.

Lemma run_correct ops s :
  spec_run [] ops = Some s -> no_add_to_copy [] ops ->
  exists w, run init ops = Ok w /\
    forall i n vals k, nth_error s i = Some (Abs n vals k) -> live k -> vals <> [] ->
      exists m, mh_max w i = Ok m /\ is_max m (window n vals).
Proof.
  intros Hs Hc. destruct (run_inv ops init [] s inv_init Hs Hc) as (w & Hw & Hinv).
  exists w. split; [exact Hw|]. intros i n vals k Hi Hk Hv.
  destruct (inv_lookup _ _ _ _ Hinv Hi) as (o & Ho & Hok).
  unfold mh_max. rewrite Ho. exists (o_max o). split; [reflexivity|].
  destruct Hok as [_ Hok]. cbn [a_kind a_n a_vals] in Hok. destruct k; [|auto|destruct Hk; discriminate..].
  destruct Hok as (v & _ & _ & Hr). now apply Hr.
Qed.

Lemma spec_adds n (vals0 : list T) k xs : live k ->
  spec_run [Abs n vals0 k] (map (Add 0) xs) = Some [Abs n (vals0 ++ xs) k].
Proof.
  intros Hk. revert vals0; induction xs as [|x xs IH]; intros vals0.
  - simpl. now rewrite app_nil_r.
  - cbn [map spec_run spec_step nth_error].
    assert (E : spec_step [Abs n vals0 k] (Add 0 x) = Some [Abs n (vals0 ++ [x]) k]).
    { simpl. destruct k; try reflexivity; destruct Hk; discriminate. }
    cbn [spec_step nth_error] in E. rewrite E.
    rewrite IH. rewrite <- app_assoc. reflexivity.
Qed.

Lemma noc_adds n (vals0 xs : list T) :
  no_add_to_copy [Abs n vals0 Original] (map (Add 0) xs).
Proof.
  revert vals0; induction xs as [|x xs IH]; intros vals0; [exact I|].
  cbn [map no_add_to_copy]. split.
  - cbn. intros a [= <-]. discriminate.
  - simpl. apply IH.
Qed.

Lemma single_correct n xs : 0 < n -> xs <> [] ->
  exists w m, run init (New n :: map (Add 0) xs) = Ok w /\
    mh_max w 0 = Ok m /\ is_max m (window n xs).
Proof.
  intros Hn Hx. destruct n as [|n]; [lia|].
  destruct (run_correct (New (S n) :: map (Add 0) xs) [Abs (S n) xs Original]) as (w & Hw & H).
  - cbn [spec_run spec_step app]. rewrite spec_adds by (now left). reflexivity.
  - cbn [no_add_to_copy spec_step app]. split; [exact I|apply noc_adds].
  - destruct (H 0 _ _ _ eq_refl) as (m & Hm & Hmax); [now left|assumption|].
    eauto.
Qed.
End Proofs.
