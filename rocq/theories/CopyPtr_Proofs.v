From Verif Require Import Base CopyPtr_Model CopyPtr_Spec.
Local Open Scope outcome_scope.
Local Arguments Nat.eqb : simpl never.
Local Arguments Nat.ltb : simpl never.

Section Proofs.
Context {V : Type}.
Implicit Types (w : world V) (h : list (cell V)) (s : @vvars V).

(** What variable [x] shows when its pointer is followed. *)
Definition shows h (p : option nat) (x : option V) : Prop :=
  match p, x with
  | None, None => True
  | Some a, Some v => nth_error h a = Some (Cell v false)
  | _, _ => False
  end.
Definition vrel h (p : option (option nat)) (x : option (option V)) : Prop :=
  match p, x with
  | None, None => True
  | Some p, Some x => shows h p x
  | _, _ => False
  end.
Definition owns (a : nat) (p : option (option nat)) : nat :=
  match p with Some (Some b) => if Nat.eqb b a then 1 else 0 | _ => 0 end.

Record inv w s : Prop := {
  inv_len : length (vars w) = length s;
  inv_rel : forall i p x, nth_error (vars w) i = Some p -> nth_error s i = Some x -> vrel (heap w) p x;
  inv_own : forall a c, nth_error (heap w) a = Some c -> sumf (owns a) (vars w) = if deleted c then 0 else 1;
}.

Lemma inv_empty : inv empty_world [].
Proof. split; [reflexivity| |]; intros [|?]; discriminate. Qed.

Lemma owner_alive w s i a : inv w s -> nth_error (vars w) i = Some (Some (Some a)) ->
  exists v, nth_error (heap w) a = Some (Cell v false) /\ nth_error s i = Some (Some (Some v)).
Proof.
  intros I Hi. destruct (nth_error s i) as [x|] eqn:E.
  - pose proof (inv_rel _ _ I _ _ _ Hi E) as R. destruct x as [[v|]|]; cbn in R; try contradiction. eauto.
  - apply nth_error_None in E. rewrite <- (inv_len _ _ I) in E. apply nth_error_None in E. congruence.
Qed.
Lemma null_null w s i : inv w s -> nth_error (vars w) i = Some (Some None) -> nth_error s i = Some (Some None).
Proof.
  intros I Hi. destruct (nth_error s i) as [x|] eqn:E.
  - pose proof (inv_rel _ _ I _ _ _ Hi E) as R. destruct x as [[v|]|]; cbn in R; try contradiction. reflexivity.
  - apply nth_error_None in E. rewrite <- (inv_len _ _ I) in E. apply nth_error_None in E. congruence.
Qed.
Lemma live_some w i p : live w i = Some p -> nth_error (vars w) i = Some (Some p).
Proof. unfold live. destruct (nth_error (vars w) i) as [[?|]|]; congruence. Qed.
Lemma live_vlive w s i : inv w s ->
  match live w i with
  | None => vlive s i = None
  | Some None => vlive s i = Some None
  | Some (Some a) => exists v, nth_error (heap w) a = Some (Cell v false) /\ vlive s i = Some (Some v)
  end.
Proof.
  intros I. destruct (live w i) as [[a|]|] eqn:E.
  - apply live_some in E. destruct (owner_alive w s i a I E) as (v & A & B). exists v. split; [exact A|].
    unfold vlive. now rewrite B.
  - apply live_some in E. unfold vlive. now rewrite (null_null w s i I E).
  - unfold live in E. unfold vlive. destruct (nth_error s i) as [x|] eqn:F; [|reflexivity].
    destruct (nth_error (vars w) i) as [p|] eqn:G.
    + pose proof (inv_rel _ _ I _ _ _ G F) as R. destruct p; [discriminate|]. destruct x; [contradiction|reflexivity].
    + apply nth_error_None in G. rewrite (inv_len _ _ I) in G. apply nth_error_None in G. congruence.
Qed.

(** Two variables owning the same cell are the same variable. *)
Lemma owns_unique w s i j a : inv w s ->
  nth_error (vars w) i = Some (Some (Some a)) -> nth_error (vars w) j = Some (Some (Some a)) -> i = j.
Proof.
  intros I Hi Hj. destruct (Nat.eq_dec i j) as [|N]; [assumption|exfalso].
  destruct (owner_alive w s i a I Hi) as (v & Hv & _).
  pose proof (inv_own _ _ I _ _ Hv) as Ho. cbn in Ho.
  pose proof (sumf_upd (owns a) (vars w) i _ None Hi) as Hs. cbn in Hs. rewrite Nat.eqb_refl in Hs.
  assert (Hj' : nth_error (upd (vars w) i None) j = Some (Some (Some a))) by (rewrite upd_other; auto).
  apply (sumf_ge (owns a)) in Hj'. cbn in Hj'. rewrite Nat.eqb_refl in Hj'. unfold sumf in *. lia.
Qed.

Lemma shows_app h c p x : shows h p x -> shows (h ++ [c]) p x.
Proof.
  destruct p as [a|], x as [v|]; cbn; auto. intros H. rewrite nth_error_app1; [exact H|]. apply nth_error_Some; congruence.
Qed.
Lemma vrel_app h c p x : vrel h p x -> vrel (h ++ [c]) p x.
Proof. destruct p, x; cbn; auto. apply shows_app. Qed.
Lemma shows_upd h a c p x : p <> Some a -> shows h p x -> shows (upd h a c) p x.
Proof. destruct p as [b|], x as [v|]; cbn; auto. intros N H. rewrite upd_other; [exact H|congruence]. Qed.

Lemma owns_out w s : inv w s -> sumf (owns (length (heap w))) (vars w) = 0.
Proof.
  intros I. destruct (sumf _ _) eqn:E; [reflexivity|].
  destruct (sumf_pos (owns (length (heap w))) (vars w)) as (i & x & Hi & Hx); [lia|].
  destruct x as [[b|]|]; cbn in Hx; try lia. destruct (Nat.eqb_spec b (length (heap w))) as [->|]; [|lia].
  destruct (owner_alive w s i _ I Hi) as (v & Hv & _). exfalso. apply (Nat.lt_irrefl (length (heap w))).
  apply nth_error_Some. congruence.
Qed.

(** Pushing a variable, with or without a new cell. *)
Lemma push_new w s v : inv w s -> inv (World (heap w ++ [Cell v false]) (vars w ++ [Some (Some (length (heap w)))])) (s ++ [Some (Some v)]).
Proof.
  intros I. split; cbn [heap vars].
  - rewrite !app_length. now rewrite (inv_len _ _ I).
  - intros i p x. rewrite !nth_error_snoc, (inv_len _ _ I). destruct (Nat.ltb i (length s)).
    + intros Hp Hx. apply vrel_app. eapply inv_rel; eauto.
    + destruct (Nat.eqb i (length s)); [|discriminate]. intros [= <-] [= <-]. cbn.
      rewrite nth_error_app2, Nat.sub_diag by lia. reflexivity.
  - intros a c. rewrite nth_error_snoc, sumf_app. cbn [sumf fold_right owns]. destruct (Nat.ltb_spec a (length (heap w))).
    + intros Hc. destruct (Nat.eqb_spec (length (heap w)) a); [lia|]. pose proof (inv_own _ _ I _ _ Hc). unfold sumf in *; lia.
    + destruct (Nat.eqb_spec a (length (heap w))) as [->|]; [|discriminate]. intros [= <-]. rewrite Nat.eqb_refl.
      pose proof (owns_out _ _ I). unfold sumf in *. cbn. lia.
Qed.
Lemma push_null w s : inv w s -> inv (World (heap w) (vars w ++ [Some None])) (s ++ [Some None]).
Proof.
  intros I. split; cbn [heap vars].
  - rewrite !app_length. now rewrite (inv_len _ _ I).
  - intros i p x. rewrite !nth_error_snoc, (inv_len _ _ I). destruct (Nat.ltb i (length s)).
    + intros Hp Hx. eapply inv_rel; eauto.
    + destruct (Nat.eqb i (length s)); [|discriminate]. now intros [= <-] [= <-].
  - intros a c Hc. rewrite sumf_app. cbn. pose proof (inv_own _ _ I _ _ Hc). unfold sumf in *; lia.
Qed.

(** Giving up what variable [i] owns. *)
Lemma drop_var w s i p v' : inv w s -> nth_error (vars w) i = Some (Some p) -> (v' = None \/ v' = Some None) ->
  exists h', del (heap w) p = Ok h' /\ length h' = length (heap w) /\
    inv (World h' (upd (vars w) i v')) (upd s i (match v' with None => None | _ => Some None end)).
Proof.
  intros I Hi Hv'.
  assert (Li : i < length s) by (rewrite <- (inv_len _ _ I); apply nth_error_Some; congruence).
  assert (R0 : forall h', vrel h' v' (match v' with None => None | _ => Some None end)) by (intros; destruct Hv' as [-> | ->]; exact Logic.I).
  assert (O0 : forall a, owns a v' = 0) by (intros; destruct Hv' as [-> | ->]; reflexivity).
  destruct p as [a|].
  - destruct (owner_alive _ _ _ _ I Hi) as (v & Hv & _). cbn [del]. rewrite Hv. eexists; split; [reflexivity|].
    split; [apply upd_length|]. split; cbn [heap vars].
    + now rewrite !upd_length, (inv_len _ _ I).
    + intros j q x. rewrite !nth_error_upd, (inv_len _ _ I). destruct (Nat.eqb_spec i j) as [<-|N].
      * destruct (Nat.ltb i (length s)); [|discriminate]. intros [= <-] [= <-]. apply R0.
      * intros Hq Hx. pose proof (inv_rel _ _ I _ _ _ Hq Hx) as R. destruct q as [q|], x as [x|]; cbn in *; auto.
        apply shows_upd; [|exact R]. intros ->. apply N. eapply owns_unique; eauto.
    + intros b c. rewrite nth_error_upd. pose proof (sumf_upd (owns b) _ _ _ v' Hi) as Hs. rewrite O0 in Hs. cbn [owns] in Hs.
      destruct (Nat.eqb_spec a b) as [<-|N].
      * destruct (Nat.ltb a (length (heap w))); [|discriminate]. intros [= <-]. cbn.
        pose proof (inv_own _ _ I _ _ Hv) as Ho. cbn in Ho. lia.
      * intros Hc. pose proof (inv_own _ _ I _ _ Hc). lia.
  - cbn [del]. eexists; split; [reflexivity|]. split; [reflexivity|]. split; cbn [heap vars].
    + now rewrite !upd_length, (inv_len _ _ I).
    + intros j q x. rewrite !nth_error_upd, (inv_len _ _ I). destruct (Nat.eqb_spec i j) as [<-|N].
      * destruct (Nat.ltb i (length s)); [|discriminate]. intros [= <-] [= <-]. apply R0.
      * intros Hq Hx. eapply inv_rel; eauto.
    + intros b c Hc. pose proof (sumf_upd (owns b) _ _ _ v' Hi) as Hs. rewrite O0 in Hs. cbn [owns] in Hs.
      pose proof (inv_own _ _ I _ _ Hc). lia.
Qed.

Lemma upd_upd {A} (l : list A) i x y : upd (upd l i x) i y = upd l i y.
Proof. revert i; induction l as [|z l IH]; intros [|i]; cbn; auto. now rewrite IH. Qed.
Lemma upd_comm {A} (l : list A) i j x y : i <> j -> upd (upd l i x) j y = upd (upd l j y) i x.
Proof. revert i j; induction l as [|z l IH]; intros [|i] [|j] H; cbn; auto; try congruence. now rewrite IH by lia. Qed.
Lemma upd_app_l {A} (l k : list A) i x : i < length l -> upd (l ++ k) i x = upd l i x ++ k.
Proof. revert i; induction l as [|z l IH]; intros [|i] H; cbn in *; auto; try lia. now rewrite IH by lia. Qed.
Lemma upd_nth {A} (l : list A) i x : nth_error l i = Some x -> upd l i x = l.
Proof. revert i; induction l as [|z l IH]; intros [|i] H; cbn in *; auto; try congruence. now rewrite IH. Qed.

Lemma upd_end {A} (l : list A) n x y : n = length l -> upd (l ++ [y]) n x = l ++ [x].
Proof. intros ->. apply upd_app_mid. Qed.

(** Moving the contents of variable [j] into a null variable [i]. *)
Lemma move_var w s i j q : inv w s -> i <> j ->
  nth_error (vars w) i = Some (Some None) -> nth_error (vars w) j = Some (Some q) ->
  exists x, nth_error s j = Some (Some x) /\
  inv (World (heap w) (upd (upd (vars w) j (Some None)) i (Some q))) (upd (upd s j (Some None)) i (Some x)).
Proof.
  intros I N Hi Hj.
  assert (X : exists x, nth_error s j = Some (Some x) /\ shows (heap w) q x).
  { destruct q as [a|].
    - destruct (owner_alive _ _ _ _ I Hj) as (v & A & B). exists (Some v). auto.
    - exists None. split; [eapply null_null; eauto|exact Logic.I]. }
  destruct X as (x & Hx & Sx). exists x. split; [exact Hx|]. split; cbn [heap vars].
  - now rewrite !upd_length, (inv_len _ _ I).
  - intros k p y. rewrite !nth_error_upd, !upd_length, (inv_len _ _ I).
    destruct (Nat.eqb_spec i k) as [<-|Nk].
    + destruct (Nat.ltb i (length s)); [|discriminate]. intros [= <-] [= <-]. exact Sx.
    + destruct (Nat.eqb_spec j k) as [<-|Nj].
      * destruct (Nat.ltb j (length s)); [|discriminate]. intros [= <-] [= <-]. exact Logic.I.
      * apply (inv_rel _ _ I).
  - intros b c Hc. pose proof (sumf_upd (owns b) _ _ _ (Some None) Hj) as Hs.
    assert (Hi' : nth_error (upd (vars w) j (Some None)) i = Some (Some None)) by (rewrite upd_other; auto).
    pose proof (sumf_upd (owns b) _ _ _ (Some q) Hi') as Hs'. pose proof (inv_own _ _ I _ _ Hc). cbn [owns] in Hs, Hs'. lia.
Qed.

Lemma vlive_some s i x : vlive s i = Some x -> nth_error s i = Some (Some x).
Proof. unfold vlive. destruct (nth_error s i) as [[?|]|]; congruence. Qed.

Lemma step_inv o w s : inv w s -> exists w', step o w = Ok w' /\ inv w' (vstep o s).
Proof.
  intros I. destruct o as [v| |i f|i|i j f|i j|i v|i]; cbn [step vstep].
  - eexists; split; [reflexivity|]. now apply push_new.
  - eexists; split; [reflexivity|]. now apply push_null.
  - pose proof (live_vlive w s i I) as L. destruct (live w i) as [[a|]|].
    + destruct L as (v & Hv & ->). cbn [clone]. unfold deref. rewrite Hv. cbn [bind].
      destruct f; [eauto|]. eexists; split; [reflexivity|]. now apply push_new.
    + rewrite L. cbn [clone]. eexists; split; [reflexivity|]. now apply push_null.
    + rewrite L. eauto.
  - pose proof (live_vlive w s i I) as L. destruct (live w i) as [p|] eqn:E.
    + apply live_some in E.
      assert (Li : i < length (vars w)) by (apply nth_error_Some; congruence).
      pose proof (push_null w s I) as I'.
      destruct (move_var _ _ (length (vars w)) i p I') as (x & Hx & I''); cbn [heap vars].
      * lia.
      * rewrite nth_error_app2, Nat.sub_diag by lia. reflexivity.
      * rewrite nth_error_app1 by lia. exact E.
      * eexists; split; [reflexivity|]. cbn [heap vars] in I''.
        rewrite nth_error_app1 in Hx by (rewrite <- (inv_len _ _ I); lia).
        assert (Hl : vlive s i = Some x) by (unfold vlive; now rewrite Hx). rewrite Hl.
        replace (upd (upd (vars w ++ [Some None]) i (Some None)) (length (vars w)) (Some p)) with (upd (vars w) i (Some None) ++ [Some p]) in I''.
        2:{ rewrite upd_app_l by lia. rewrite upd_end by (now rewrite upd_length). reflexivity. }
        replace (upd (upd (s ++ [Some None]) i (Some None)) (length (vars w)) (Some x)) with (upd s i (Some None) ++ [Some x]) in I''.
        2:{ rewrite (inv_len _ _ I) in *. rewrite upd_app_l by lia. rewrite upd_end by (now rewrite upd_length). reflexivity. }
        exact I''.
    + rewrite L. eauto.
  - pose proof (live_vlive w s i I) as L. pose proof (live_vlive w s j I) as L'.
    destruct (live w i) as [p|] eqn:E; [|rewrite L; eauto].
    assert (Ls : exists y, vlive s i = Some y) by (destruct p; [destruct L as (v & _ & ->)|rewrite L]; eauto).
    destruct Ls as (y & ->).
    destruct (live w j) as [[b|]|] eqn:F; [| |rewrite L'; eauto].
    + destruct L' as (v & Hv & ->). cbn [clone]. unfold deref. rewrite Hv. cbn [bind]. destruct f; [eauto|].
      apply live_some in E.
      (* allocate the copy in a temporary, drop the old value, move the temporary in *)
      pose proof (push_new w s v I) as I1.
      assert (Li : i < length (vars w)) by (apply nth_error_Some; congruence).
      assert (E1 : nth_error (vars w ++ [Some (Some (length (heap w)))]) i = Some (Some p)) by (rewrite nth_error_app1; auto).
      destruct (drop_var _ _ i p (Some None) I1 E1 (or_intror eq_refl)) as (h' & Hd & Hlen & I2). cbn [heap vars] in *.
      rewrite Hd. cbn [bind]. eexists; split; [reflexivity|].
      rewrite !upd_app_l in I2 by (rewrite <- ?(inv_len _ _ I); lia).
      set (n := length (vars w)) in *.
      destruct (move_var _ _ i n (Some (length (heap w))) I2) as (x & Hx & I3); cbn [heap vars] in *.
      * lia.
      * rewrite nth_error_app1 by (rewrite upd_length; lia). now apply upd_same.
      * rewrite nth_error_app2 by (rewrite upd_length; lia). rewrite upd_length. subst n. now rewrite Nat.sub_diag.
      * rewrite nth_error_app2 in Hx by (rewrite upd_length, <- (inv_len _ _ I); lia).
        rewrite upd_length, <- (inv_len _ _ I) in Hx. subst n. rewrite Nat.sub_diag in Hx. injection Hx as <-.
        destruct (drop_var _ _ (length (vars w)) None None I3) as (h3 & Hd3 & _ & I4); cbn [heap vars] in *.
        { rewrite upd_other by lia. rewrite upd_same; [reflexivity|]. rewrite app_length, upd_length; cbn; lia. }
        { now left. }
        injection Hd3 as <-.
        assert (I5 : inv (World h' (upd (vars w) i (Some (Some (length (heap w)))) ++ [None])) (upd s i (Some (Some v)) ++ [None])).
        { replace (upd (vars w) i (Some (Some (length (heap w)))) ++ [None]) with
            (upd (upd (upd (upd (vars w) i (Some None) ++ [Some (Some (length (heap w)))]) (length (vars w)) (Some None)) i (Some (Some (length (heap w))))) (length (vars w)) None).
          2:{ rewrite upd_end by (now rewrite upd_length). rewrite upd_app_l by (rewrite upd_length; lia). rewrite upd_upd. rewrite upd_end by (now rewrite upd_length). reflexivity. }
          replace (upd s i (Some (Some v)) ++ [None]) with
            (upd (upd (upd (upd s i (Some None) ++ [Some (Some v)]) (length (vars w)) (Some None)) i (Some (Some v))) (length (vars w)) None).
          2:{ rewrite (inv_len _ _ I) in *. rewrite upd_end by (now rewrite upd_length). rewrite upd_app_l by (rewrite upd_length; lia). rewrite upd_upd. rewrite upd_end by (now rewrite upd_length). reflexivity. }
          exact I4. }
        split; cbn [heap vars].
        -- now rewrite !upd_length, (inv_len _ _ I).
        -- intros k q z Hq Hz. apply (inv_rel _ _ I5 k); cbn [vars]; rewrite nth_error_app1; auto; apply nth_error_Some; congruence.
        -- intros b' c Hc. pose proof (inv_own _ _ I5 b' c Hc) as Ho. cbn [vars] in Ho. rewrite sumf_app in Ho. cbn [sumf fold_right owns] in Ho. unfold sumf in *. lia.
    + rewrite L'. cbn [clone]. apply live_some in E.
      destruct (drop_var _ _ i p (Some None) I E (or_intror eq_refl)) as (h' & -> & _ & I2). cbn [bind]. eauto.
  - pose proof (live_vlive w s i I) as L. pose proof (live_vlive w s j I) as L'.
    destruct (live w i) as [p|] eqn:E; [|rewrite L; eauto].
    assert (Ls : exists y, vlive s i = Some y) by (destruct p; [destruct L as (v & _ & ->)|rewrite L]; eauto).
    destruct Ls as (y & Hy). rewrite Hy.
    destruct (live w j) as [q|] eqn:F; [|rewrite L'; eauto].
    apply live_some in E. apply live_some in F.
    assert (Li : i < length (vars w)) by (apply nth_error_Some; congruence).
    assert (Ls : exists x, vlive s j = Some x) by (destruct q; [destruct L' as (v & _ & ->)|rewrite L']; eauto).
    destruct Ls as (x & Hx). rewrite Hx. rewrite nth_error_upd.
    destruct (Nat.eqb_spec j i) as [->|N].
    + destruct (Nat.ltb_spec i (length (vars w))); [|lia]. cbn [del bind]. eexists; split; [reflexivity|].
      rewrite !upd_upd. apply vlive_some in Hx. rewrite (upd_nth s i (Some x) Hx).
      rewrite (upd_nth (vars w) i (Some q)) by congruence. destruct w; exact I.
    + rewrite E. destruct (drop_var _ _ i p (Some None) I E (or_intror eq_refl)) as (h' & -> & _ & I2). cbn [bind].
      eexists; split; [reflexivity|].
      destruct (move_var _ _ i j q I2) as (z & Hz & I3); cbn [heap vars] in *.
      * congruence.
      * now apply upd_same.
      * rewrite upd_other; auto.
      * rewrite upd_other in Hz by auto. apply vlive_some in Hx. assert (z = x) by congruence; subst z.
        rewrite !(upd_comm _ i j), !upd_upd in I3 by auto. exact I3.
  - pose proof (live_vlive w s i I) as L. destruct (live w i) as [[a|]|] eqn:E; [|rewrite L; eauto|rewrite L; eauto].
    destruct L as (u & Hu & ->). unfold deref. rewrite Hu. cbn [bind]. eexists; split; [reflexivity|]. apply live_some in E.
    split; cbn [heap vars].
    + now rewrite upd_length, (inv_len _ _ I).
    + intros k p x Hp Hx. rewrite nth_error_upd in Hx. destruct (Nat.eqb_spec i k) as [<-|N].
      * destruct (Nat.ltb i (length s)); [|discriminate]. injection Hx as <-. rewrite E in Hp. injection Hp as <-. cbn.
        apply upd_same. apply nth_error_Some; congruence.
      * pose proof (inv_rel _ _ I _ _ _ Hp Hx) as R. destruct p as [p|], x as [x|]; cbn in *; auto.
        apply shows_upd; [|exact R]. intros ->. apply N. eapply owns_unique; eauto.
    + intros b c. rewrite nth_error_upd. destruct (Nat.eqb_spec a b) as [<-|N]; [|apply (inv_own _ _ I)].
      destruct (Nat.ltb a (length (heap w))); [|discriminate]. intros [= <-]. cbn. apply (inv_own _ _ I _ _ Hu).
  - pose proof (live_vlive w s i I) as L. destruct (live w i) as [p|] eqn:E; [|rewrite L; eauto].
    assert (Ls : exists y, vlive s i = Some y) by (destruct p; [destruct L as (v & _ & ->)|rewrite L]; eauto).
    destruct Ls as (y & ->). apply live_some in E.
    destruct (drop_var _ _ i p None I E (or_introl eq_refl)) as (h' & -> & _ & I2). cbn [bind]. eauto.
Qed.

Lemma run_inv os : exists w, run os empty_world = Ok w /\ inv w (vrun os).
Proof.
  unfold vrun. assert (H : forall os w s, inv w s -> exists w', run os w = Ok w' /\ inv w' (fold_left (fun s o => vstep o s) os s)).
  { clear os. induction os as [|o os IH]; intros w s I; cbn [run fold_left]; [eauto|].
    destruct (step_inv o w s I) as (w' & -> & I'). cbn [bind]. auto. }
  apply H, inv_empty.
Qed.

Definition reads (w : world V) (i : nat) : outcome (option (option V)) :=
  match live w i with
  | None => Ok None
  | Some None => Ok (Some None)
  | Some (Some a) => v <- deref (heap w) a ;; Ok (Some (Some v))
  end.

Lemma copyptr_main os :
  exists w, run os empty_world = Ok w /\
    (forall i, reads w i = Ok (vlive (vrun os) i)) /\
    (forall i j a, live w i = Some (Some a) -> live w j = Some (Some a) -> i = j) /\
    (forall a c, nth_error (heap w) a = Some c -> (deleted c = false <-> exists i, live w i = Some (Some a))).
Proof.
  destruct (run_inv os) as (w & R & I). exists w. split; [exact R|]. split; [|split].
  - intros i. pose proof (live_vlive w _ i I) as L. unfold reads. destruct (live w i) as [[a|]|].
    + destruct L as (v & Hv & ->). unfold deref. rewrite Hv. reflexivity.
    + now rewrite L.
    + now rewrite L.
  - intros i j a Hi Hj. apply live_some in Hi. apply live_some in Hj. eapply owns_unique; eauto.
  - intros a c Hc. pose proof (inv_own _ _ I _ _ Hc) as Ho. split.
    + intros D. rewrite D in Ho. destruct (sumf_pos (owns a) (vars w)) as (i & x & Hi & Hx); [lia|].
      destruct x as [[b|]|]; cbn in Hx; try lia. destruct (Nat.eqb_spec b a) as [->|]; [|lia].
      exists i. unfold live. now rewrite Hi.
    + intros (i & Hi). apply live_some in Hi. destruct (owner_alive _ _ _ _ I Hi) as (v & Hv & _).
      rewrite Hv in Hc. now injection Hc as <-.
Qed.
End Proofs.
