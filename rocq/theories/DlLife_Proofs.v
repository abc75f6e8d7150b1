(** Invariant of programs that use load_lib and load_func. *)
From Verif Require Import Base Dl_Model DlLife_Model.
Local Open Scope outcome_scope.

Definition is_some_c (c : nat) (v : option nat) : nat := match v with Some d => if Nat.eqb d c then 1 else 0 | None => 0 end.
Definition of_lib (l : nat) (b : block) : nat := match b with Some (l', _) => if Nat.eqb l' l then 1 else 0 | None => 0 end.

Record inv (ext : nat -> nat) (e : option nat) (w : world) : Prop := {
  I_block : forall c l n, nth_error (blocks w) c = Some (Some (l, n)) -> n = sumf (is_some_c c) (vars w) + is_some_c c e /\ 0 < n;
  I_var : forall x c, nth_error (vars w) x = Some (Some c) -> exists l n, nth_error (blocks w) c = Some (Some (l, n));
  I_extra : forall c, e = Some c -> exists l n, nth_error (blocks w) c = Some (Some (l, n));
  I_refs : forall l, refs (ld w) l = ext l + sumf (of_lib l) (blocks w);
  I_fps : forall p l g, nth_error (fps w) p = Some (Some (l, g)) -> g <= unmaps (ld w) l /\ (mapped (ld w) l = false -> g < unmaps (ld w) l) }.

(** How the loader changes in one step. *)
Record trans (a b : loader) : Prop := {
  T_pin : forall l, pinned a l = true -> pinned b l = true;
  T_mono : forall l, unmaps a l <= unmaps b l;
  T_keep : forall l, mapped a l = true -> mapped b l = true -> unmaps b l = unmaps a l;
  T_lost : forall l, mapped a l = true -> mapped b l = false -> unmaps a l < unmaps b l }.
Lemma trans_refl a : trans a a.
Proof. constructor; auto. intros; congruence. Qed.
Lemma put_eq {A} (f : nat -> A) k x : put f k x k = x. Proof. unfold put. now rewrite Nat.eqb_refl. Qed.
Lemma put_ne {A} (f : nat -> A) k x i : i <> k -> put f k x i = f i. Proof. intros H. unfold put. now rewrite (proj2 (Nat.eqb_neq i k)). Qed.
Lemma open_mapped fl l a k : mapped a k = true -> mapped (open_lib fl l a) k = true.
Proof.
  unfold mapped, open_lib. cbn [refs pinned]. destruct (Nat.eq_dec k l) as [->|N]; [rewrite !put_eq; reflexivity|]. rewrite !put_ne by exact N. auto.
Qed.
Lemma open_self fl l a : mapped (open_lib fl l a) l = true.
Proof. unfold mapped, open_lib. cbn [refs]. rewrite put_eq. reflexivity. Qed.
Lemma open_trans fl l a : trans a (open_lib fl l a).
Proof.
  constructor; cbn [open_lib unmaps pinned]; auto.
  - intros k H. destruct (Nat.eq_dec k l) as [->|N]; [rewrite put_eq, H; reflexivity|now rewrite put_ne].
  - intros k H K. rewrite (open_mapped fl l a k H) in K. discriminate K.
Qed.
Lemma grow_trans fl l a b : trans (open_lib fl l a) b -> trans a b.
Proof.
  intros [P M K L]. pose proof (open_trans fl l a) as [P' M' K' L']. constructor; auto.
  - intros k H1 H2. rewrite (K k (open_mapped fl l a k H1) H2). reflexivity.
  - intros k H1 H2. exact (L k (open_mapped fl l a k H1) H2).
Qed.
Lemma close_trans l a b : close_lib l a = Ok b -> trans a b.
Proof.
  unfold close_lib. destruct (refs a l) as [|n] eqn:E; [discriminate|]. intros H. injection H as <-. constructor; cbn [pinned unmaps]; auto.
  - intros k. destruct (Nat.eqb n 0 && negb (pinned a l)); [|reflexivity]. unfold put. destruct (Nat.eqb_spec k l) as [->|]; lia.
  - intros k H K. unfold mapped in K. cbn [refs pinned] in K. destruct (Nat.eqb_spec n 0) as [->|N]; cbn [andb]; [|reflexivity].
    destruct (pinned a l) eqn:Ep; cbn [negb]; [reflexivity|]. destruct (Nat.eq_dec k l) as [->|N]; [rewrite put_eq, Ep in K; discriminate K|now rewrite put_ne].
  - intros k H K. unfold mapped in *. cbn [refs pinned] in K. apply orb_false_iff in K. destruct K as [K1 K2]. rewrite K2, orb_false_r in H.
    destruct (Nat.eq_dec k l) as [->|N]; [|rewrite put_ne in K1 by exact N; congruence]. rewrite put_eq in K1. apply Nat.ltb_ge in K1. assert (n = 0) as -> by lia.
    rewrite K2. cbn [Nat.eqb negb andb]. rewrite put_eq. lia.
Qed.
Lemma fps_trans (w : world) ld' : (forall p l g, nth_error (fps w) p = Some (Some (l, g)) -> g <= unmaps (ld w) l /\ (mapped (ld w) l = false -> g < unmaps (ld w) l)) -> trans (ld w) ld' ->
  forall p l g, nth_error (fps w) p = Some (Some (l, g)) -> g <= unmaps ld' l /\ (mapped ld' l = false -> g < unmaps ld' l).
Proof.
  intros H [_ M K L] p l g Hp. destruct (H p l g Hp) as [H1 H2]. specialize (M l). split; [lia|]. intros E.
  destruct (mapped (ld w) l) eqn:Em; [specialize (L l Em E); lia|specialize (H2 eq_refl); lia].
Qed.

Lemma sumf_upd_eq {A} (f : A -> nat) l i x y : nth_error l i = Some x -> f x = f y -> sumf f (upd l i y) = sumf f l.
Proof. intros H E. pose proof (sumf_upd f l i x y H). lia. Qed.

Lemma release_ok ext e w : inv ext e w ->
  exists w', release e w = Ok w' /\ inv ext None w' /\ vars w' = vars w /\ fps w' = fps w /\ trans (ld w) (ld w') /\ (forall l, pinned (ld w') l = pinned (ld w) l).
Proof.
  intros [B V X R F]. destruct e as [c|]; cbn [release].
  - destruct (X c eq_refl) as (l & n & Hc). rewrite Hc. destruct (B c l n Hc) as [En Pn]. cbn [is_some_c] in En. rewrite Nat.eqb_refl in En.
    assert (Lc : c < length (blocks w)) by (apply nth_error_Some; congruence).
    destruct n as [|[|n]]; [lia| |].
    + assert (G : 0 < refs (ld w) l). { rewrite R. pose proof (sumf_ge (of_lib l) (blocks w) c _ Hc) as K. cbn [of_lib] in K. rewrite Nat.eqb_refl in K. lia. }
      unfold close_lib at 1. destruct (refs (ld w) l) as [|m] eqn:Er; [lia|]. cbn [bind].
      assert (Hcl : close_lib l (ld w) = Ok (Loader (put (refs (ld w)) l m) (pinned (ld w)) (if Nat.eqb m 0 && negb (pinned (ld w) l) then put (unmaps (ld w)) l (S (unmaps (ld w) l)) else unmaps (ld w)))) by (unfold close_lib; now rewrite Er).
      pose proof (close_trans _ _ _ Hcl) as T. eexists. split; [reflexivity|]. cbn [vars fps ld pinned]. split; [|auto]. constructor; cbn [blocks vars ld fps].
      * intros c' l' n' H. rewrite nth_error_upd in H. destruct (Nat.eqb_spec c c') as [<-|N]; [destruct (Nat.ltb c (length (blocks w))); discriminate H|].
        destruct (B c' l' n' H) as [E1 E2]. cbn [is_some_c] in E1 |- *. rewrite (proj2 (Nat.eqb_neq c c') N) in E1. auto.
      * intros x d Hx. destruct (Nat.eq_dec d c) as [->|N].
        -- exfalso. pose proof (sumf_ge (is_some_c c) (vars w) x _ Hx) as K. cbn [is_some_c] in K. rewrite Nat.eqb_refl in K. lia.
        -- destruct (V x d Hx) as (l' & n' & Hd). exists l', n'. rewrite upd_other by congruence. exact Hd.
      * discriminate.
      * intros k. cbn [refs]. pose proof (sumf_upd (of_lib k) (blocks w) c _ None Hc) as K. cbn [of_lib] in K. destruct (Nat.eq_dec k l) as [->|N].
        -- rewrite put_eq. rewrite Nat.eqb_refl in K. specialize (R l). lia.
        -- rewrite put_ne by exact N. rewrite (proj2 (Nat.eqb_neq l k)) in K by congruence. specialize (R k). lia.
      * exact (fps_trans w _ F T).
    + eexists. split; [reflexivity|]. cbn [vars fps ld]. split; [|repeat split; auto using trans_refl; apply trans_refl]. constructor; cbn [blocks vars ld fps]; auto.
      * intros c' l' n' H. rewrite nth_error_upd in H. destruct (Nat.eqb_spec c c') as [<-|N].
        -- rewrite (proj2 (Nat.ltb_lt _ _) Lc) in H. injection H as <- <-. cbn [is_some_c]. lia.
        -- destruct (B c' l' n' H) as [E1 E2]. cbn [is_some_c] in E1 |- *. rewrite (proj2 (Nat.eqb_neq c c') N) in E1. auto.
      * intros x d Hx. destruct (V x d Hx) as (l' & n' & Hd). rewrite nth_error_upd. destruct (Nat.eqb_spec c d) as [<-|N]; [rewrite (proj2 (Nat.ltb_lt _ _) Lc); eauto|eauto].
      * discriminate.
      * intros k. rewrite R. f_equal. symmetry. apply (sumf_upd_eq _ _ _ _ _ Hc). reflexivity.
  - exists w. split; [reflexivity|]. split; [constructor; auto|]. repeat split; auto using trans_refl; apply trans_refl.
Qed.

Lemma assign_ok ext x new w : inv ext new w -> x < length (vars w) ->
  exists w', assign x new w = Ok w' /\ inv ext None w' /\ vars w' = upd (vars w) x new /\ fps w' = fps w /\ trans (ld w) (ld w') /\ (forall l, pinned (ld w') l = pinned (ld w) l).
Proof.
  intros [B V X R F] Lx. unfold assign. destruct (nth_error (vars w) x) as [old|] eqn:Ex; [|apply nth_error_None in Ex; lia].
  destruct (release_ok ext old (World (ld w) (blocks w) (upd (vars w) x new) (fps w))) as (w' & H1 & H2 & H3 & H4 & H5 & H6).
  - constructor; cbn [blocks vars ld fps]; auto.
    + intros c l n H. destruct (B c l n H) as [E1 E2]. pose proof (sumf_upd (is_some_c c) (vars w) x old new Ex). lia.
    + intros y c Hy. rewrite nth_error_upd in Hy. destruct (Nat.eqb_spec x y) as [<-|N]; [|eauto]. rewrite (proj2 (Nat.ltb_lt _ _) Lx) in Hy. injection Hy as ->. auto.
    + intros c ->. eauto.
  - exists w'. exact (conj H1 (conj H2 (conj H3 (conj H4 (conj H5 H6))))).

Qed.

(** The operation uses variables that exist. *)
Definition scoped (nv nf : nat) (o : op) : Prop :=
  match o with Load x _ _ _ => x < nv | Copy x y => x < nv /\ y < nv | Reset x => x < nv | Func p x _ => p < nf /\ x < nv end.
(** What a step does to the function pointers. *)
Definition fp_change (o : op) (w w' : world) : Prop :=
  fps w' = fps w \/ exists p x l g, o = Func p x true /\ fps w' = upd (fps w) p (Some (l, g)) /\ mapped (ld w) l = true /\ g = unmaps (ld w) l /\ ld w' = ld w.
Definition pin_step (windows : bool) (o : op) (l : nat) : bool :=
  match o with Load _ l' true f => Nat.eqb l l' && nodelete f && negb windows | _ => false end.

Lemma nodelete_bit f : negb (Z.land (flags_to_int f) RTLD_NODELETE =? 0)%Z = nodelete f.
Proof. destruct f as [[] [] [] []]; reflexivity. Qed.

Lemma step_ok windows ext o w : inv ext None w -> scoped (length (vars w)) (length (fps w)) o ->
  step windows o w = Abort /\ (exists p x found, o = Func p x found /\ nth_error (vars w) x = Some None) \/
  exists w', step windows o w = Ok w' /\ inv ext None w' /\ trans (ld w) (ld w') /\ length (vars w') = length (vars w) /\ length (fps w') = length (fps w) /\
    fp_change o w w' /\ (forall l, pinned (ld w') l = pinned (ld w) l || pin_step windows o l).
Proof.
  intros I S0. pose proof I as [B V X R F]. destruct o as [x l found f|x y|x|p x found]; cbn [scoped] in S0.
  - right. cbn [step]. unfold load. destruct found; cbn [handle load_lib call dlerror error fst].
    + set (fl := if windows then 0%Z else flags_to_int f). set (w1 := World (open_lib fl l (ld w)) (blocks w ++ [Some (l, 1)]) (vars w) (fps w)).
      assert (E : (h <- (if windows then Ok (Some l) else Ok (Some l)) ;; match h with Some l0 => Ok (World (open_lib fl l0 (ld w)) (blocks w ++ [Some (l0, 1)]) (vars w) (fps w), length (blocks w)) | None => UB end) = Ok (w1, length (blocks w))) by (destruct windows; reflexivity).
      rewrite E. destruct (assign_ok ext x (Some (length (blocks w))) w1) as (w' & H1 & H2 & H3 & H4 & H5 & H6).
      * assert (Hl : nth_error (blocks w ++ [Some (l, 1)]) (length (blocks w)) = Some (Some (l, 1))) by (rewrite nth_error_app2 by lia; now rewrite Nat.sub_diag).
        constructor; cbn [blocks vars ld fps w1].
        -- intros c l' n H. destruct (Nat.lt_trichotomy c (length (blocks w))) as [L|[-> | L]].
           ++ rewrite nth_error_app1 in H by exact L. destruct (B c l' n H) as [E1 E2]. cbn [is_some_c] in E1 |- *. rewrite (proj2 (Nat.eqb_neq (length (blocks w)) c)) by lia. auto.
           ++ rewrite Hl in H. injection H as <- <-. cbn [is_some_c]. rewrite Nat.eqb_refl. split; [|lia].
              assert (Z0 : sumf (is_some_c (length (blocks w))) (vars w) = 0).
              { destruct (sumf (is_some_c (length (blocks w))) (vars w)) eqn:Es; [reflexivity|]. destruct (sumf_pos (is_some_c (length (blocks w))) (vars w)) as (i & v & Hi & Hv); [lia|].
                destruct v as [d|]; cbn [is_some_c] in Hv; [|lia]. destruct (Nat.eqb_spec d (length (blocks w))) as [->|]; [|lia]. destruct (V i _ Hi) as (? & ? & K). assert (length (blocks w) < length (blocks w)) by (apply nth_error_Some; congruence). lia. }
              lia.
           ++ rewrite (proj2 (nth_error_None _ _)) in H; [discriminate H|]. rewrite app_length. cbn [length]. lia.
        -- intros y c Hy. destruct (V y c Hy) as (l' & n & K). exists l', n. rewrite nth_error_app1; [exact K|]. apply nth_error_Some. congruence.
        -- intros c Hc. injection Hc as <-. eauto.
        -- intros k. rewrite sumf_app. cbn [sumf fold_right of_lib]. unfold open_lib. cbn [refs]. destruct (Nat.eq_dec k l) as [->|N].
           ++ rewrite put_eq, Nat.eqb_refl, R. lia.
           ++ rewrite put_ne by exact N. rewrite (proj2 (Nat.eqb_neq l k)) by congruence. rewrite R. lia.
        -- exact (fps_trans w _ F (open_trans fl l (ld w))).
      * exact S0.
      * exists w'. split; [exact H1|]. split; [exact H2|]. split; [exact (grow_trans _ _ _ _ H5)|]. rewrite H3, H4, upd_length. split; [reflexivity|]. split; [reflexivity|]. split; [left; exact H4|].
        intros k. rewrite H6. cbn [w1 ld open_lib pinned pin_step]. unfold put. destruct (Nat.eqb_spec k l) as [->|N]; cbn [andb]; [|now rewrite orb_false_r].
        f_equal. unfold fl. destruct windows; [rewrite andb_false_r; reflexivity|]. rewrite andb_true_r. apply nodelete_bit.
    + exists w. split; [destruct windows; reflexivity|]. split; [exact I|]. split; [apply trans_refl|]. split; [reflexivity|]. split; [reflexivity|]. split; [now left|]. intros k. cbn [pin_step]. now rewrite orb_false_r.
  - right. cbn [step]. destruct S0 as [Sx Sy]. destruct (nth_error (vars w) y) as [[c|]|] eqn:Ey; [| |apply nth_error_None in Ey; lia].
    + destruct (V y c Ey) as (l & n & Hc). rewrite Hc. destruct (B c l n Hc) as [En Pn]. assert (Lc : c < length (blocks w)) by (apply nth_error_Some; congruence).
      destruct (assign_ok ext x (Some c) (World (ld w) (upd (blocks w) c (Some (l, S n))) (vars w) (fps w))) as (w' & H1 & H2 & H3 & H4 & H5 & H6).
      * constructor; cbn [blocks vars ld fps]; auto.
        -- intros c' l' n' H. rewrite nth_error_upd in H. destruct (Nat.eqb_spec c c') as [<-|N].
           ++ rewrite (proj2 (Nat.ltb_lt _ _) Lc) in H. injection H as <- <-. cbn [is_some_c] in *. rewrite Nat.eqb_refl. lia.
           ++ destruct (B c' l' n' H) as [E1 E2]. cbn [is_some_c] in *. rewrite (proj2 (Nat.eqb_neq c c') N). auto.
        -- intros z d Hz. destruct (V z d Hz) as (l' & n' & Hd). rewrite nth_error_upd. destruct (Nat.eqb_spec c d) as [<-|N]; [rewrite (proj2 (Nat.ltb_lt _ _) Lc); eauto|eauto].
        -- intros d Hd. injection Hd as <-. rewrite upd_same by exact Lc. eauto.
        -- intros k. rewrite R. f_equal. symmetry. apply (sumf_upd_eq _ _ _ _ _ Hc). reflexivity.
      * exact Sx.
      * exists w'. split; [exact H1|]. split; [exact H2|]. split; [exact H5|]. rewrite H3, H4, upd_length. cbn [vars fps]. split; [reflexivity|]. split; [reflexivity|]. split; [left; exact H4|].
        intros k. cbn [pin_step]. rewrite orb_false_r. apply H6.
    + destruct (assign_ok ext x None w I Sx) as (w' & H1 & H2 & H3 & H4 & H5 & H6). exists w'. split; [exact H1|]. split; [exact H2|]. split; [exact H5|]. rewrite H3, H4, upd_length.
      split; [reflexivity|]. split; [reflexivity|]. split; [left; exact H4|]. intros k. cbn [pin_step]. rewrite orb_false_r. apply H6.
  - right. cbn [step]. destruct (assign_ok ext x None w I S0) as (w' & H1 & H2 & H3 & H4 & H5 & H6). exists w'. split; [exact H1|]. split; [exact H2|]. split; [exact H5|]. rewrite H3, H4, upd_length.
      split; [reflexivity|]. split; [reflexivity|]. split; [left; exact H4|]. intros k. cbn [pin_step]. rewrite orb_false_r. apply H6.
  - destruct S0 as [Sp Sx]. cbn [step]. destruct (nth_error (vars w) x) as [[c|]|] eqn:Ex; [| |apply nth_error_None in Ex; lia]; [|left; split; [reflexivity|]; eauto 6].
    right. destruct (V x c Ex) as (l & n & Hc). rewrite Hc. destruct found; cbn [negb].
    + assert (M : mapped (ld w) l = true). { unfold mapped. rewrite (proj2 (Nat.ltb_lt 0 _)); [reflexivity|]. rewrite R. pose proof (sumf_ge (of_lib l) (blocks w) c _ Hc) as K. cbn [of_lib] in K. rewrite Nat.eqb_refl in K. lia. }
      rewrite M. eexists. split; [reflexivity|]. split; [constructor; cbn [blocks vars ld fps]; auto|].
      * intros q l' g H. rewrite nth_error_upd in H. destruct (Nat.eqb_spec p q) as [<-|N]; [|eauto]. rewrite (proj2 (Nat.ltb_lt _ _) Sp) in H. injection H as <- <-. split; [lia|congruence].
      * cbn [ld vars fps]. split; [apply trans_refl|]. split; [reflexivity|]. split; [apply upd_length|]. split; [right; exists p, x, l, (unmaps (ld w) l); auto|]. intros k. cbn [pin_step]. now rewrite orb_false_r.
    + exists w. split; [reflexivity|]. split; [exact I|]. split; [apply trans_refl|]. split; [reflexivity|]. split; [reflexivity|]. split; [now left|]. intros k. cbn [pin_step]. now rewrite orb_false_r.
Qed.

Lemma initial_inv ext nv nf : inv ext None (initial ext nv nf).
Proof.
  constructor; cbn [initial blocks vars ld fps].
  - intros c l n H. destruct c; discriminate H.
  - intros x c H. apply nth_error_In, repeat_spec in H. discriminate H.
  - discriminate.
  - intros l. cbn. lia.
  - intros p l g H. apply nth_error_In, repeat_spec in H. discriminate H.
Qed.
