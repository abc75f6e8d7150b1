(** Simulation between the vtable machine and the pointer-free semantics. *)
From Verif Require Import Base Dispatch_Spec Dispatch_Model.

Section Proofs.
Context {St A R : Type} (classes : nat -> class St A R) (slots : nat -> slot A R) (small : nat -> bool).
Hypothesis DO : defaults_ok slots.

Lemma loc_eqb_refl l : loc_eqb l l = true.
Proof. destruct l; apply Nat.eqb_refl. Qed.
Lemma loc_eqb_neq l l' : l <> l' -> loc_eqb l l' = false.
Proof. destruct l, l'; cbn; intros H; try reflexivity; apply Nat.eqb_neq; congruence. Qed.
Lemma set_same (m : @memory St) l x : set_mem m l x l = x.
Proof. unfold set_mem. now rewrite loc_eqb_refl. Qed.
Lemma set_other (m : @memory St) l l' x : l' <> l -> set_mem m l x l' = m l'.
Proof. intros H. unfold set_mem. rewrite loc_eqb_neq by congruence. reflexivity. Qed.

(** Running changes at most the object itself. *)
Definition effect (m m' : @memory St) (l : loc) (c : nat) (st' : St) : Prop :=
  m' l = Some (c, st') /\ forall l', l' <> l -> m' l' = m l'.

Definition vtrel (v : vtable) (c : nat) (cst : bool) (prov : nat -> bool) : Prop :=
  v_class v = Some (c, cst) /\
  (forall n, v_fn v n = match slots n with
                        | Required _ => wrapped classes c cst n
                        | Optional _ _ => if prov n then wrapped classes c cst n else PDefault n
                        end) /\
  (forall n, prov n = true -> meth (classes c) n <> None) /\ compiles classes slots c.

Lemma make_rel c cst st : compiles classes slots c -> vtrel (make_vtable classes slots c cst st) c cst (offers classes c st).
Proof.
  intros H. split; [reflexivity|]. split; [|split; [|exact H]].
  - intros n. unfold make_vtable, required_method, optional_method, offers. cbn.
    destruct (slots n); [reflexivity|]. destruct (meth (classes c) n); [|reflexivity]. now destruct (provides (classes c) n).
  - intros n. unfold offers. destruct (meth (classes c) n); congruence.
Qed.

(** A member function of the right class, not refused by constness. *)
Lemma invoke_ok c n l a m st : m l = Some (c, st) ->
  exists m', do_invoke classes c n l a m = (m', snd (apply classes c n st a)) /\ effect m m' l c (fst (apply classes c n st a)).
Proof.
  intros E. unfold do_invoke, apply. rewrite E, Nat.eqb_refl. destruct (meth (classes c) n) as [[f|f]|].
  - exists m. now split.
  - destruct (f st a) as [st' o] eqn:F. exists (set_mem m l (Some (c, st'))). split; [reflexivity|]. split; [apply set_same|].
    intros l' N. now apply set_other.
  - exists m. now split.
Qed.
Lemma wrapped_ok v c cst prov n l a m st k :
  vtrel v c cst prov -> m l = Some (c, st) -> slot_const slots n = k -> (cst = true -> k = true) ->
  meth (classes c) n <> None ->
  wrapped classes c cst n <> PNull /\ wrapped classes c cst n <> PThrow /\ (forall x, wrapped classes c cst n <> PDefault x) /\
  exists m', run_required classes (wrapped classes c cst n) l a m = (m', snd (apply classes c n st a)) /\
             effect m m' l c (fst (apply classes c n st a)).
Proof.
  intros (V1 & V2 & V3 & V4) E Ek Hk Hm. specialize (V4 n). unfold slot_const in Ek.
  assert (W : wrapped classes c cst n = PMethod c n).
  { unfold wrapped. destruct (meth (classes c) n) as [[f|f]|]; [reflexivity| |congruence].
    destruct cst; [|reflexivity]. destruct (slots n); specialize (Hk eq_refl); congruence. }
  rewrite W. repeat split; try congruence. cbn [run_required]. now apply invoke_ok.
Qed.
Lemma body_ok_run v c cst prov l kc : vtrel v c cst prov -> (cst = true -> kc = true) ->
  forall b, body_ok slots kc b -> forall m st, m l = Some (c, st) ->
  exists m', run_body classes v l b m = (m', snd (apply_body classes c st b)) /\ effect m m' l c (fst (apply_body classes c st b)).
Proof.
  intros V Hk b Hb. induction Hb as [o|n a k (k' & Es & Ek) _ IH]; intros m st E.
  - exists m. now split.
  - cbn [run_body apply_body]. pose proof (proj1 (proj2 V) n) as Vn. rewrite Es in Vn. rewrite Vn.
    assert (Hm : meth (classes c) n <> None).
    { pose proof (proj2 (proj2 (proj2 V)) n) as C. rewrite Es in C. now destruct (meth (classes c) n). }
    destruct (wrapped_ok v c cst prov n l a m st (slot_const slots n) V E eq_refl) as (_ & _ & _ & m1 & R1 & E1 & O1); [|exact Hm|].
    { unfold slot_const. rewrite Es. intros H. apply Ek. now apply Hk. }
    rewrite R1. destruct (apply classes c n st a) as [st1 o1]. cbn [fst snd] in *.
    destruct (IH o1 m1 st1 E1) as (m2 & R2 & E2 & O2). exists m2. split; [exact R2|]. split; [exact E2|].
    intros l' N. rewrite O2 by exact N. now apply O1.
Qed.

Definition ref_kind (cst : bool) : kind := if cst then KConst else KMut.

Lemma call_ok w l c cst prov n a m st : self w = Some l -> vtrel (vt w) c cst prov -> m l = Some (c, st) ->
  (size w = KConst <-> cst = true) ->
  (cst && negb (slot_const slots n) = true -> call classes slots w n a m = (m, Throw bad_type_erased_constness)) /\
  (cst && negb (slot_const slots n) = false ->
   exists m', call classes slots w n a m = (m', snd (call_object classes slots prov c st n a)) /\
              effect m m' l c (fst (call_object classes slots prov c st n a))).
Proof.
  intros El V E Hs. pose proof (proj1 (proj2 V) n) as Vn. unfold call. rewrite Vn, El.
  assert (Nn : (match slots n with Required _ => wrapped classes c cst n
                | Optional _ _ => if prov n then wrapped classes c cst n else PDefault n end) <> PNull).
  { pose proof (proj2 (proj2 (proj2 V)) n) as C. unfold wrapped. destruct (slots n) as [k|k d].
    - destruct (meth (classes c) n) as [[f|f]|]; [discriminate|destruct cst; discriminate|contradiction].
    - destruct (prov n) eqn:Ep; [|discriminate]. pose proof (proj1 (proj2 (proj2 V)) n Ep) as Hm.
      destruct (meth (classes c) n) as [[f|f]|]; [discriminate|destruct cst; discriminate|congruence]. }
  set (p := match slots n with Required _ => wrapped classes c cst n | Optional _ _ => if prov n then wrapped classes c cst n else PDefault n end) in *.
  assert (Run : (cst = true -> slot_const slots n = true) ->
    exists m', run_fptr classes slots (vt w) p l a m = (m', snd (call_object classes slots prov c st n a)) /\
              effect m m' l c (fst (call_object classes slots prov c st n a))).
  { intros Hc. unfold call_object, p. destruct (slots n) as [k|k d] eqn:Es.
    - assert (Hm : meth (classes c) n <> None).
      { pose proof (proj2 (proj2 (proj2 V)) n) as C. rewrite Es in C. now destruct (meth (classes c) n). }
      destruct (wrapped_ok (vt w) c cst prov n l a m st (slot_const slots n) V E eq_refl Hc Hm) as (N1 & N2 & N3 & H).
      unfold run_fptr. destruct (wrapped classes c cst n); try exact H. now elim (N3 n0).
    - destruct (prov n) eqn:Ep.
      + pose proof (proj1 (proj2 (proj2 V)) n Ep) as Hm.
        destruct (wrapped_ok (vt w) c cst prov n l a m st (slot_const slots n) V E eq_refl Hc Hm) as (N1 & N2 & N3 & H).
        unfold run_fptr. destruct (wrapped classes c cst n); try exact H. now elim (N3 n0).
      + cbn [run_fptr]. rewrite Es. apply (body_ok_run (vt w) c cst prov l k V); [|apply (DO n k d Es)|exact E].
        intros H. specialize (Hc H). unfold slot_const in Hc. now rewrite Es in Hc. }
  clearbody p.
  split.
  - intros H. apply andb_prop in H. destruct H as [-> H2]. apply negb_true_iff in H2. rewrite H2.
    rewrite (proj2 Hs eq_refl). destruct p; [contradiction|reflexivity|reflexivity|reflexivity].
  - intros H. assert (Hc : cst = true -> slot_const slots n = true) by (intros ->; cbn in H; now apply negb_false_iff in H).
    destruct (Run Hc) as (m' & R1 & R2). exists m'. split; [|exact R2].
    destruct (slot_const slots n) eqn:Es; [destruct p; [contradiction|exact R1|exact R1|exact R1]|].
    destruct (size w) eqn:Ez; [destruct p; [contradiction|exact R1|exact R1|exact R1]|destruct p; [contradiction|exact R1|exact R1|exact R1]|].
    specialize (Hc (proj1 Hs eq_refl)). discriminate Hc.
Qed.

(** ** The relation *)
Definition wrel (m : @memory St) (w : wrapper) (h : holder St) : Prop :=
  match h with
  | HEmpty => self w = None
  | HOwn c st prov => exists k, self w = Some (LObj k) /\ size w = KOwned /\ m (LObj k) = Some (c, st) /\ vtrel (vt w) c false prov
  | HRef e cst prov => self w = Some (LVar e) /\ size w = ref_kind cst /\ exists c st, m (LVar e) = Some (c, st) /\ vtrel (vt w) c cst prov
  end.
Definition orel (m : @memory St) (x : option wrapper) (h : option (holder St)) : Prop :=
  match x, h with Some w, Some h => wrel m w h | None, None => True | _, _ => False end.
Definition owns (x : option wrapper) (k : nat) : Prop := match x with Some w => self w = Some (LObj k) | None => False end.

Record rel (s : @world St) (a : abs St) : Prop := {
  r_len : length (ws s) = length (holders a);
  r_ws : forall i x h, nth_error (ws s) i = Some x -> nth_error (holders a) i = Some h -> orel (mem s) x h;
  r_vars : forall e, mem s (LVar e) = nth_error (vars a) e;
  r_comp : forall e c st, nth_error (vars a) e = Some (c, st) -> compiles classes slots c;
  r_uniq : forall i j x y k, nth_error (ws s) i = Some x -> nth_error (ws s) j = Some y -> owns x k -> owns y k -> i = j;
  r_next : forall i x k, nth_error (ws s) i = Some x -> owns x k -> k < next s
}.

Lemma wrel_frame m m' w h : wrel m w h ->
  (forall k, owns (Some w) k -> m' (LObj k) = m (LObj k)) ->
  (forall e c st, m (LVar e) = Some (c, st) -> exists st', m' (LVar e) = Some (c, st')) -> wrel m' w h.
Proof.
  destruct h as [|c st prov|e cst prov]; cbn; [tauto| |].
  - intros (k & H1 & H2 & H3 & H4) F _. exists k. rewrite (F k H1). auto.
  - intros (H1 & H2 & c & st & H3 & H4) _ G. destruct (G _ _ _ H3) as (st' & G'). split; [exact H1|]. split; [exact H2|]. now exists c, st'.
Qed.
Lemma get_rel s a j h : rel s a -> h_get a j = Some h -> exists w, nth_error (ws s) j = Some (Some w) /\ wrel (mem s) w h.
Proof.
  intros H Hg. unfold h_get in Hg. destruct (nth_error (holders a) j) as [[x|]|] eqn:E; try discriminate Hg. injection Hg as ->.
  destruct (nth_error (ws s) j) as [[w|]|] eqn:Ew.
  - exists w. split; [reflexivity|]. exact (r_ws _ _ H j _ _ Ew E).
  - destruct (r_ws _ _ H j _ _ Ew E).
  - exfalso. apply nth_error_None in Ew. rewrite (r_len _ _ H) in Ew. apply nth_error_None in Ew. congruence.
Qed.

Lemma nth_snoc {X} (l : list X) x i y : nth_error (l ++ [x]) i = Some y ->
  (i < length l /\ nth_error l i = Some y) \/ (i = length l /\ y = x).
Proof.
  intros H. destruct (Nat.lt_ge_cases i (length l)) as [L|L]; [left|right].
  - rewrite nth_error_app1 in H by exact L. auto.
  - rewrite nth_error_app2 in H by exact L. destruct (i - length l) as [|d] eqn:D.
    + cbn in H. split; [lia|congruence].
    + cbn in H. destruct d; discriminate H.
Qed.
Lemma nth_upd {X} (l : list X) j x i y : nth_error (upd l j x) i = Some y ->
  (i = j /\ y = x) \/ (i <> j /\ nth_error l i = Some y).
Proof.
  rewrite nth_error_upd. destruct (Nat.eqb_spec j i) as [->|N]; [|right; split; congruence].
  destruct (i <? length l); [left; split; congruence|discriminate].
Qed.

(** A new wrapper. *)
Lemma rel_push s a w h m k : rel s a -> wrel m w h -> next s <= k ->
  (forall i x p, nth_error (ws s) i = Some x -> owns x p -> m (LObj p) = mem s (LObj p)) ->
  (forall e, m (LVar e) = mem s (LVar e)) ->
  (forall p, owns (Some w) p -> p < k /\ forall i x, nth_error (ws s) i = Some x -> ~ owns x p) ->
  rel (World m k (ws s ++ [Some w])) (h_push a h).
Proof.
  intros H W K F G U. constructor; cbn [ws mem next h_push holders vars].
  - rewrite !app_length, (r_len _ _ H). reflexivity.
  - intros i x hx Hx Hh. apply nth_snoc in Hx. apply nth_snoc in Hh. rewrite (r_len _ _ H) in Hx.
    destruct Hx as [[L Hx]|[-> ->]], Hh as [[L' Hh]|[E' ->]]; try lia.
    + pose proof (r_ws _ _ H i _ _ Hx Hh) as O. destruct x as [w0|], hx as [h0|]; try exact O.
      apply (wrel_frame (mem s)); [exact O| |].
      * intros p Hp. exact (F i _ p Hx Hp).
      * intros e c st E. exists st. now rewrite G.
    + exact W.
  - intros e. rewrite G. apply (r_vars _ _ H).
  - apply (r_comp _ _ H).
  - intros i j x y p Hi Hj O1 O2. apply nth_snoc in Hi. apply nth_snoc in Hj.
    destruct Hi as [[L Hi]|[-> ->]], Hj as [[L' Hj]|[-> ->]].
    + exact (r_uniq _ _ H _ _ _ _ _ Hi Hj O1 O2).
    + elim (proj2 (U p O2) i x Hi O1).
    + elim (proj2 (U p O1) j y Hj O2).
    + reflexivity.
  - intros i x p Hi O. apply nth_snoc in Hi. destruct Hi as [[L Hi]|[-> ->]].
    + pose proof (r_next _ _ H _ _ _ Hi O). lia.
    + apply (U p O).
Qed.
(** A wrapper changes. *)
Lemma rel_put s a i x0 x h m k : rel s a -> nth_error (ws s) i = Some x0 -> orel m x h -> next s <= k ->
  (forall j y p, j <> i -> nth_error (ws s) j = Some y -> owns y p -> m (LObj p) = mem s (LObj p)) ->
  (forall e, m (LVar e) = mem s (LVar e)) ->
  (forall p, owns x p -> p < k /\ forall j y, j <> i -> nth_error (ws s) j = Some y -> ~ owns y p) ->
  rel (World m k (upd (ws s) i x)) (h_put a i h).
Proof.
  intros H Hi0 W K F G U. constructor; cbn [ws mem next h_put holders vars].
  - rewrite !upd_length. apply (r_len _ _ H).
  - intros j y hy Hy Hh. apply nth_upd in Hy. apply nth_upd in Hh.
    destruct Hy as [[-> ->]|[N Hy]], Hh as [[E' ->]|[N' Hh]]; try congruence.
    pose proof (r_ws _ _ H j _ _ Hy Hh) as O. destruct y as [w0|], hy as [h0|]; try exact O.
    apply (wrel_frame (mem s)); [exact O| |].
    + intros p Hp. exact (F j _ p N Hy Hp).
    + intros e c st E. exists st. now rewrite G.
  - intros e. rewrite G. apply (r_vars _ _ H).
  - apply (r_comp _ _ H).
  - intros j j' y y' p Hj Hj' O1 O2. apply nth_upd in Hj. apply nth_upd in Hj'.
    destruct Hj as [[-> ->]|[N Hj]], Hj' as [[-> ->]|[N' Hj']].
    + reflexivity.
    + elim (proj2 (U p O1) j' y' N' Hj' O2).
    + elim (proj2 (U p O2) j y N Hj O1).
    + exact (r_uniq _ _ H _ _ _ _ _ Hj Hj' O1 O2).
  - intros j y p Hj O. apply nth_upd in Hj. destruct Hj as [[-> ->]|[N Hj]].
    + apply (U p O).
    + pose proof (r_next _ _ H _ _ _ Hj O). lia.
Qed.

(** cleanup empties the wrapper's place and touches nothing else. *)
Lemma cleanup_ok s a i w h : rel s a -> nth_error (ws s) i = Some (Some w) -> wrel (mem s) w h ->
  exists m, cleanup w (mem s) = Some m /\ (forall e, m (LVar e) = mem s (LVar e)) /\
            (forall p, ~ owns (Some w) p -> m (LObj p) = mem s (LObj p)).
Proof.
  intros H Hi W. unfold cleanup. destruct h as [|c st prov|e cst prov]; cbn in W.
  - rewrite W. destruct (size w); exists (mem s); auto.
  - destruct W as (k & Es & Ez & E & V). rewrite Es, Ez. unfold vt_destroy. rewrite (proj1 V), E, Nat.eqb_refl.
    eexists. split; [reflexivity|]. split; [intros e; now rewrite set_other by discriminate|].
    intros p N. rewrite set_other; [reflexivity|]. intros [= ->]. exact (N Es).
  - destruct W as (-> & -> & _). destruct cst; exists (mem s); auto.
Qed.

Lemma not_own m w h p : wrel m w h -> size w <> KOwned -> self w <> None -> ~ owns (Some w) p.
Proof.
  destruct h as [|c st prov|e cst prov]; cbn; [congruence|intros (k & _ & -> & _); congruence|intros (-> & _); congruence].
Qed.

(** Copying a wrapper's content: [m] is the memory after another wrapper was cleaned up. *)
Lemma copy_from_ok other h m k : wrel m other h -> (forall p, owns (Some other) p -> p < k) ->
  exists w m' k', copy_from other m k = Some (w, m', k') /\ wrel m' w h /\ k <= k' /\
    (forall e, m' (LVar e) = m (LVar e)) /\ (forall p, p < k -> m' (LObj p) = m (LObj p)) /\
    (forall p, owns (Some w) p -> k <= p < k').
Proof.
  intros W L. unfold copy_from. destruct h as [|c st prov|e cst prov]; cbn in W.
  - rewrite W. exists (Wr None KOwned (vt other)), m, k. split; [reflexivity|]. cbn. repeat split; auto; try discriminate; lia.
  - destruct W as (p & Es & Ez & E & V). rewrite Es, Ez. unfold vt_copy. rewrite (proj1 V), E, Nat.eqb_refl.
    do 3 eexists. split; [reflexivity|]. split; [|split; [lia|split; [|split]]].
    + exists k. cbn. split; [reflexivity|]. split; [reflexivity|]. split; [apply set_same|exact V].
    + intros e. now rewrite set_other by discriminate.
    + intros q Hq. rewrite set_other; [reflexivity|]. intros [= ->]. lia.
    + cbn. intros q [= <-]. lia.
  - destruct W as (Es & Ez & c & st & E & V). rewrite Es, Ez. exists (Wr (Some (LVar e)) (ref_kind cst) (vt other)), m, k.
    split; [destruct cst; reflexivity|]. split; [cbn; split; [reflexivity|]; split; [reflexivity|]; now exists c, st|].
    cbn. repeat split; auto; try discriminate; lia.
Qed.
(** Moving a wrapper's content. *)
Lemma move_from_ok other h m k : wrel m other h -> (forall p, owns (Some other) p -> p < k) ->
  exists w m' k', move_from small other m k = Some (w, m', k') /\ wrel m' w h /\ k <= k' /\
    (forall e, m' (LVar e) = m (LVar e)) /\ (forall p, p < k -> ~ owns (Some other) p -> m' (LObj p) = m (LObj p)) /\
    (forall p, owns (Some w) p -> p < k' /\ (k <= p \/ owns (Some other) p)).
Proof.
  intros W L. unfold move_from. destruct h as [|c st prov|e cst prov]; cbn in W.
  - rewrite W. exists (Wr None KOwned (vt other)), m, k. split; [reflexivity|]. cbn. repeat split; auto; try discriminate; lia.
  - destruct W as (p & Es & Ez & E & V). rewrite Es, Ez. pose proof (L p Es) as Lp. destruct (fits small (vt other)).
    + unfold vt_copy. rewrite (proj1 V), E, Nat.eqb_refl.
      assert (D : vt_destroy (vt other) (LObj p) (set_mem m (LObj k) (Some (c, st))) = Some (set_mem (set_mem m (LObj k) (Some (c, st))) (LObj p) None)).
      { unfold vt_destroy. rewrite (proj1 V), set_other by (intros [= ->]; lia). now rewrite E, Nat.eqb_refl. }
      rewrite D. do 3 eexists. split; [reflexivity|]. split; [|split; [lia|split; [|split]]].
      * exists k. cbn. split; [reflexivity|]. split; [reflexivity|]. split; [|exact V].
        rewrite set_other by (intros [= ->]; lia). apply set_same.
      * intros e. now rewrite !set_other by discriminate.
      * intros q Hq Nq. rewrite set_other by (intros [= ->]; exact (Nq Es)). rewrite set_other; [reflexivity|]. intros [= ->]. lia.
      * cbn. intros q [= <-]. split; [lia|left; lia].
    + exists (Wr (Some (LObj p)) KOwned (vt other)), m, k. split; [reflexivity|]. split; [exists p; cbn; auto|].
      split; [lia|]. split; [reflexivity|]. split; [reflexivity|]. cbn. intros q [= <-]. split; [exact Lp|right; exact Es].
  - destruct W as (Es & Ez & c & st & E & V). rewrite Es, Ez. exists (Wr (Some (LVar e)) (ref_kind cst) (vt other)), m, k.
    split; [destruct cst; reflexivity|]. split; [cbn; split; [reflexivity|]; split; [reflexivity|]; now exists c, st|].
    cbn. repeat split; auto; try discriminate; lia.
Qed.

Definition op_ok (o : op St A) : Prop := match o with OVal c _ => compiles classes slots c | _ => True end.

Lemma upd_id {X} (l : list X) i x : nth_error l i = Some x -> upd l i x = l.
Proof. revert i; induction l as [|y l IH]; intros [|i]; cbn; intros H; try congruence. now rewrite IH. Qed.

Lemma step_ok s a o a' r : rel s a -> op_ok o -> a_step classes slots a o = Some (a', r) ->
  exists s', step classes slots small s o = Some (s', r) /\ rel s' a'.
Proof.
  intros H Ho Ha. destruct o as [c st|e cst|j|j|i j|i j|i|i n x|e st]; cbn in Ha.
  - (* wrap an object *)
    injection Ha as <- <-. cbn. eexists. split; [reflexivity|].
    apply (rel_push s a _ _ _ _ H).
    + cbn. exists (next s). split; [reflexivity|]. split; [reflexivity|]. split; [apply set_same|now apply make_rel].
    + lia.
    + intros i x p Hi O. rewrite set_other; [reflexivity|]. intros [= ->]. pose proof (r_next _ _ H _ _ _ Hi O). lia.
    + intros e. now rewrite set_other by discriminate.
    + cbn. intros p [= <-]. split; [lia|]. intros i x Hi O. pose proof (r_next _ _ H _ _ _ Hi O). lia.
  - (* wrap a pointer *)
    destruct (nth_error (vars a) e) as [[c st]|] eqn:E; [|discriminate Ha]. injection Ha as <- <-. cbn.
    rewrite (r_vars _ _ H), E. eexists. split; [reflexivity|]. apply (rel_push s a _ _ _ _ H).
    + cbn. split; [reflexivity|]. split; [reflexivity|]. exists c, st. split; [now rewrite (r_vars _ _ H)|].
      apply make_rel. exact (r_comp _ _ H _ _ _ E).
    + lia.
    + reflexivity.
    + reflexivity.
    + cbn. discriminate.
  - (* copy construction *)
    destruct (h_get a j) as [h|] eqn:G; [|discriminate Ha]. injection Ha as <- <-.
    destruct (get_rel s a j h H G) as (w & Ew & W). cbn. rewrite Ew.
    destruct (copy_from_ok w h (mem s) (next s) W) as (w' & m' & k' & -> & W' & K & F1 & F2 & F3).
    { intros p O. exact (r_next _ _ H _ _ _ Ew O). }
    eexists. split; [reflexivity|]. apply (rel_push s a _ _ _ _ H W' K).
    + intros i x p Hi O. apply F2. exact (r_next _ _ H _ _ _ Hi O).
    + exact F1.
    + intros p O. split; [now apply F3|]. intros i x Hi O'. pose proof (r_next _ _ H _ _ _ Hi O'). apply F3 in O. lia.
  - (* move construction *)
    destruct (h_get a j) as [h|] eqn:G; [|discriminate Ha]. injection Ha as <- <-.
    destruct (get_rel s a j h H G) as (w & Ew & W). cbn. rewrite Ew.
    destruct (move_from_ok w h (mem s) (next s) W) as (w' & m' & k' & -> & W' & K & F1 & F2 & F3).
    { intros p O. exact (r_next _ _ H _ _ _ Ew O). }
    eexists. split; [reflexivity|].
    assert (H1 : rel (World m' k' (upd (ws s) j (Some (moved_from w)))) (h_put a j (Some HEmpty))).
    { apply (rel_put s a j (Some w) _ _ _ _ H Ew); [reflexivity|exact K| |exact F1|cbn; discriminate].
      intros i y p N Hy O. apply F2; [exact (r_next _ _ H _ _ _ Hy O)|]. intros O'. apply N.
      exact (r_uniq _ _ H _ _ _ _ _ Hy Ew O O'). }
    apply (rel_push _ _ _ _ _ _ H1 W'); cbn [next ws mem]; [lia|reflexivity|reflexivity|].
    intros p O. split; [now apply F3|]. intros i x Hi O'. apply nth_upd in Hi. destruct Hi as [[-> ->]|[N Hi]]; [discriminate O'|].
    destruct (F3 p O) as [_ [L|O2]].
    + pose proof (r_next _ _ H _ _ _ Hi O'). lia.
    + apply N. exact (r_uniq _ _ H _ _ _ _ _ Hi Ew O' O2).
  - (* copy assignment *)
    destruct (h_get a i) as [hi|] eqn:Gi; [|discriminate Ha]. destruct (h_get a j) as [h|] eqn:G; [|discriminate Ha]. injection Ha as <- <-.
    destruct (get_rel s a i hi H Gi) as (wi & Ei & Wi). destruct (get_rel s a j h H G) as (w & Ew & W). cbn. rewrite Ei, Ew.
    destruct (Nat.eqb_spec i j) as [->|N].
    { exists s. split; [reflexivity|]. unfold h_put. rewrite upd_id; [destruct a; exact H|].
      unfold h_get in G. destruct (nth_error (holders a) j) as [[x|]|]; congruence. }
    destruct (cleanup_ok s a i wi hi H Ei Wi) as (m & -> & C1 & C2).
    assert (Wm : wrel m w h).
    { apply (wrel_frame (mem s)); [exact W| |].
      - intros k O. apply C2. intros O'. apply N. exact (r_uniq _ _ H _ _ _ _ _ Ei Ew O' O).
      - intros e c st E. exists st. now rewrite C1. }
    destruct (copy_from_ok w h m (next s) Wm) as (w' & m' & k' & -> & W' & K & F1 & F2 & F3).
    { intros p O. exact (r_next _ _ H _ _ _ Ew O). }
    eexists. split; [reflexivity|]. apply (rel_put s a i (Some wi) _ _ _ _ H Ei); [exact W'|exact K| | |].
    + intros j' y p N' Hy O. rewrite F2 by exact (r_next _ _ H _ _ _ Hy O). apply C2.
      intros O'. apply N'. exact (r_uniq _ _ H _ _ _ _ _ Hy Ei O O').
    + intros e. now rewrite F1.
    + intros p O. split; [now apply F3|]. intros j' y N' Hy O'. pose proof (r_next _ _ H _ _ _ Hy O'). apply F3 in O. lia.
  - (* move assignment *)
    destruct (h_get a i) as [hi|] eqn:Gi; [|discriminate Ha]. destruct (h_get a j) as [h|] eqn:G; [|discriminate Ha]. injection Ha as <- <-.
    destruct (get_rel s a i hi H Gi) as (wi & Ei & Wi). destruct (get_rel s a j h H G) as (w & Ew & W). cbn. rewrite Ei, Ew.
    destruct (Nat.eqb_spec i j) as [->|N]; [exists s; split; [reflexivity|exact H]|].
    destruct (cleanup_ok s a i wi hi H Ei Wi) as (m & -> & C1 & C2).
    assert (Wm : wrel m w h).
    { apply (wrel_frame (mem s)); [exact W| |].
      - intros k O. apply C2. intros O'. apply N. exact (r_uniq _ _ H _ _ _ _ _ Ei Ew O' O).
      - intros e c st E. exists st. now rewrite C1. }
    destruct (move_from_ok w h m (next s) Wm) as (w' & m' & k' & Em & W' & K & F1 & F2 & F3).
    { intros p O. exact (r_next _ _ H _ _ _ Ew O). }
    destruct (self w) as [l|] eqn:Es.
    + rewrite Em. eexists. split; [reflexivity|].
      assert (Fm : forall j' y p, j' <> j -> j' <> i -> nth_error (ws s) j' = Some y -> owns y p -> m' (LObj p) = mem s (LObj p)).
      { intros j' y p N1 N2 Hy O. rewrite F2; [|exact (r_next _ _ H _ _ _ Hy O)|].
        - apply C2. intros O'. apply N2. exact (r_uniq _ _ H _ _ _ _ _ Hy Ei O O').
        - intros O'. apply N1. exact (r_uniq _ _ H _ _ _ _ _ Hy Ew O O'). }
      assert (H1 : rel (World (mem s) (next s) (upd (ws s) j (Some (moved_from w)))) (h_put a j (Some HEmpty))).
      { apply (rel_put s a j (Some w) _ _ _ _ H Ew); [reflexivity|lia|reflexivity|reflexivity|cbn; discriminate]. }
      apply (rel_put _ _ i (Some wi) _ _ _ _ H1); cbn [next ws mem]; [|exact W'|exact K| | |].
      * rewrite upd_other by congruence. exact Ei.
      * intros j' y p N' Hy O. apply nth_upd in Hy. destruct Hy as [[-> ->]|[N2 Hy]]; [discriminate O|].
        exact (Fm j' y p N2 N' Hy O).
      * intros e. now rewrite F1, C1.
      * intros p O. split; [now apply F3|]. intros j' y N' Hy O'. apply nth_upd in Hy. destruct Hy as [[-> ->]|[N2 Hy]]; [discriminate O'|].
        destruct (F3 p O) as [_ [L|O2]].
        -- pose proof (r_next _ _ H _ _ _ Hy O'). lia.
        -- apply N2. exact (r_uniq _ _ H _ _ _ _ _ Hy Ew O' O2).
    + assert (Eh : h = HEmpty).
      { destruct h as [|c st prov|e cst prov]; [reflexivity|destruct W as (k & X & _); congruence|destruct W as (X & _); congruence]. }
      subst h. eexists. split; [reflexivity|].
      assert (Ea : h_put a j (Some HEmpty) = a).
      { unfold h_put. rewrite upd_id; [now destruct a|]. unfold h_get in G. destruct (nth_error (holders a) j) as [[x|]|]; congruence. }
      rewrite Ea. apply (rel_put s a i (Some wi) _ _ _ _ H Ei); [reflexivity|lia| |exact C1|cbn; discriminate].
      intros j' y p N' Hy O. apply C2. intros O'. apply N'. exact (r_uniq _ _ H _ _ _ _ _ Hy Ei O O').
  - (* destruction *)
    destruct (h_get a i) as [hi|] eqn:Gi; [|discriminate Ha]. injection Ha as <- <-.
    destruct (get_rel s a i hi H Gi) as (wi & Ei & Wi). cbn. rewrite Ei.
    destruct (cleanup_ok s a i wi hi H Ei Wi) as (m & -> & C1 & C2). eexists. split; [reflexivity|].
    apply (rel_put s a i (Some wi) _ _ _ _ H Ei); [exact I|lia| |exact C1|intros p []].
    intros j' y p N' Hy O. apply C2. intros O'. apply N'. exact (r_uniq _ _ H _ _ _ _ _ Hy Ei O O').
  - (* call *)
    destruct (h_get a i) as [hi|] eqn:Gi; [|discriminate Ha]. destruct (get_rel s a i hi H Gi) as (w & Ei & W). cbn. rewrite Ei.
    destruct hi as [|c st prov|e cst prov]; [discriminate Ha| |].
    + destruct W as (k & Es & Ez & E & V).
      destruct (call_ok w (LObj k) c false prov n x (mem s) st Es V E) as [_ C]; [rewrite Ez; split; discriminate|].
      destruct (C eq_refl) as (m' & -> & E1 & E2). destruct (call_object classes slots prov c st n x) as [st' o]. cbn [fst snd] in *.
      injection Ha as <- <-. eexists. split; [reflexivity|].
      replace (ws s) with (upd (ws s) i (Some w)) by now apply upd_id.
      apply (rel_put s a i (Some w) _ _ _ _ H Ei); [|lia| |intros e; apply E2; discriminate|].
      * exists k. auto.
      * intros j' y p N' Hy O. apply E2. intros [= ->]. apply N'. exact (r_uniq _ _ H _ _ _ _ _ Hy Ei O Es).
      * intros p O. split; [exact (r_next _ _ H _ _ _ Ei O)|]. intros j' y N' Hy O'. apply N'. exact (r_uniq _ _ H _ _ _ _ _ Hy Ei O' O).
    + destruct W as (Es & Ez & c & st & E & V). rewrite (r_vars _ _ H) in E. rewrite E in Ha.
      rewrite <- (r_vars _ _ H) in E.
      destruct (call_ok w (LVar e) c cst prov n x (mem s) st Es V E) as [C1 C2].
      { rewrite Ez. destruct cst; cbn; split; congruence. }
      destruct (cst && negb (slot_const slots n)).
      * injection Ha as <- <-. rewrite C1 by reflexivity. eexists. split; [reflexivity|]. destruct s; exact H.
      * destruct (C2 eq_refl) as (m' & -> & E1 & E2). destruct (call_object classes slots prov c st n x) as [st' o]. cbn [fst snd] in *.
        injection Ha as <- <-. eexists. split; [reflexivity|].
        assert (Hl : e < length (vars a)) by (apply nth_error_Some; rewrite <- (r_vars _ _ H), E; discriminate).
        constructor; cbn [ws mem next holders vars].
        -- apply (r_len _ _ H).
        -- intros i' y h' Hy Hh. pose proof (r_ws _ _ H _ _ _ Hy Hh) as O. destruct y as [w0|], h' as [h0|]; try exact O.
           apply (wrel_frame (mem s)); [exact O| |].
           ++ intros k _. apply E2. discriminate.
           ++ intros e' c' st0 Ee. destruct (Nat.eq_dec e' e) as [->|Ne].
              ** assert (c' = c) by congruence. subst c'. now exists st'.
              ** exists st0. rewrite E2 by congruence. exact Ee.
        -- intros e'. destruct (Nat.eq_dec e' e) as [->|Ne].
           ++ now rewrite E1, upd_same.
           ++ rewrite E2, upd_other by congruence. apply (r_vars _ _ H).
        -- intros e' c' st0 Ee. apply nth_upd in Ee. destruct Ee as [[-> [= -> ->]]|[Ne Ee]]; [|exact (r_comp _ _ H _ _ _ Ee)].
           rewrite (r_vars _ _ H) in E. exact (r_comp _ _ H _ _ _ E).
        -- apply (r_uniq _ _ H).
        -- apply (r_next _ _ H).
  - (* the program changes a variable *)
    destruct (nth_error (vars a) e) as [[c st0]|] eqn:E; [|discriminate Ha]. injection Ha as <- <-. cbn.
    rewrite (r_vars _ _ H), E. eexists. split; [reflexivity|].
    assert (Hl : e < length (vars a)) by (apply nth_error_Some; congruence).
    constructor; cbn [ws mem next holders vars].
    + apply (r_len _ _ H).
    + intros i' y h' Hy Hh. pose proof (r_ws _ _ H _ _ _ Hy Hh) as O. destruct y as [w0|], h' as [h0|]; try exact O.
      apply (wrel_frame (mem s)); [exact O| |].
      * intros k _. now rewrite set_other by discriminate.
      * intros e' c' st1 Ee. destruct (Nat.eq_dec e' e) as [->|Ne].
        -- rewrite (r_vars _ _ H), E in Ee. exists st. rewrite set_same. congruence.
        -- exists st1. rewrite set_other by congruence. exact Ee.
    + intros e'. destruct (Nat.eq_dec e' e) as [->|Ne].
      * now rewrite set_same, upd_same.
      * rewrite set_other, upd_other by congruence. apply (r_vars _ _ H).
    + intros e' c' st1 Ee. apply nth_upd in Ee. destruct Ee as [[-> [= -> ->]]|[Ne Ee]]; [exact (r_comp _ _ H _ _ _ E)|exact (r_comp _ _ H _ _ _ Ee)].
    + apply (r_uniq _ _ H).
    + apply (r_next _ _ H).
Qed.
Lemma run_ok os : forall s a rs a', rel s a -> Forall op_ok os -> a_run classes slots a os rs a' ->
  exists s', run classes slots small s os = Some (s', rs) /\ rel s' a'.
Proof.
  induction os as [|o os IH]; intros s a rs a' H Ho Ha; inversion Ha; subst; clear Ha.
  - exists s. now split.
  - inversion Ho as [|? ? Ho1 Ho2]; subst.
    match goal with X : a_step _ _ _ _ = _ |- _ => destruct (step_ok s _ o _ _ H Ho1 X) as (u1 & E1 & H1) end.
    match goal with X : a_run _ _ _ os _ _ |- _ => destruct (IH u1 _ _ _ H1 Ho2 X) as (u2 & E2 & H2) end.
    exists u2. cbn. rewrite E1, E2. now split.
Qed.
Lemma init_rel vs : (forall c st, In (c, st) vs -> compiles classes slots c) -> rel (init vs) (Abs [] vs).
Proof.
  intros H. constructor; cbn.
  - reflexivity.
  - intros i x h Hi. destruct i; discriminate Hi.
  - reflexivity.
  - intros e c st E. apply nth_error_In in E. exact (H c st E).
  - intros i j x y k Hi. destruct i; discriminate Hi.
  - intros i x k Hi. destruct i; discriminate Hi.
Qed.
End Proofs.
