(** C79: the ITT branch of the tracer (tasks and ids). *)
From Verif Require Import Base ScopedLog_Model ScopedLog_Spec ScopedLog_Props.
Local Open Scope Z_scope.
Local Arguments Nat.eqb : simpl never.
Local Arguments Z.eqb : simpl never.

(** ** The branch without ITT simulates this one *)
Definition tr (o : iop) : op :=
  match o with
  | ITrace v _ _ d => Trace v (if d then Some 0%nat else None) 0
  | IMove v w => Move v w
  | IDestroy v => Destroy v 0
  end.
Definition abs (x : option object) : option bool :=
  match x with Some (Some _, _) => Some true | Some (None, _) => Some false | None => None end.
Definition ends (e : option (nat * Z)) (e' : option event) : Prop := (exists s d, e = Some (s, d)) <-> e' = Some End.

Lemma sim_step o ist st ist' e' : (forall v, ist v = abs (st v)) -> istep o ist = Some (ist', e') ->
  exists st' e, step (tr o) st = Some (st', e) /\ (forall v, ist' v = abs (st' v)) /\ ends e e'.
Proof.
  intros R S. destruct o as [v name k d|v w|v]; cbn [istep tr step] in *.
  - rewrite R in S. destruct (st v) as [[[?|] ?]|]; try discriminate S. cbn in S. injection S as <- <-.
    eexists _, _. split; [reflexivity|]. split.
    + intros u. unfold iput, put. destruct (Nat.eqb u v); [destruct d; reflexivity|apply R].
    + split; [intros (? & ? & E); discriminate E|]. destruct d; intros E; discriminate E.
  - rewrite !R in S. destruct (st v) as [[l s]|]; [|discriminate S]. destruct (st w) as [[[?|] ?]|] eqn:Ew.
    1,2: destruct l; discriminate S.
    eexists _, _. split; [reflexivity|]. destruct l as [l|]; cbn in S; injection S as <- <-; (split; [|split; [intros (? & ? & E); discriminate E|intros E; discriminate E]]);
      intros u; unfold iput, put; (destruct (Nat.eqb u v); [reflexivity|]); (destruct (Nat.eqb u w); [reflexivity|apply R]).
  - rewrite R in S. destruct (st v) as [[[l|] s]|]; try discriminate S; cbn in S; injection S as <- <-; eexists _, _; (split; [reflexivity|]); split;
      try (intros u; unfold iput, put; (destruct (Nat.eqb u v); [reflexivity|apply R])).
    + split; [reflexivity|]. intros _. now exists l, (0 - s).
    + split; [intros (? & ? & E); discriminate E|intros E; discriminate E].
Qed.
Lemma sim_run h : forall ist st ist' es', (forall v, ist v = abs (st v)) -> irun h ist = Some (ist', es') ->
  exists st' es, run (map tr h) st = Some (st', es) /\ (forall v, ist' v = abs (st' v)) /\ Forall2 ends es es'.
Proof.
  induction h as [|o h IH]; intros ist st ist' es' R E; cbn [irun map run] in *.
  - injection E as <- <-. exists st, []. auto.
  - destruct (istep o ist) as [[ist1 e1]|] eqn:S; [|discriminate E]. destruct (irun h ist1) as [[ist2 es2]|] eqn:S2; [|discriminate E]. injection E as <- <-.
    destruct (sim_step o ist st ist1 e1 R S) as (st1 & e & E1 & R1 & H1). destruct (IH ist1 st1 ist2 es2 R1 S2) as (st2 & es & E2 & R2 & H2).
    rewrite E1, E2. exists st2, (e :: es). auto.
Qed.
Definition as_fate (f : ifate) : fate := match f with IHeld w => Held w | IEnded j => Ended j 0 end.
Lemma sim_follow h : forall v, follow v (map tr h) = as_fate (ifollow v h).
Proof.
  assert (L : forall f, later (as_fate f) = as_fate (ilater f)) by (intros []; reflexivity).
  induction h as [|o h IH]; intros v; cbn [map follow ifollow]; [reflexivity|].
  destruct o as [u name k d|u w|u]; cbn [tr]; rewrite ?IH, ?L; try reflexivity. destruct (Nat.eqb u v); reflexivity.
Qed.
Lemma Forall2_nth (es : list (option (nat * Z))) es' : Forall2 ends es es' -> forall i,
  match nth_error es i, nth_error es' i with Some e, Some e' => ends e e' | None, None => True | _, _ => False end.
Proof. induction 1 as [|e e' es es' H HH IH]; intros [|i]; cbn; try exact I; [exact H|exact (IH i)]. Qed.
Lemma inone_abs v : inone v = abs (none v). Proof. reflexivity. Qed.

Lemma split_tr h : forall h1' o' h2', map tr h = h1' ++ o' :: h2' -> exists h1 o h2, h = h1 ++ o :: h2 /\ tr o = o' /\ map tr h1 = h1' /\ map tr h2 = h2'.
Proof.
  induction h as [|a h IH]; intros [|b h1'] o' h2' E; cbn in E; try discriminate E.
  - injection E as E1 E2. now exists [], a, h.
  - injection E as E1 E2. destruct (IH h1' o' h2' E2) as (h1 & o & h2 & -> & T & M & M'). exists (a :: h1), o, h2. cbn. repeat split; congruence.
Qed.

(** C79. Every call of trace() on a logger with a domain begins exactly one task, with the
    name it was given and the instance number, limited to 0..255; a call on a logger that was moved from begins none. *)
Lemma irun_app h1 : forall h2 st, irun (h1 ++ h2) st =
  match irun h1 st with
  | Some (st1, es1) => match irun h2 st1 with Some (st2, es2) => Some (st2, es1 ++ es2) | None => None end
  | None => None
  end.
Proof.
  induction h1 as [|o h1 IH]; intros h2 st; cbn [app irun].
  - destruct (irun h2 st) as [[? ?]|]; reflexivity.
  - destruct (istep o st) as [[st1 e]|]; [|reflexivity]. rewrite IH. destruct (irun h1 st1) as [[st2 es2]|]; [|reflexivity].
    destruct (irun h2 st2) as [[? ?]|]; reflexivity.
Qed.
Lemma irun_length h : forall st st' es, irun h st = Some (st', es) -> length es = length h.
Proof.
  induction h as [|o h IH]; intros st st' es; cbn [irun]; [intros E; now injection E as _ <-|].
  destruct (istep o st) as [[st1 e]|]; [|discriminate]. destruct (irun h st1) as [[st2 es2]|] eqn:R; [|discriminate].
  intros E. injection E as _ <-. cbn. f_equal. eauto.
Qed.
Theorem C79_begin : forall h st es h1 v name k d h2, irun h inone = Some (st, es) -> h = h1 ++ ITrace v name k d :: h2 ->
  if d then exists id, nth_error es (length h1) = Some (Some (Begin id name)) /\ 0 <= id <= 255 /\
      (0 <= k <= 255 -> id = k) /\ (k < 0 -> id = 0) /\ (255 < k -> id = 255)
  else nth_error es (length h1) = Some None.
Proof.
  intros h st es h1 v name k d h2 R ->. rewrite irun_app in R. destruct (irun h1 inone) as [[st1 es1]|] eqn:R1; [|discriminate R].
  cbn [irun istep] in R. destruct (st1 v); [discriminate R|]. destruct (irun h2 _) as [[st2 es2]|]; [|discriminate R]. injection R as _ <-.
  pose proof (irun_length _ _ _ _ R1) as L. assert (N : forall e, nth_error (es1 ++ e :: es2) (length h1) = Some e).
  { intros e. rewrite nth_error_app2 by lia. now replace (length h1 - length es1)%nat with 0%nat by lia. }
  rewrite N. destruct d; [|reflexivity]. exists (clamp k 0 max_instance_num). split; [reflexivity|]. unfold clamp, max_instance_num.
  destruct (Z.ltb_spec k 0); destruct (Z.ltb_spec 255 k); lia.
Qed.
Print Assumptions C79_begin.

(** Only calls of trace() begin tasks. *)
Theorem C79_only_begin : forall h st es i id name, irun h inone = Some (st, es) -> nth_error es i = Some (Some (Begin id name)) ->
  exists v k, nth_error h i = Some (ITrace v name k true).
Proof.
  intros h st es i id name. generalize inone. revert st es i. induction h as [|o h IH]; intros st es i st0 R E; cbn [irun] in R.
  - injection R as _ <-. destruct i; discriminate E.
  - destruct (istep o st0) as [[st1 e]|] eqn:S; [|discriminate R]. destruct (irun h st1) as [[st2 es2]|] eqn:R2; [|discriminate R]. injection R as _ <-.
    destruct i as [|i]; [|exact (IH _ _ i _ R2 E)]. cbn in E. injection E as ->. cbn [nth_error].
    destruct o as [v n k d|v w|v]; cbn [istep] in S.
    + destruct (st0 v); [discriminate S|]. destruct d; [|discriminate S]. injection S as _ <- <-. now exists v, k.
    + destruct (st0 v); [|discriminate S]. destruct (st0 w); discriminate S.
    + destruct (st0 v) as [[]|]; discriminate S.
Qed.
Print Assumptions C79_only_begin.

(** The task is ended once, by the destructor of the last object the result
    was moved to; *)
Theorem C79_last_owner : forall h st es h1 v name k h2, irun h inone = Some (st, es) -> h = h1 ++ ITrace v name k true :: h2 ->
  match ifollow v h2 with
  | IEnded j => nth_error es (length h1 + 1 + j) = Some (Some End) /\ exists w, nth_error h (length h1 + 1 + j) = Some (IDestroy w)
  | IHeld w => st w = Some true
  end.
Proof.
  intros h st es h1 v name k h2 R ->. destruct (sim_run _ inone none st es inone_abs R) as (st' & es' & R' & A & F).
  pose proof (C78_last_owner (map tr (h1 ++ ITrace v name k true :: h2)) st' es' (map tr h1) v 0%nat 0 (map tr h2) R') as K.
  rewrite map_app in K. specialize (K eq_refl). rewrite sim_follow, map_length in K. destruct (ifollow v h2) as [w|j]; cbn [as_fate] in K.
  - now rewrite A, K.
  - destruct K as [K1 (w & K2)]. split.
    + pose proof (Forall2_nth es' es F (length h1 + 1 + j)) as E. rewrite K1 in E. destruct (nth_error es (length h1 + 1 + j)) as [e|]; [|easy].
      f_equal. apply E. eauto.
    + exists w. rewrite <- (map_app tr h1 (ITrace v name k true :: h2)) in K2. rewrite nth_error_map in K2. destruct (nth_error (h1 ++ ITrace v name k true :: h2) (length h1 + 1 + j)) as [o|]; cbn in K2; [|discriminate K2].
      destruct o; cbn in K2; try discriminate K2. injection K2 as ->. reflexivity.
Qed.
Print Assumptions C79_last_owner.

(** nothing else ends tasks... *)
Theorem C79_nothing_else : forall h st es i, irun h inone = Some (st, es) -> nth_error es i = Some (Some End) ->
  exists h1 v name k h2 j, h = h1 ++ ITrace v name k true :: h2 /\ ifollow v h2 = IEnded j /\ i = (length h1 + 1 + j)%nat.
Proof.
  intros h st es i R E. destruct (sim_run _ inone none st es inone_abs R) as (st' & es' & R' & A & F).
  pose proof (Forall2_nth es' es F i) as N. rewrite E in N. destruct (nth_error es' i) as [e|] eqn:Ei; [|easy].
  destruct (proj2 N eq_refl) as (s & d & ->). destruct (C78_nothing_else _ _ _ _ _ _ R' Ei) as (h1' & v & t0 & h2' & j & t & Eh & Fo & Hi & _).
  destruct (split_tr h h1' _ h2' Eh) as (h1 & o & h2 & -> & T & <- & <-). destruct o as [u name k dd|u w|u]; cbn in T; try discriminate T.
  destruct dd; [|discriminate T]. injection T as -> _ _. rewrite sim_follow in Fo. rewrite map_length in Hi.
  destruct (ifollow v h2) as [w|j'] eqn:Ef; [discriminate Fo|]. cbn in Fo. injection Fo as <- _. exists h1, v, name, k, h2, j'. auto.
Qed.
Print Assumptions C79_nothing_else.

(** ...and no destructor ends two. *)
Theorem C79_one_region : forall h st es h1 v n k h2 h1' v' n' k' h2' j j', irun h inone = Some (st, es) ->
  h = h1 ++ ITrace v n k true :: h2 -> h = h1' ++ ITrace v' n' k' true :: h2' -> length h1 <> length h1' ->
  ifollow v h2 = IEnded j -> ifollow v' h2' = IEnded j' -> (length h1 + 1 + j <> length h1' + 1 + j')%nat.
Proof.
  intros h st es h1 v n k h2 h1' v' n' k' h2' j j' R E E' N F F'. destruct (sim_run _ inone none st es inone_abs R) as (st' & es' & R' & _ & _).
  pose proof (C78_one_region (map tr h) st' es' (map tr h1) v 0%nat 0 (map tr h2) (map tr h1') v' 0%nat 0 (map tr h2') j 0 j' 0 R') as K.
  rewrite E in K at 1. rewrite E' in K at 1. rewrite !map_app, !map_length, !sim_follow, F, F' in K. now apply K.
Qed.
Print Assumptions C79_one_region.

(** ** Which task is ended *)
(** [stk]: the open regions, innermost first: holder and position of the beginning. *)
Definition consistent (st : iobjects) (stk : list (nat * nat)) : Prop :=
  NoDup (map fst stk) /\ forall v, st v = Some true <-> In v (map fst stk).
Fixpoint before (n : nat) (l : list nat) : Prop := match l with [] => True | p :: l => (p < n)%nat /\ before p l end.
Lemma before_le l : forall n m, (n <= m)%nat -> before n l -> before m l.
Proof. induction l as [|p l IH]; cbn; [easy|]. intros n m L [A B]. split; [lia|exact B]. Qed.
Lemma before_in l : forall n p, before n l -> In p l -> (p < n)%nat.
Proof. induction l as [|q l IH]; cbn; [easy|]. intros n p [A B] [->|H]; [exact A|]. specialize (IH q p B H). lia. Qed.
Definition own (h : list iop) (es : list (option event)) (n : nat) (stk : list (nat * nat)) : Prop :=
  (forall v p j, In (v, p) stk -> ifollow v h = IEnded j -> nth_error (tasks es n (map snd stk)) j = Some (Some p)) /\
  (forall h1 v name k h2 j, h = h1 ++ ITrace v name k true :: h2 -> ifollow v h2 = IEnded j ->
     nth_error (tasks es n (map snd stk)) (length h1 + 1 + j) = Some (Some (n + length h1)%nat)).

Lemma nodup_fst v p q (stk : list (nat * nat)) : NoDup (map fst stk) -> In (v, p) stk -> In (v, q) stk -> p = q.
Proof.
  induction stk as [|[u r] stk IH]; cbn; [easy|]. intros ND. inversion_clear ND as [|? ? N ND'].
  intros [E1|H1] [E2|H2]; [congruence| | |auto].
  - injection E1 as -> ->. destruct N. apply (in_map fst _ _ H2).
  - injection E2 as -> ->. destruct N. apply (in_map fst _ _ H1).
Qed.
(** An operation that makes no call of the library. *)
Lemma own_skip o h es n stk stk' f : (forall v, ifollow v (o :: h) = ilater (ifollow (f v) h)) -> map snd stk' = map snd stk ->
  (forall v p, In (v, p) stk <-> In (v, p) stk) -> (forall v p, In (v, p) stk -> In (f v, p) stk') ->
  (forall u p, In (u, p) stk' -> exists v, u = f v /\ In (v, p) stk) -> (match o with ITrace _ _ _ true => False | _ => True end) ->
  own (o :: h) (None :: es) n stk <-> own h es (S n) stk'.
Proof.
  intros Ff Es _ H1 H2 T. unfold own. cbn [tasks]. rewrite Es. split; intros [A B]; split.
  - intros u p j Hu Fu. destruct (H2 u p Hu) as (v & -> & Hv). specialize (A v p (S j) Hv). rewrite Ff, Fu in A. exact (A eq_refl).
  - intros h1 v name k h2 j -> Fv. specialize (B (o :: h1) v name k h2 j eq_refl Fv). cbn [length Nat.add nth_error] in B. rewrite B. do 2 f_equal. lia.
  - intros v p j Hv Fv. rewrite Ff in Fv. destruct (ifollow (f v) h) as [|i] eqn:Fi; [discriminate Fv|]. injection Fv as <-. cbn [nth_error]. exact (A (f v) p i (H1 v p Hv) Fi).
  - intros [|a h1] v name k h2 j E Fv; cbn [app] in E; injection E as -> ->; [easy|]. cbn [length Nat.add nth_error]. rewrite (B h1 v name k h2 j eq_refl Fv). do 2 f_equal. lia.
Qed.

Lemma nesting h : forall st st' es n stk, irun h st = Some (st', es) -> consistent st stk -> before n (map snd stk) ->
  (nested h (map fst stk) <-> own h es n stk).
Proof.
  induction h as [|o h IH]; intros st st' es n stk R C Bf; cbn [irun] in R.
  - injection R as _ <-. cbn [nested]. split; [intros _|easy]. split; [intros v p j _ E; discriminate E|]. intros [|? ?] v name k h2 j E; discriminate E.
  - destruct (istep o st) as [[st1 e]|] eqn:S; [|discriminate R]. destruct (irun h st1) as [[st2 es2]|] eqn:R2; [|discriminate R]. injection R as <- <-.
    destruct C as [ND C]. destruct o as [v name k d|v w|v]; cbn [istep] in S; cbn [nested].
    + destruct (st v) eqn:Ev; [discriminate S|]. injection S as <- <-. assert (Nv : ~ In v (map fst stk)) by (rewrite <- C; congruence).
      destruct d.
      * (* a new region *)
        assert (C1 : consistent (iput v (Some true) st) ((v, n) :: stk)).
        { split; [now constructor|]. intros u. unfold iput. cbn. destruct (Nat.eqb_spec u v) as [->|N]; [tauto|]. rewrite C. split; [tauto|]. intros [->|H]; tauto. }
        rewrite (IH _ _ _ (S n) ((v, n) :: stk) R2 C1 (conj (Nat.lt_succ_diag_r n) Bf)). unfold own. cbn [tasks map snd]. split; intros [A B]; split.
        -- intros u p j Hu Fu. cbn [ifollow] in Fu. destruct (ifollow u h) as [|i] eqn:Fi; [discriminate Fu|]. injection Fu as <-. cbn [nth_error]. apply (A u p i); [now right|exact Fi].
        -- intros [|a h1] u nm kk h2 j E Fu; cbn [app] in E.
           ++ injection E as -> -> -> ->. cbn [length Nat.add nth_error]. rewrite Nat.add_0_r. exact (A u n j (or_introl eq_refl) Fu).
           ++ injection E as <- ->. cbn [length Nat.add nth_error]. rewrite (B h1 u nm kk h2 j eq_refl Fu). do 2 f_equal. lia.
        -- intros u p j [E|Hu] Fu.
           ++ injection E as <- <-. specialize (B [] v name k h j eq_refl Fu). cbn [length Nat.add nth_error] in B. now rewrite Nat.add_0_r in B.
           ++ specialize (A u p (S j) Hu). cbn [ifollow] in A. rewrite Fu in A. exact (A eq_refl).
        -- intros h1 u nm kk h2 j -> Fu. specialize (B (ITrace v name k true :: h1) u nm kk h2 j eq_refl Fu). cbn [length Nat.add nth_error] in B. rewrite B. do 2 f_equal. lia.
      * assert (C1 : consistent (iput v (Some false) st) stk).
        { split; [exact ND|]. intros u. unfold iput. destruct (Nat.eqb_spec u v) as [->|N]; [|apply C]. split; [discriminate|tauto]. }
        rewrite (IH _ _ _ (S n) stk R2 C1 ltac:(first [apply (before_le _ n); [lia|exact Bf] | destruct Bf as [Bf1 Bf2]; apply (before_le _ q); [cbn in Bf1; lia|exact Bf2]])). symmetry. apply (own_skip _ _ _ _ _ _ (fun x => x)); try easy. intros u p H. now exists u.
    + destruct (st v) as [d|] eqn:Ev; [|discriminate S]. destruct (st w) eqn:Ew; [discriminate S|]. injection S as <- <-.
      assert (Nw : ~ In w (map fst stk)) by (rewrite <- C; congruence). set (f := fun x => if Nat.eqb x v then w else x).
      set (g := fun y : nat * nat => (f (fst y), snd y)).
      assert (Efst : map fst (map g stk) = map f (map fst stk)) by (rewrite !map_map; reflexivity).
      assert (C1 : consistent (iput v (Some false) (iput w (Some d) st)) (map g stk)).
      { unfold consistent. rewrite Efst. split.
        - clear -ND Nw. induction (map fst stk) as [|a l IHl]; cbn; [constructor|]. inversion_clear ND as [|? ? Na ND']. constructor.
          + rewrite in_map_iff. intros (b & Eb & Hb). unfold f in Eb. cbn in Nw. destruct (Nat.eqb_spec b v) as [E1|]; destruct (Nat.eqb_spec a v) as [E2|]; [apply Na; congruence|apply Nw; left; congruence|apply Nw; right; congruence|apply Na; congruence].
          + apply IHl; [exact ND'|]. cbn in Nw. tauto.
        - intros u. rewrite in_map_iff. unfold iput. destruct (Nat.eqb_spec u v) as [->|N1].
          + split; [discriminate|]. intros (b & Eb & Hb). unfold f in Eb. destruct (Nat.eqb_spec b v) as [E1|]; [|congruence]. destruct Nw. congruence.
          + destruct (Nat.eqb_spec u w) as [->|N2].
            * split.
              -- intros Ed. injection Ed as ->. exists v. unfold f. rewrite Nat.eqb_refl. split; [reflexivity|]. now apply C.
              -- intros (b & Eb & Hb). unfold f in Eb. destruct (Nat.eqb_spec b v) as [E1|]; [|destruct Nw; congruence]. apply C in Hb. congruence.
            * rewrite C. split.
              -- intros Hu. exists u. unfold f. now rewrite (proj2 (Nat.eqb_neq u v)) by exact N1.
              -- intros (b & Eb & Hb). unfold f in Eb. destruct (Nat.eqb_spec b v) as [E1|]; congruence. }
      assert (Esnd : map snd (map g stk) = map snd stk) by (rewrite map_map; reflexivity).
      assert (Bf2 : before (S n) (map snd (map g stk))) by (rewrite Esnd; apply (before_le _ n); [lia|exact Bf]).
      rewrite <- Efst, (IH _ _ _ (S n) (map g stk) R2 C1 Bf2). symmetry.
      apply (own_skip _ _ _ _ _ _ f); try easy.
      * intros u. cbn [ifollow]. unfold f. now rewrite Nat.eqb_sym.
      * intros u p H. apply (in_map g _ _ H).
      * intros u p H. apply in_map_iff in H. destruct H as ([u' p'] & E & H). unfold g in E. cbn in E. injection E as <- <-. now exists u'.
    + destruct (st v) as [d|] eqn:Ev; [|discriminate S]. injection S as <- <-. destruct d.
      * destruct stk as [|[u q] stk]; [destruct (proj1 (C v) Ev)|]. cbn [map fst]. destruct (Nat.eqb_spec u v) as [->|Nu].
        -- (* the innermost region *)
           inversion_clear ND as [|? ? Nv ND']. assert (C1 : consistent (iput v None st) stk).
           { split; [exact ND'|]. intros x. unfold iput. destruct (Nat.eqb_spec x v) as [->|Nx].
             - split; [discriminate|]. intros H. destruct (Nv H).
             - rewrite C. cbn. split; [|tauto]. intros [E|H]; [congruence|exact H]. }
           rewrite (IH _ _ _ (S n) stk R2 C1 ltac:(first [apply (before_le _ n); [lia|exact Bf] | destruct Bf as [Bf1 Bf2]; apply (before_le _ q); [cbn in Bf1; lia|exact Bf2]])). unfold own. cbn [tasks map snd]. split; intros [A B]; split.
           ++ intros x p j Hx Fx. cbn [ifollow] in Fx. destruct (Nat.eqb_spec v x) as [->|Nx].
              ** injection Fx as <-. cbn. destruct Hx as [E|H]; [now injection E as ->|]. destruct Nv. apply (in_map fst _ _ H).
              ** destruct (ifollow x h) as [|i] eqn:Fi; [discriminate Fx|]. injection Fx as <-. cbn [nth_error]. destruct Hx as [E|H]; [congruence|]. exact (A x p i H Fi).
           ++ intros [|a h1] x nm kk h2 j E Fx; cbn [app] in E; [discriminate E|]. injection E as <- ->. cbn [length Nat.add nth_error]. rewrite (B h1 x nm kk h2 j eq_refl Fx). do 2 f_equal. lia.
           ++ intros x p j Hx Fx. specialize (A x p (S j) (or_intror Hx)). cbn [ifollow] in A. rewrite (proj2 (Nat.eqb_neq v x)), Fx in A.
              ** exact (A eq_refl).
              ** intros ->. destruct Nv. apply (in_map fst _ _ Hx).
           ++ intros h1 x nm kk h2 j -> Fx. specialize (B (IDestroy v :: h1) x nm kk h2 j eq_refl Fx). cbn [length Nat.add nth_error] in B. rewrite B. do 2 f_equal. lia.
        -- (* another one *)
           assert (Hv : In v (map fst stk)) by (destruct (proj1 (C v) Ev) as [E|H]; [cbn in E; congruence|exact H]).
           split; [intros [N _]; contradiction|]. intros [A _]. exfalso. apply in_map_iff in Hv. destruct Hv as ([v' p] & E & Hv). cbn in E. subst v'.
           specialize (A v p 0%nat (or_intror Hv)). cbn [ifollow tasks map snd nth_error] in A. rewrite Nat.eqb_refl in A. specialize (A eq_refl). injection A as ->.
           destruct Bf as [_ Bf]. pose proof (before_in _ _ p Bf (in_map snd _ _ Hv)) as X. cbn in X. lia.
      * assert (Nv : ~ In v (map fst stk)) by (rewrite <- C; congruence). assert (C1 : consistent (iput v None st) stk).
        { split; [exact ND|]. intros x. unfold iput. destruct (Nat.eqb_spec x v) as [->|Nx]; [|apply C]. split; [discriminate|]. intros H. destruct (Nv H). }
        transitivity (nested h (map fst stk)).
        { destruct stk as [|[u q] stk]; cbn [map fst]; [easy|]. cbn in Nv. rewrite (proj2 (Nat.eqb_neq u v)) by tauto. split; [tauto|]. intros H. split; [tauto|exact H]. }
        rewrite (IH _ _ _ (S n) stk R2 C1 ltac:(first [apply (before_le _ n); [lia|exact Bf] | destruct Bf as [Bf1 Bf2]; apply (before_le _ q); [cbn in Bf1; lia|exact Bf2]])). symmetry.
        (* v is not the holder of a region *)
        unfold own. cbn [tasks]. split; intros [A B]; split.
        -- intros x p j Hx Fx. specialize (A x p (S j) Hx). cbn [ifollow] in A. rewrite (proj2 (Nat.eqb_neq v x)), Fx in A.
           ++ exact (A eq_refl).
           ++ intros ->. destruct Nv. apply (in_map fst _ _ Hx).
        -- intros h1 x nm kk h2 j -> Fx. specialize (B (IDestroy v :: h1) x nm kk h2 j eq_refl Fx). cbn [length Nat.add nth_error] in B. rewrite B. do 2 f_equal. lia.
        -- intros x p j Hx Fx. cbn [ifollow] in Fx. destruct (Nat.eqb_spec v x) as [->|Nx]; [destruct Nv; apply (in_map fst _ _ Hx)|].
           destruct (ifollow x h) as [|i] eqn:Fi; [discriminate Fx|]. injection Fx as <-. cbn [nth_error]. exact (A x p i Hx Fi).
        -- intros [|a h1] x nm kk h2 j E Fx; cbn [app] in E; [discriminate E|]. injection E as <- ->. cbn [length Nat.add nth_error]. rewrite (B h1 x nm kk h2 j eq_refl Fx). do 2 f_equal. lia.
Qed.

(** Every region that is closed ends its own task exactly when the regions are closed
    innermost first, whatever the moves. *)
Theorem C79_nesting : forall h st es, irun h inone = Some (st, es) -> (nested h [] <-> closes_own_task h es).
Proof.
  intros h st es R. rewrite (nesting h inone st es 0 [] R); [|split; [constructor|intros v; split; [discriminate|intros []]]|exact I].
  unfold own, closes_own_task. cbn [map snd]. split; [intros [_ B]|intros B; split]; auto. intros v p j [].
Qed.
Print Assumptions C79_nesting.

(** In particular for variables in scopes, as with GUANAQO_TRACE. *)
Lemma scoped_nested h : forall st st' es stack, irun h st = Some (st', es) -> scoped h stack -> NoDup stack -> (forall v, st v <> None <-> In v stack) ->
  nested h (filter (fun v => match st v with Some d => d | None => false end) stack).
Proof.
  induction h as [|o h IH]; intros st st' es stack R Sc ND C; [exact I|]. cbn [irun] in R.
  destruct (istep o st) as [[st1 e]|] eqn:S; [|discriminate R]. destruct (irun h st1) as [[st2 es2]|] eqn:R2; [|discriminate R]. clear R.
  destruct o as [v name k d|v w|v]; cbn [istep scoped nested] in *; [|easy|].
  - destruct (st v) eqn:Ev; [discriminate S|]. injection S as <- _. assert (Nv : ~ In v stack) by (rewrite <- C; congruence).
    assert (X : filter (fun u => match iput v (Some d) st u with Some b => b | None => false end) (v :: stack) =
      (if d then v :: filter (fun u => match st u with Some b => b | None => false end) stack else filter (fun u => match st u with Some b => b | None => false end) stack)).
    { cbn [filter]. unfold iput at 1. rewrite Nat.eqb_refl. assert (Y : filter (fun u => match iput v (Some d) st u with Some b => b | None => false end) stack = filter (fun u => match st u with Some b => b | None => false end) stack).
      { apply filter_ext_in. intros u Hu. unfold iput. destruct (Nat.eqb_spec u v) as [->|]; [contradiction|reflexivity]. }
      rewrite Y. reflexivity. }
    rewrite <- X. apply (IH _ st2 es2 (v :: stack) R2 Sc); [now constructor|]. intros u. unfold iput. destruct (Nat.eqb_spec u v) as [->|N]; cbn.
    + split; [now left|discriminate].
    + rewrite C. split; [now right|]. intros [->|H]; [congruence|exact H].
  - destruct stack as [|u stack]; [easy|]. destruct Sc as [-> Sc]. destruct (st v) as [d|] eqn:Ev; [|discriminate S]. injection S as <- _.
    inversion_clear ND as [|? ? Nv ND'].
    assert (Y : filter (fun u => match iput v None st u with Some b => b | None => false end) stack = filter (fun u => match st u with Some b => b | None => false end) stack).
    { apply filter_ext_in. intros u Hu. unfold iput. destruct (Nat.eqb_spec u v) as [->|]; [contradiction|reflexivity]. }
    assert (K : nested h (filter (fun u => match st u with Some b => b | None => false end) stack)).
    { rewrite <- Y. apply (IH _ st2 es2 stack R2 Sc ND'). intros u. unfold iput. destruct (Nat.eqb_spec u v) as [->|N].
      - split; [congruence|tauto].
      - rewrite C. cbn. split; [intros [->|H]; [congruence|exact H]|tauto]. }
    cbn [filter]. rewrite Ev. destruct d.
    + now rewrite Nat.eqb_refl.
    + clear Y. assert (Nl : ~ In v (filter (fun u => match st u with Some b => b | None => false end) stack)) by (intros H; apply filter_In in H; tauto).
      destruct (filter _ stack) as [|a l]; [exact K|]. rewrite (proj2 (Nat.eqb_neq a v)) by (intros ->; apply Nl; now left). split; [intros H; apply Nl; now right|exact K].
Qed.
Theorem C79_scopes : forall h st es, irun h inone = Some (st, es) -> scoped h [] -> closes_own_task h es.
Proof.
  intros h st es R Sc. apply (C79_nesting h st es R). apply (scoped_nested h inone st es [] R Sc); [constructor|]. intros v. split; [intros N; now destruct N|intros []].
Qed.
Print Assumptions C79_scopes.

(** ** The ids of the loggers *)
Lemma existing_app i l1 l2 : existing i (l1 ++ l2) = existing i l1 + existing i l2.
Proof. induction l1 as [|[k|k] l1 IH]; cbn [app existing]; [reflexivity| |]; rewrite IH; lia. Qed.
Definition one (i : Z) : Z := if (0 <=? i) && (i <=? 255) then 1 else 0.
Lemma existing_create i : existing i (map Create all_ids) = one i.
Proof.
  assert (G : forall n a, existing i (map Create (map Z.of_nat (seq a n))) = if (Z.of_nat a <=? i) && (i <? Z.of_nat a + Z.of_nat n) then 1 else 0).
  { induction n as [|n IH]; intros a; cbn [seq map existing].
    - destruct (Z.leb_spec (Z.of_nat a) i); destruct (Z.ltb_spec i (Z.of_nat a + Z.of_nat 0)); cbn; lia.
    - rewrite IH. destruct (Z.eqb_spec (Z.of_nat a) i); destruct (Z.leb_spec (Z.of_nat (S a)) i); destruct (Z.leb_spec (Z.of_nat a) i); destruct (Z.ltb_spec i (Z.of_nat (S a) + Z.of_nat n)); destruct (Z.ltb_spec i (Z.of_nat a + Z.of_nat (S n))); cbn [andb]; lia. }
  unfold all_ids. rewrite G. unfold one, max_instance_num. destruct (Z.leb_spec (Z.of_nat 0) i); destruct (Z.leb_spec 0 i); destruct (Z.leb_spec i 255); destruct (Z.ltb_spec i (Z.of_nat 0 + Z.of_nat (S (Z.to_nat 255)))); cbn [andb]; lia.
Qed.
Lemma ids_range i : In i all_ids -> 0 <= i <= 255.
Proof. intros Hi. unfold all_ids in Hi. apply in_map_iff in Hi. destruct Hi as (n & <- & Hn). apply in_seq in Hn. unfold max_instance_num in Hn. lia. Qed.
Local Opaque all_ids.
Lemma existing_discard i l : existing i (map Discard l) = - existing i (map Create l).
Proof. induction l as [|k l IH]; cbn [map existing]; [reflexivity|]. rewrite IH. destruct (k =? i); lia. Qed.

(** [held]: the loggers that have a domain. *)
Lemma loggers h : forall st st' es held, lrun h st = Some (st', es) -> NoDup held -> (forall l, st l = Some true <-> In l held) ->
  forall i, existing i es = one i * (alive h + Z.of_nat (length (filter (fun l => lfollow l h) held)) - Z.of_nat (length held)).
Proof.
  induction h as [|o h IH]; intros st st' es held R ND C i; cbn [lrun] in R.
  - injection R as _ <-. cbn. assert (F : filter (fun _ => true) held = held) by (clear; induction held; cbn; congruence). rewrite F. lia.
  - destruct (lstep o st) as [[st1 e]|] eqn:S; [|discriminate R]. destruct (lrun h st1) as [[st2 es2]|] eqn:R2; [|discriminate R]. injection R as _ <-.
    rewrite existing_app. destruct o as [l|l m|l]; cbn [lstep] in S; cbn [alive lfollow].
    + destruct (st l) eqn:El; [discriminate S|]. injection S as <- <-. assert (Nl : ~ In l held) by (rewrite <- C; congruence).
      rewrite (IH _ _ _ (l :: held) R2); [|now constructor|].
      * rewrite existing_create. cbn [filter length]. destruct (lfollow l h); cbn [length]; lia.
      * intros u. unfold iput. destruct (Nat.eqb_spec u l) as [->|N]; cbn; [tauto|]. rewrite C. split; [tauto|]. intros [E|H]; [congruence|exact H].
    + destruct (st l) as [d|] eqn:El; [|discriminate S]. destruct (st m) eqn:Em; [discriminate S|]. injection S as <- <-. cbn [existing].
      set (f := fun x => if Nat.eqb l x then m else x). assert (Nm : ~ In m held) by (rewrite <- C; congruence).
      rewrite (IH _ _ _ (map f held) R2).
      * rewrite map_length. assert (E : length (filter (fun x => lfollow x h) (map f held)) = length (filter (fun x => lfollow (if Nat.eqb l x then m else x) h) held)).
        { clear. induction held as [|a held IH]; cbn; [reflexivity|]. unfold f at 1. destruct (lfollow _ h); cbn; rewrite IH; reflexivity. }
        rewrite E. lia.
      * clear -ND Nm. induction held as [|a held IHl]; cbn; [constructor|]. inversion_clear ND as [|? ? Na ND']. constructor.
        -- rewrite in_map_iff. intros (b & Eb & Hb). unfold f in Eb. cbn in Nm. destruct (Nat.eqb_spec l b) as [E1|]; destruct (Nat.eqb_spec l a) as [E2|]; [apply Na; congruence|apply Nm; left; congruence|apply Nm; right; congruence|apply Na; congruence].
        -- apply IHl; [exact ND'|]. cbn in Nm. tauto.
      * intros u. rewrite in_map_iff. unfold iput. destruct (Nat.eqb_spec u l) as [->|N1].
        -- split; [discriminate|]. intros (b & Eb & Hb). unfold f in Eb. destruct (Nat.eqb_spec l b) as [E1|]; [|congruence]. destruct Nm. congruence.
        -- destruct (Nat.eqb_spec u m) as [->|N2].
           ++ split.
              ** intros Ed. injection Ed as ->. exists l. unfold f. rewrite Nat.eqb_refl. split; [reflexivity|]. now apply C.
              ** intros (b & Eb & Hb). unfold f in Eb. destruct (Nat.eqb_spec l b) as [E1|]; [|destruct Nm; congruence]. apply C in Hb. congruence.
           ++ rewrite C. split.
              ** intros Hu. exists u. unfold f. now rewrite (proj2 (Nat.eqb_neq l u)) by congruence.
              ** intros (b & Eb & Hb). unfold f in Eb. destruct (Nat.eqb_spec l b) as [E1|]; congruence.
    + destruct (st l) as [d|] eqn:El; [|discriminate S]. injection S as <- <-.
      set (held' := filter (fun x => negb (Nat.eqb l x)) held).
      rewrite (IH _ _ _ held' R2).
      * assert (E : existing i (if d then map Discard all_ids else []) = if d then - one i else 0) by (destruct d; [rewrite existing_discard, existing_create|]; reflexivity).
        rewrite E. assert (F : filter (fun x => lfollow x h) held' = filter (fun x => if Nat.eqb l x then false else lfollow x h) held).
        { unfold held'. clear. induction held as [|a held IH]; cbn; [reflexivity|]. destruct (Nat.eqb l a); cbn; [exact IH|]. destruct (lfollow a h); rewrite IH; reflexivity. }
        rewrite F. assert (L : Z.of_nat (length held') = Z.of_nat (length held) - if d then 1 else 0); [|rewrite L; destruct d; lia].
        destruct d.
        -- assert (Hl : In l held) by now apply C. unfold held'. clear -ND Hl. induction held as [|a held IH]; [easy|]. inversion_clear ND as [|? ? Na ND']. cbn [filter length].
           destruct (Nat.eqb_spec l a) as [->|N]; cbn [negb].
           ++ assert (X : filter (fun x => negb (Nat.eqb a x)) held = held).
              { clear -Na. induction held as [|b held IH]; cbn in *; [reflexivity|]. rewrite (proj2 (Nat.eqb_neq a b)) by (intros ->; tauto). cbn. rewrite IH; tauto. }
              rewrite X. lia.
           ++ cbn [length]. destruct Hl as [E|Hl]; [congruence|]. specialize (IH ND' Hl). lia.
        -- assert (Nl : ~ In l held) by (rewrite <- C; congruence). unfold held'. clear -Nl. induction held as [|b held IH]; cbn in *; [reflexivity|].
           rewrite (proj2 (Nat.eqb_neq l b)) by (intros ->; tauto). cbn [negb length]. specialize (IH ltac:(tauto)). lia.
      * apply NoDup_filter, ND.
      * intros u. unfold held'. rewrite filter_In. unfold iput. destruct (Nat.eqb_spec u l) as [->|N].
        -- rewrite Nat.eqb_refl. split; [discriminate|]. intros [_ E]. discriminate E.
        -- rewrite (proj2 (Nat.eqb_neq l u)) by congruence. rewrite C. cbn. tauto.
Qed.
(** At every moment each of the ids 0..255 has been created once for every logger whose last
    owner is alive, and not once more; no other id is ever created or destroyed. *)
Theorem C79_ids : forall h st es i, lrun h inone = Some (st, es) -> existing i es = if (0 <=? i) && (i <=? 255) then alive h else 0.
Proof.
  intros h st es i R. rewrite (loggers h inone st es [] R); [|constructor|intros l; split; [discriminate|intros []]].
  cbn [filter length]. unfold one. destruct ((0 <=? i) && (i <=? 255)); lia.
Qed.
Print Assumptions C79_ids.
Theorem C79_ids_only : forall h st es e, lrun h inone = Some (st, es) -> In e es -> match e with Create i | Discard i => 0 <= i <= 255 end.
Proof.
  intros h st es e. generalize inone. revert st es. induction h as [|o h IH]; intros st es st0 R H; cbn [lrun] in R; [injection R as _ <-; destruct H|].
  destruct (lstep o st0) as [[st1 e1]|] eqn:S; [|discriminate R]. destruct (lrun h st1) as [[st2 es2]|] eqn:R2; [|discriminate R]. injection R as _ <-.
  apply in_app_or in H. destruct H as [H|H]; [|exact (IH _ _ _ R2 H)].
  pose proof ids_range as A.
  destruct o as [l|l m|l]; cbn [lstep] in S.
  - destruct (st0 l); [discriminate S|]. injection S as _ <-. apply in_map_iff in H. destruct H as (i & <- & Hi). auto.
  - destruct (st0 l); [|discriminate S]. destruct (st0 m); [discriminate S|]. injection S as _ <-. destruct H.
  - destruct (st0 l) as [[]|]; [| |discriminate S]; injection S as _ <-; [|destruct H]. apply in_map_iff in H. destruct H as (i & <- & Hi). auto.
Qed.
Print Assumptions C79_ids_only.

(** Nested regions, one of them moved out of an inner scope: each ends its own task; the instance number is limited. *)
Example C79_nonvacuous :
  let h := [ITrace 0 10 5 true; ITrace 1 11 300 true; IMove 1 2; ITrace 3 12 0 false; IDestroy 3; IDestroy 1; IDestroy 2; IDestroy 0] in
  let es := [Some (Begin 5 10); Some (Begin 255 11); None; None; None; None; Some End; Some End] in
  (exists st, irun h inone = Some (st, es)) /\ nested h [] /\ tasks es 0 [] = [None; None; None; None; None; None; Some 1%nat; Some 0%nat] /\ ifollow 0 (tl h) = IEnded 6.
Proof. cbn -[Z.add]. unfold Nat.eqb. split; [eexists; reflexivity|]. split; [|auto]. repeat split; try exact I; intros H; repeat destruct H as [H|H]; try discriminate H; destruct H. Qed.
(** A region that is moved to an outer scope and outlives a region begun later: the destructors end each other's tasks. *)
Example C79_crossed :
  let h := [ITrace 0 10 5 true; ITrace 1 11 6 true; IDestroy 0; IDestroy 1] in
  let es := [Some (Begin 5 10); Some (Begin 6 11); Some End; Some End] in
  (exists st, irun h inone = Some (st, es)) /\ ~ nested h [] /\ ~ closes_own_task h es.
Proof.
  cbn. unfold Nat.eqb. split; [eexists; reflexivity|]. split; [intros [H _]; apply H; now left|]. intros H.
  specialize (H [] 0%nat 10 5 _ 1%nat eq_refl eq_refl). discriminate H.
Qed.
Example C79_ids_nonvacuous :
  let h := [LNew 0; LMove 0 1; LNew 2; LDestroy 0; LDestroy 1] in
  (exists st es, lrun h inone = Some (st, es)) /\ alive h = 1.
Proof. split; [eexists _, _; reflexivity|reflexivity]. Qed.
