(** C67: the model follows the book-keeping of [loan_step] exactly. *)
From Verif Require Import Base ConverterCopy_Spec ConverterCopy_Model ConverterCopy_Proofs.
Local Arguments Nat.eqb : simpl never.

Definition has {A} (l : list A) : bool := match l with [] => false | _ => true end.

Section Loan.
Context (ext : nat -> list Z).

(** The vectors of a store: their places and contents. *)
Definition stored (h : nat -> option (list Z)) (B : list nat) (C : list (list Z)) : Prop :=
  Forall2 (fun b c => h b = Some c) B C.
Definition gone (h : nat -> option (list Z)) (B : list nat) : Prop := forall b, In b B -> h b = None.

Definition var_ok (w : world) (l : lstate) (B : nat -> list nat) (C : nat -> list (list Z)) (i : nat) : Prop :=
  match lvars l i with
  | LFree => vars w i = None
  | LMoved => exists s, vars w i = Some s /\ dead w i = true /\ vecs s = []
  | LValue v c hd rd => exists s e, vars w i = Some s /\ dead w i = false /\ vecs s = B hd /\
      spans s = map Own (B rd) ++ map Ext e /\ v = C rd ++ map ext e /\ c = has (C rd) /\
      alive l hd = true /\ hd < stores l /\ rd < stores l
  end.
Record linv (w : world) (l : lstate) (B : nat -> list nat) (C : nat -> list (list Z)) : Prop := {
  l_vars : forall i, var_ok w l B C i;
  l_len : forall t, t < stores l -> length (B t) = length (C t);
  l_bound : forall t b, t < stores l -> In b (B t) -> b < next w;
  l_alive : forall t, t < stores l -> alive l t = true -> stored (heap w) (B t) (C t);
  l_gone : forall t, t < stores l -> alive l t = false -> gone (heap w) (B t);
  l_disjoint : forall t t' b, t < stores l -> t' < stores l -> In b (B t) -> In b (B t') -> t = t';
  l_unique : forall i j v c h r v' c' r', lvars l i = LValue v c h r -> lvars l j = LValue v' c' h r' -> i = j }.

Lemma stored_ext h h' B C : (forall b, In b B -> h' b = h b) -> stored h B C -> stored h' B C.
Proof.
  intros H S1. induction S1 as [|b c bs cs E S1 IH]; constructor.
  - rewrite H by (now left). exact E.
  - apply IH. intros; apply H; now right.
Qed.
Lemma deref_stored h B C : stored h B C -> deref_all ext h (map Own B) = Ok C.
Proof. induction 1 as [|b c bs cs E S1 IH]; cbn; [reflexivity|]. now rewrite E, IH. Qed.
Lemma deref_gone h B e : B <> [] -> gone h B -> deref_all ext h (map Own B ++ map Ext e) = UB.
Proof. intros H G. destruct B as [|b B]; [congruence|]. cbn. rewrite (G b) by (now left). reflexivity. Qed.
Lemma contents_stored h B C : stored h B C -> map (contents h) B = C.
Proof. induction 1 as [|b c bs cs E S1 IH]; cbn; [reflexivity|]. unfold contents at 1. now rewrite E, IH. Qed.
Lemma release_in ids : forall h b, In b ids -> release h ids b = None.
Proof.
  induction ids as [|i is IH]; intros h b []; cbn.
  - subst i. destruct (in_dec Nat.eq_dec b is) as [Hb|Hb]; [now apply IH|]. rewrite release_other by exact Hb. apply set_same.
  - now apply IH.
Qed.
Lemma fresh_stored bufs : forall h n, (forall k b, nth_error bufs k = Some b -> h (n + k) = Some b) -> stored h (seq n (length bufs)) bufs.
Proof.
  induction bufs as [|b bs IH]; intros h n H; cbn; constructor.
  - specialize (H 0 b eq_refl). now rewrite Nat.add_0_r in H.
  - apply IH. intros k c Hk. replace (S n + k) with (n + S k) by lia. now apply H.
Qed.

(** A new store [C0] in variable [i]; its spans refer to store [rd]. *)
Lemma new_store w l B C i C0 rd e v c :
  linv w l B C -> lvars l i = LFree ->
  let '(h, n, ids) := alloc (heap w) (next w) C0 in
  let B' := set B (stores l) ids in let C' := set C (stores l) C0 in
  rd <= stores l -> v = C' rd ++ map ext e -> c = has (C' rd) ->
  linv (World h n (set (vars w) i (Some (Obj ids (map Own (B' rd) ++ map Ext e)))) (set (dead w) i false))
       (LState (set (lvars l) i (LValue v c (stores l) rd)) (set (alive l) (stores l) true) (S (stores l))) B' C'.
Proof.
  intros Hl Hi. destruct (alloc (heap w) (next w) C0) as [[h n] ids] eqn:E.
  destruct (alloc_spec _ _ _ _ _ _ E) as (-> & Eids & H1 & H2). intros B' C' Hrd Hv Hc.
  assert (BO : forall t, t < stores l -> B' t = B t) by (intros; apply set_other; lia).
  assert (CO : forall t, t < stores l -> C' t = C t) by (intros; apply set_other; lia).
  assert (BN : B' (stores l) = ids) by apply set_same.
  assert (CN : C' (stores l) = C0) by apply set_same.
  assert (Bids : forall b, In b ids -> next w <= b < next w + length C0) by (intros b Hb; subst ids; apply in_seq in Hb; lia).
  assert (Lt : forall t, t < S (stores l) -> t = stores l \/ t < stores l) by lia.
  constructor; cbn [vars heap next dead lvars alive stores].
  - intros k. unfold var_ok. cbn [vars heap next dead lvars alive stores]. destruct (Nat.eq_dec k i) as [->|N].
    + rewrite !set_same. exists (Obj ids (map Own (B' rd) ++ map Ext e)), e. cbn [vecs spans].
      rewrite BN. rewrite ?set_same. repeat split; auto; lia.
    + rewrite !set_other by auto. pose proof (l_vars _ _ _ _ Hl k) as Hk. unfold var_ok in Hk. destruct (lvars l k) as [| |v' c' hd rd']; auto.
      destruct Hk as (s & e' & K1 & K2 & K3 & K4 & K5 & K6 & K7 & K8 & K9). exists s, e'.
      rewrite (BO hd), (BO rd'), (CO rd'), set_other by lia. repeat split; auto; lia.
  - intros t Ht. destruct (Lt t Ht) as [->|Ht'].
    + rewrite BN, CN, Eids, seq_length. reflexivity.
    + rewrite BO, CO by auto. now apply (l_len _ _ _ _ Hl).
  - intros t b Ht Hb. destruct (Lt t Ht) as [->|Ht'].
    + rewrite BN in Hb. specialize (Bids b Hb). lia.
    + rewrite BO in Hb by auto. pose proof (l_bound _ _ _ _ Hl t b Ht' Hb). lia.
  - intros t Ht Ha. destruct (Lt t Ht) as [->|Ht'].
    + rewrite BN, CN, Eids. now apply fresh_stored.
    + rewrite BO, CO by auto. rewrite set_other in Ha by lia.
      eapply stored_ext; [|exact (l_alive _ _ _ _ Hl t Ht' Ha)]. intros b Hb. apply H1. exact (l_bound _ _ _ _ Hl t b Ht' Hb).
  - intros t Ht Ha. destruct (Lt t Ht) as [->|Ht'].
    + rewrite set_same in Ha. discriminate.
    + rewrite BO by auto. rewrite set_other in Ha by lia. intros b Hb. rewrite H1 by exact (l_bound _ _ _ _ Hl t b Ht' Hb).
      exact (l_gone _ _ _ _ Hl t Ht' Ha b Hb).
  - intros t t' b Ht Ht' Hb Hb'. destruct (Lt t Ht) as [->|Ht1], (Lt t' Ht') as [->|Ht2]; auto.
    + rewrite BN in Hb. rewrite BO in Hb' by auto. pose proof (l_bound _ _ _ _ Hl t' b Ht2 Hb'). specialize (Bids b Hb). lia.
    + rewrite BN in Hb'. rewrite BO in Hb by auto. pose proof (l_bound _ _ _ _ Hl t b Ht1 Hb). specialize (Bids b Hb'). lia.
    + rewrite BO in Hb, Hb' by auto. now apply (l_disjoint _ _ _ _ Hl t t' b).
  - intros k k' v1 c1 h1 r1 v2 c2 r2 Hk Hk'.
    assert (Hlt : forall x v c h r, lvars l x = LValue v c h r -> h < stores l).
    { intros x v0 c0 h0 r0 Hx. pose proof (l_vars _ _ _ _ Hl x) as Q. unfold var_ok in Q. rewrite Hx in Q.
      destruct Q as (s & e' & _ & _ & _ & _ & _ & _ & _ & Q & _). exact Q. }
    destruct (Nat.eq_dec k i) as [->|N], (Nat.eq_dec k' i) as [->|N']; auto;
      repeat first [rewrite set_same in Hk|rewrite set_other in Hk by auto|rewrite set_same in Hk'|rewrite set_other in Hk' by auto].
    + injection Hk as <- <- <- <-. specialize (Hlt _ _ _ _ _ Hk'). lia.
    + injection Hk' as <- <- <- <-. specialize (Hlt _ _ _ _ _ Hk). lia.
    + eapply (l_unique _ _ _ _ Hl); eauto.
Qed.

(** The vectors of the object that variable i had are released. *)
Definition old_vecs (w : world) (i : nat) : list nat := match vars w i with Some t => vecs t | None => [] end.
Lemma give_up_heap w l B C i : linv w l B C ->
  (forall t, t < stores l -> give_up (lvars l i) (alive l) t = true -> stored (release (heap w) (old_vecs w i)) (B t) (C t)) /\
  (forall t, t < stores l -> give_up (lvars l i) (alive l) t = false -> gone (release (heap w) (old_vecs w i)) (B t)) /\
  (forall k v c h r, k <> i -> lvars l k = LValue v c h r -> give_up (lvars l i) (alive l) h = true).
Proof.
  intros Hl. pose proof (l_vars _ _ _ _ Hl i) as Hi. unfold var_ok in Hi. unfold old_vecs, give_up. destruct (lvars l i) as [| |v c hd rd] eqn:Ei.
  - rewrite Hi. cbn [release]. split; [apply (l_alive _ _ _ _ Hl)|]. split; [apply (l_gone _ _ _ _ Hl)|].
    intros k v c h r _ Hk. pose proof (l_vars _ _ _ _ Hl k) as Q. unfold var_ok in Q. rewrite Hk in Q. destruct Q as (s & e & _ & _ & _ & _ & _ & _ & Q & _). exact Q.
  - destruct Hi as (s & -> & _ & ->). cbn [release]. split; [apply (l_alive _ _ _ _ Hl)|]. split; [apply (l_gone _ _ _ _ Hl)|].
    intros k v c h r _ Hk. pose proof (l_vars _ _ _ _ Hl k) as Q. unfold var_ok in Q. rewrite Hk in Q. destruct Q as (s' & e & _ & _ & _ & _ & _ & _ & Q & _). exact Q.
  - destruct Hi as (s & e & -> & _ & -> & _ & _ & _ & Ha & Hh & _). split; [|split].
    + intros t Ht Hat. destruct (Nat.eq_dec t hd) as [->|N]; [rewrite set_same in Hat; discriminate|]. rewrite set_other in Hat by auto.
      eapply stored_ext; [|exact (l_alive _ _ _ _ Hl t Ht Hat)]. intros b Hb. apply release_other. intros Hb'. apply N.
      exact (l_disjoint _ _ _ _ Hl t hd b Ht Hh Hb Hb').
    + intros t Ht Hat b Hb. destruct (in_dec Nat.eq_dec b (B hd)) as [Hin|Hin]; [now apply release_in|]. rewrite release_other by exact Hin.
      destruct (Nat.eq_dec t hd) as [->|N]; [contradiction|]. rewrite set_other in Hat by auto. exact (l_gone _ _ _ _ Hl t Ht Hat b Hb).
    + intros k v' c' h r N Hk. pose proof (l_vars _ _ _ _ Hl k) as Q. unfold var_ok in Q. rewrite Hk in Q. destruct Q as (s' & e' & _ & _ & _ & _ & _ & _ & Q & _).
      rewrite set_other; [exact Q|]. intros ->. apply N. exact (l_unique _ _ _ _ Hl k i _ _ _ _ _ _ _ Hk Ei).
Qed.

(** Variable [i] is destroyed. *)
Lemma destroy_linv w l B C i : linv w l B C ->
  linv (World (release (heap w) (old_vecs w i)) (next w) (set (vars w) i None) (set (dead w) i false))
       (LState (set (lvars l) i LFree) (give_up (lvars l i) (alive l)) (stores l)) B C.
Proof.
  intros Hl. destruct (give_up_heap w l B C i Hl) as (G1 & G2 & G3).
  constructor; cbn [vars heap next dead lvars alive stores]; [|apply (l_len _ _ _ _ Hl)|apply (l_bound _ _ _ _ Hl)|exact G1|exact G2|apply (l_disjoint _ _ _ _ Hl)|].
  - intros k. unfold var_ok. cbn [vars heap next dead lvars alive stores]. destruct (Nat.eq_dec k i) as [->|N]; [now rewrite !set_same|]. rewrite !set_other by auto.
    pose proof (l_vars _ _ _ _ Hl k) as Hk. unfold var_ok in Hk. destruct (lvars l k) as [| |v c hd rd] eqn:Ek; auto.
    destruct Hk as (s & e & K1 & K2 & K3 & K4 & K5 & K6 & K7 & K8 & K9). exists s, e. repeat split; auto. eapply G3; eauto.
  - intros k k' v1 c1 h1 r1 v2 c2 r2 Hk Hk'.
    destruct (Nat.eq_dec k i) as [->|N]; [rewrite set_same in Hk; discriminate|]. destruct (Nat.eq_dec k' i) as [->|N']; [rewrite set_same in Hk'; discriminate|].
    rewrite set_other in Hk, Hk' by auto. eapply (l_unique _ _ _ _ Hl); eauto.
Qed.
(** Variable [i] takes over the converter of [j]. *)
Lemma take_linv w l B C i j s v c hd rd : linv w l B C -> i <> j -> lvars l j = LValue v c hd rd -> vars w j = Some s ->
  linv (World (release (heap w) (old_vecs w i)) (next w) (set (set (vars w) i (Some s)) j (Some (Obj [] (spans s)))) (set (set (dead w) i false) j true))
       (LState (set (set (lvars l) i (LValue v c hd rd)) j LMoved) (give_up (lvars l i) (alive l)) (stores l)) B C.
Proof.
  intros Hl Hij Hj Hs. destruct (give_up_heap w l B C i Hl) as (G1 & G2 & G3).
  pose proof (l_vars _ _ _ _ Hl j) as Hjo. unfold var_ok in Hjo. rewrite Hj in Hjo.
  constructor; cbn [vars heap next dead lvars alive stores]; [|apply (l_len _ _ _ _ Hl)|apply (l_bound _ _ _ _ Hl)|exact G1|exact G2|apply (l_disjoint _ _ _ _ Hl)|].
  - intros k. unfold var_ok. cbn [vars heap next dead lvars alive stores]. destruct (Nat.eq_dec k j) as [->|N].
    { rewrite !set_same. eexists. split; [reflexivity|]. split; reflexivity. }
    rewrite !(set_other _ j) by auto. destruct (Nat.eq_dec k i) as [->|N'].
    + rewrite !set_same. destruct Hjo as (s' & e & K1 & K2 & K3 & K4 & K5 & K6 & K7 & K8 & K9). rewrite Hs in K1. injection K1 as <-.
      exists s, e. repeat split; auto. eapply G3; eauto.
    + rewrite !set_other by auto. pose proof (l_vars _ _ _ _ Hl k) as Hk. unfold var_ok in Hk. destruct (lvars l k) as [| |v' c' hd' rd'] eqn:Ek; auto.
      destruct Hk as (s' & e & K1 & K2 & K3 & K4 & K5 & K6 & K7 & K8 & K9). exists s', e. repeat split; auto. eapply G3; eauto.
  - intros k k' v1 c1 h1 r1 v2 c2 r2 Hk Hk'.
    destruct (Nat.eq_dec k j) as [->|N]; [rewrite set_same in Hk; discriminate|]. destruct (Nat.eq_dec k' j) as [->|N']; [rewrite set_same in Hk'; discriminate|].
    rewrite (set_other _ j) in Hk, Hk' by auto.
    destruct (Nat.eq_dec k i) as [->|M], (Nat.eq_dec k' i) as [->|M']; auto;
      repeat first [rewrite set_same in Hk|rewrite set_other in Hk by auto|rewrite set_same in Hk'|rewrite set_other in Hk' by auto].
    + injection Hk as <- <- <- <-. destruct N'. symmetry. eapply (l_unique _ _ _ _ Hl); eauto.
    + injection Hk' as <- <- <- <-. destruct N. symmetry. eapply (l_unique _ _ _ _ Hl); eauto.
    + eapply (l_unique _ _ _ _ Hl); eauto.
Qed.

Definition as_outcome (r : option (list (list Z))) : outcome (list (list Z)) := match r with Some v => Ok v | None => UB end.

Lemma loan_step_ok o w l B C : linv w l B C ->
  snd (step ext w o) = option_map as_outcome (snd (loan_step ext l o)) /\
  exists B' C', linv (fst (step ext w o)) (fst (loan_step ext l o)) B' C'.
Proof.
  intros Hl. destruct o as [i own e|i j|i j|i j|i|i]; cbn [step loan_step].
  - pose proof (l_vars _ _ _ _ Hl i) as Hi. unfold var_ok in Hi. destruct (lvars l i) eqn:Ei.
    + rewrite Hi. pose proof (new_store w l B C i own (stores l) e (own ++ map ext e) (has own) Hl Ei) as P.
      destruct (alloc (heap w) (next w) own) as [[h n] ids]. cbn [fst snd option_map]. split; [reflexivity|].
      cbv zeta in P. rewrite !set_same in P. eexists _, _. apply P; auto.
    + destruct Hi as (s & -> & _). cbn. eauto.
    + destruct Hi as (s & e' & -> & _). cbn. eauto.
  - pose proof (l_vars _ _ _ _ Hl i) as Hi. unfold var_ok in Hi. destruct (lvars l i) eqn:Ei.
    2: destruct Hi as (s & -> & _); cbn; eauto.
    2: destruct Hi as (s & e' & -> & _); cbn; eauto.
    rewrite Hi. pose proof (l_vars _ _ _ _ Hl j) as Hj. unfold var_ok in Hj. destruct (lvars l j) as [| |v c hd rd] eqn:Ej.
    + rewrite Hj. cbn. eauto.
    + destruct Hj as (s & -> & -> & _). cbn. eauto.
    + destruct Hj as (s & e & K1 & K2 & K3 & K4 & K5 & K6 & K7 & K8 & K9). rewrite K1, K2, K3.
      rewrite (contents_stored _ _ _ (l_alive _ _ _ _ Hl hd K8 K7)).
      pose proof (new_store w l B C i (C hd) rd e v c Hl Ei) as P.
      destruct (alloc (heap w) (next w) (C hd)) as [[h n] ids]. cbn [fst snd option_map]. split; [reflexivity|].
      cbv zeta in P. rewrite !(set_other _ (stores l) rd) in P by lia. rewrite K4. eexists _, _. apply P; auto; lia.
  - pose proof (l_vars _ _ _ _ Hl i) as Hi. unfold var_ok in Hi. destruct (lvars l i) eqn:Ei.
    2: destruct Hi as (s & -> & _); cbn; eauto.
    2: destruct Hi as (s & e' & -> & _); cbn; eauto.
    rewrite Hi. pose proof (l_vars _ _ _ _ Hl j) as Hj. unfold var_ok in Hj. destruct (lvars l j) as [| |v c hd rd] eqn:Ej.
    + rewrite Hj. cbn. eauto.
    + destruct Hj as (s & -> & -> & _). cbn. eauto.
    + destruct Hj as (s & e & K1 & K2 & K). rewrite K1, K2. cbn [fst snd option_map]. split; [reflexivity|].
      assert (Hij : i <> j) by congruence. pose proof (take_linv w l B C i j s v c hd rd Hl Hij Ej K1) as T.
      rewrite Ei in T. unfold old_vecs in T. rewrite Hi in T. cbn [release give_up] in T. eauto.
  - pose proof (l_vars _ _ _ _ Hl i) as Hi. unfold var_ok in Hi. pose proof (l_vars _ _ _ _ Hl j) as Hj. unfold var_ok in Hj.
    destruct (lvars l j) as [| |v c hd rd] eqn:Ej.
    + rewrite Hj. destruct (vars w i), (lvars l i); cbn; eauto.
    + destruct Hj as (s & -> & -> & _). destruct (vars w i), (lvars l i); cbn; eauto.
    + destruct Hj as (s & e & K1 & K2 & K). rewrite K1, K2.
      destruct (Nat.eqb_spec i j) as [->|Hij].
      * rewrite Ej. destruct (vars w j); cbn; eauto.
      * pose proof (take_linv w l B C i j s v c hd rd Hl Hij Ej K1) as T. unfold old_vecs in T.
        destruct (lvars l i) eqn:Ei.
        -- rewrite Hi. cbn. eauto.
        -- destruct Hi as (t & Hi & _). rewrite Hi in *. cbn [fst snd option_map]. eauto.
        -- destruct Hi as (t & e' & Hi & _). rewrite Hi in *. cbn [fst snd option_map]. eauto.
  - pose proof (l_vars _ _ _ _ Hl i) as Hi. unfold var_ok in Hi. pose proof (destroy_linv w l B C i Hl) as D. unfold old_vecs in D.
    destruct (lvars l i) eqn:Ei.
    + rewrite Hi. cbn. eauto.
    + destruct Hi as (t & Hi & _). rewrite Hi in *. cbn [fst snd option_map]. eauto.
    + destruct Hi as (t & e' & Hi & _). rewrite Hi in *. cbn [fst snd option_map]. eauto.
  - pose proof (l_vars _ _ _ _ Hl i) as Hi. unfold var_ok in Hi. destruct (lvars l i) as [| |v c hd rd] eqn:Ei.
    + rewrite Hi. cbn. eauto.
    + destruct Hi as (s & -> & -> & _). cbn. eauto.
    + destruct Hi as (s & e & -> & -> & K3 & K4 & -> & -> & K7 & K8 & K9). cbn [fst snd option_map]. split; [|eauto].
      f_equal. rewrite K4. destruct (alive l rd) eqn:Ea.
      * assert (E : deref_all ext (heap w) (map Own (B rd) ++ map Ext e) = Ok (C rd ++ map ext e)).
        { apply deref_all_app; [apply deref_stored; now apply (l_alive _ _ _ _ Hl)|apply deref_exts]. }
        rewrite E. destruct (has (C rd)); reflexivity.
      * pose proof (l_len _ _ _ _ Hl rd K9) as L. destruct (has (C rd)) eqn:Ec.
        -- apply deref_gone; [|now apply (l_gone _ _ _ _ Hl)]. intros E. rewrite E in L. destruct (C rd); discriminate.
        -- destruct (C rd); [|discriminate]. destruct (B rd); [|discriminate]. cbn. apply deref_exts.
Qed.
Lemma loan_run_ok ops : forall w l B C, linv w l B C ->
  run ext w ops = map (option_map as_outcome) (loan_run ext l ops).
Proof.
  induction ops as [|o ops IH]; intros w l B C Hl; [reflexivity|]. cbn [run loan_run].
  destruct (loan_step_ok o w l B C Hl) as (E & B' & C' & Hl').
  destruct (step ext w o) as [w' r], (loan_step ext l o) as [l' r']. cbn [fst snd] in *. subst r. cbn [map]. f_equal. eauto.
Qed.
Lemma start_linv : linv start no_loans (fun _ => []) (fun _ => []).
Proof. constructor; cbn; try (intros; lia); [intros i; reflexivity|intros; discriminate]. Qed.
End Loan.
