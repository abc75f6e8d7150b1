From Verif Require Import Base ConverterCopy_Spec ConverterAssign_Spec ConverterAssign_Model.
Local Arguments Nat.eqb : simpl never.

Lemma set_same {A} (m : nat -> A) i x : set m i x i = x.
Proof. unfold set. now rewrite Nat.eqb_refl. Qed.
Lemma set_other {A} (m : nat -> A) i x j : j <> i -> set m i x j = m j.
Proof. intros N. unfold set. now rewrite (proj2 (Nat.eqb_neq _ _) N). Qed.

Section Proofs.
Context (ext : nat -> list Z).
Lemma deref_all_agree h h' ps : (forall b n, In (Own b n) ps -> h' b = h b) -> deref_all ext h' ps = deref_all ext h ps.
Proof.
  induction ps as [|p ps IH]; intros H; [reflexivity|]. cbn [deref_all]. rewrite IH by (intros b n K; apply (H b n); now right).
  assert (E : deref ext h' p = deref ext h p); [|now rewrite E]. destruct p as [b n|n]; [|reflexivity]. cbn [deref]. now rewrite (H b n (or_introl eq_refl)).
Qed.
Lemma deref_all_app h ps qs : deref_all ext h (ps ++ qs) = match deref_all ext h ps with Ok a => match deref_all ext h qs with Ok b => Ok (a ++ b) | x => x end | x => x end.
Proof.
  induction ps as [|p ps IH]; cbn [app deref_all]; [now destruct (deref_all ext h qs)|]. destruct (deref ext h p) as [l| | |]; try reflexivity. rewrite IH.
  destruct (deref_all ext h ps); try reflexivity. now destruct (deref_all ext h qs).
Qed.
Lemma deref_ext h e : deref_all ext h (map Ext e) = Ok (map ext e).
Proof. induction e as [|a e IH]; [reflexivity|]. cbn [map deref_all deref]. now rewrite IH. Qed.

Lemma alloc_spec : forall bufs h n, let '(h', n', ids) := alloc h n bufs in
  n <= n' /\ (forall b, b < n -> h' b = h b) /\ NoDup (map fst ids) /\ (forall b, In b (map fst ids) -> n <= b < n' /\ h' b <> None) /\
  deref_all ext h' (map whole ids) = Ok bufs.
Proof.
  induction bufs as [|b bs IH]; intros h n; cbn [alloc].
  - repeat split; try lia; try constructor; intros; contradiction.
  - specialize (IH (set h n (Some b)) (S n)). destruct (alloc (set h n (Some b)) (S n) bs) as [[h' n'] ids]. destruct IH as (L & A & N & I & D). cbn [map fst].
    assert (Hn : h' n = Some b) by (rewrite A by lia; apply set_same).
    split; [lia|]. split; [intros c Hc; rewrite A by lia; apply set_other; lia|]. split; [constructor; [intros K; apply I in K; lia|exact N]|].
    split; [intros c [<-|K]; [rewrite Hn; split; [lia|discriminate]|destruct (I c K); split; [lia|auto]]|].
    cbn [deref_all]. unfold whole at 1. cbn [deref fst snd]. rewrite Hn, Nat.leb_refl, firstn_all, D. reflexivity.
Qed.
Lemma release_spec : forall ids h b, release h ids b = if existsb (Nat.eqb b) (map fst ids) then None else h b.
Proof.
  induction ids as [|i ids IH]; intros h b; [reflexivity|]. cbn [release map existsb]. rewrite IH. destruct (Nat.eqb_spec b (fst i)) as [->|N]; cbn [orb]; [rewrite set_same; now destruct (existsb _ _)|now rewrite set_other].
Qed.
Lemma release_other ids h b : ~ In b (map fst ids) -> release h ids b = h b.
Proof. intros N. rewrite release_spec. destruct (existsb _ _) eqn:E; [|reflexivity]. apply existsb_exists in E as (x & K & Ex). apply Nat.eqb_eq in Ex as ->. contradiction. Qed.

Lemma assign_spec : forall news olds h n, NoDup (map fst olds) -> (forall b, In b (map fst olds) -> b < n /\ h b <> None) ->
  let '(h', n', ids) := assign_vecs h n olds news in
  n <= n' /\ (forall b, b < n -> ~ In b (map fst olds) -> h' b = h b) /\ NoDup (map fst ids) /\
  (forall b, In b (map fst ids) -> (In b (map fst olds) \/ n <= b < n') /\ h' b <> None).
Proof.
  induction news as [|b bs IH]; intros olds h n Nd Ho; cbn [assign_vecs].
  - repeat split; try lia; try constructor; intros; contradiction.
  - assert (Fr : forall h1, (forall c, c < n -> ~ In c (map fst olds) -> h1 c = h c) -> (forall c, In c (map fst (tl olds)) -> h1 c <> None) ->
      let '(h', n', ids) := (let '(h', n', ids) := assign_vecs (set h1 n (Some b)) (S n) (tl olds) bs in (h', n', (n, length b) :: ids)) in
      n <= n' /\ (forall c, c < n -> ~ In c (map fst olds) -> h' c = h c) /\ NoDup (map fst ids) /\
      (forall c, In c (map fst ids) -> (In c (map fst olds) \/ n <= c < n') /\ h' c <> None)).
    { intros h1 H1 H2. assert (Sub : forall c, In c (map fst (tl olds)) -> In c (map fst olds)) by (destruct olds; [auto|intros c K; now right]).
      assert (Nd' : NoDup (map fst (tl olds))) by (destruct olds; [exact Nd|now inversion Nd]).
      specialize (IH (tl olds) (set h1 n (Some b)) (S n) Nd'). destruct (assign_vecs (set h1 n (Some b)) (S n) (tl olds) bs) as [[h' n'] ids].
      destruct IH as (L & A & N & I). { intros c K. destruct (Ho c (Sub c K)). split; [lia|]. rewrite set_other by lia. now apply H2. }
      assert (Nn : ~ In n (map fst (tl olds))) by (intros K; apply Sub, Ho in K; lia).
      assert (Hn : h' n = Some b) by (rewrite A; [apply set_same|lia|exact Nn]). cbn [map fst].
      split; [lia|]. split; [intros c Hc Kc; rewrite A; [rewrite set_other by lia; now apply H1|lia|auto]|].
      split; [constructor; [intros K; apply I in K as [[K|K] _]; [contradiction|lia]|exact N]|].
      intros c [<-|K]; [rewrite Hn; split; [right; lia|discriminate]|]. destruct (I c K) as [[K'|K'] Hc]; (split; [|exact Hc]); [left; auto|right; lia]. }
    destruct olds as [|[id sz] olds]; [apply (Fr h); auto; intros c []|]. cbn [tl map fst] in *.
    assert (Nd1 : ~ In id (map fst olds)) by now inversion Nd.
    destruct (h id) as [st|] eqn:Eh; [|exfalso; destruct (Ho id (or_introl eq_refl)); congruence].
    destruct (Nat.leb (length b) (length st)).
    + specialize (IH olds (set h id (Some (b ++ skipn (length b) st))) n ltac:(now inversion Nd)).
      destruct (assign_vecs (set h id _) n olds bs) as [[h' n'] ids]. destruct IH as (L & A & N & I).
      { intros c K. destruct (Ho c (or_intror K)). split; [assumption|]. rewrite set_other; [assumption|]. intros ->. contradiction. }
      assert (Hid : id < n) by (destruct (Ho id (or_introl eq_refl)); assumption).
      assert (Hi : h' id = Some (b ++ skipn (length b) st)) by (rewrite A; [apply set_same|exact Hid|exact Nd1]). cbn [map fst].
      split; [lia|]. split; [intros c Hc Kc; rewrite A; [apply set_other; intros ->; apply Kc; now left|lia|intros K; apply Kc; now right]|].
      split; [constructor; [intros K; apply I in K as [[K|K] _]; [contradiction|lia]|exact N]|].
      intros c [<-|K]; [rewrite Hi; split; [left; now left|discriminate]|]. destruct (I c K) as [[K'|K'] Hc]; (split; [|exact Hc]); [left; now right|right; lia].
    + apply (Fr (set h id None)).
      * intros c Hc Kc. apply set_other. intros ->. apply Kc. now left.
      * intros c K. destruct (Ho c (or_intror K)). rewrite set_other; [assumption|]. intros ->. contradiction.
Qed.

(** ** The invariant *)
Section Inv.
Variable S : nat -> bool.
Definition owns (w : world) (i b : nat) : Prop := exists t, vars w i = Some t /\ In b (map fst (vecs t)).
Record inv (w : world) (m : nat -> var) : Prop := {
  i_var : forall i, match m i with
                    | Free => vars w i = None
                    | MovedFrom => exists t, vars w i = Some t /\ dead w i = true /\ vecs t = []
                    | Value v => exists t, vars w i = Some t /\ dead w i = false /\ deref_all ext (heap w) (spans t) = Ok v /\
                                   forall b n, In (Own b n) (spans t) -> owns w i b \/ exists k, S k = true /\ owns w k b
                    end;
  i_live : forall i b, owns w i b -> b < next w /\ heap w b <> None;
  i_one : forall i k b, owns w i b -> owns w k b -> i = k;
  i_nodup : forall i t, vars w i = Some t -> NoDup (map fst (vecs t));
}.
(** Variable [i] is replaced by a converter with the vectors [ids]; other variables keep theirs. *)
Lemma replace_inv w m i (w' : world) ids sp v :
  inv w m -> (forall k, k <> i -> vars w' k = vars w k /\ dead w' k = dead w k) ->
  vars w' i = Some (Obj ids sp) -> dead w' i = false ->
  next w <= next w' -> NoDup (map fst ids) ->
  (forall b, In b (map fst ids) -> (owns w i b \/ next w <= b < next w') /\ heap w' b <> None) ->
  (forall b, b < next w -> ~ owns w i b -> heap w' b = heap w b) ->
  (S i = true -> vars w i = None) ->
  deref_all ext (heap w') sp = Ok v ->
  (forall b n, In (Own b n) sp -> In b (map fst ids) \/ exists k, k <> i /\ S k = true /\ owns w k b) ->
  inv w' (set m i (Value v)).
Proof.
  intros [IV IL IO IN] Hk Hi Hd Hn Nd Hids Hheap HS Hv Hsp.
  assert (O1 : forall k b, k <> i -> owns w' k b <-> owns w k b) by (intros k b N; unfold owns; now rewrite (proj1 (Hk k N))).
  assert (O2 : forall b, owns w' i b <-> In b (map fst ids)).
  { intros b. unfold owns. rewrite Hi. split; [intros (t & E & K); injection E as <-; exact K|intros K; eexists; split; [reflexivity|exact K]]. }
  assert (Fr : forall k b, k <> i -> owns w k b -> heap w' b = heap w b).
  { intros k b N K. apply Hheap; [now apply (IL k)|]. intros K'. now apply N, (IO k i b). }
  constructor.
  - intros k. destruct (Nat.eq_dec k i) as [->|N].
    + rewrite set_same. exists (Obj ids sp). repeat split; auto. intros b n K. cbn [spans] in K. destruct (Hsp b n K) as [K'|(k & Nk & Sk & K')]; [left; now apply O2|right]. exists k. split; [exact Sk|]. now apply O1.
    + rewrite set_other by exact N. specialize (IV k). destruct (Hk k N) as [E1 E2]. rewrite E1, E2. destruct (m k) as [| |vk]; auto. destruct IV as (t & Et & Dt & Vt & Pt). exists t. split; [exact Et|]. split; [exact Dt|].
      assert (Q : forall b n, In (Own b n) (spans t) -> exists k', k' <> i /\ owns w k' b /\ (k' = k \/ S k' = true)).
      { intros b n K. destruct (Pt b n K) as [K'|(k' & Sk & K')]; [eauto|]. exists k'. split; [|auto]. intros ->. destruct K' as (t' & Et' & _). rewrite (HS Sk) in Et'. discriminate. }
      split.
      * rewrite <- Vt. apply deref_all_agree. intros b n K. destruct (Q b n K) as (k' & N' & K' & _). now apply (Fr k').
      * intros b n K. destruct (Q b n K) as (k' & N' & K' & [->|Sk]); [left; now apply O1|right; exists k'; split; [exact Sk|now apply O1]].
  - intros k b K. destruct (Nat.eq_dec k i) as [->|N].
    + apply O2 in K. destruct (Hids b K) as [[K'|K'] Hb]; (split; [|exact Hb]); [destruct (IL i b K'); lia|lia].
    + apply O1 in K; [|exact N]. destruct (IL k b K) as [L1 L2]. split; [lia|]. now rewrite (Fr k b N K).
  - intros k l b Kk Kl. destruct (Nat.eq_dec k i) as [->|Nk], (Nat.eq_dec l i) as [->|Nl]; auto.
    + exfalso. apply O2 in Kk. apply O1 in Kl; [|exact Nl]. destruct (Hids b Kk) as [[K'|K'] _]; [now apply Nl, (IO l i b)|]. destruct (IL l b Kl). lia.
    + exfalso. apply O2 in Kl. apply O1 in Kk; [|exact Nk]. destruct (Hids b Kl) as [[K'|K'] _]; [now apply Nk, (IO k i b)|]. destruct (IL k b Kk). lia.
    + apply O1 in Kk; [|exact Nk]. apply O1 in Kl; [|exact Nl]. now apply (IO k l b).
  - intros k t E. destruct (Nat.eq_dec k i) as [->|N]; [rewrite Hi in E; injection E as <-; exact Nd|]. rewrite (proj1 (Hk k N)) in E. now apply (IN k).
Qed.

Lemma inv_ext w m m' : (forall i, m i = m' i) -> inv w m -> inv w m'.
Proof. intros E [A B C D]. constructor; auto. intros i. rewrite <- E. apply A. Qed.
(** The world may be described pointwise. *)
Lemma drop_inv w m i (w' : world) : inv w m -> S i = false ->
  (forall k, k <> i -> vars w' k = vars w k /\ dead w' k = dead w k) -> vars w' i = None -> next w' = next w ->
  (forall b, ~ owns w i b -> heap w' b = heap w b) -> inv w' (set m i Free).
Proof.
  intros [IV IL IO IN] HS Hk Hi Hn Hh.
  assert (O1 : forall k b, owns w' k b <-> k <> i /\ owns w k b).
  { intros k b. destruct (Nat.eq_dec k i) as [->|N]; [unfold owns; rewrite Hi; split; [intros (t & E & _); discriminate|tauto]|]. unfold owns. rewrite (proj1 (Hk k N)). tauto. }
  assert (Fr : forall k b, k <> i -> owns w k b -> heap w' b = heap w b) by (intros k b N K; apply Hh; intros K'; now apply N, (IO k i b)).
  constructor.
  - intros k. destruct (Nat.eq_dec k i) as [->|N]; [now rewrite set_same|]. rewrite set_other by exact N. specialize (IV k). destruct (Hk k N) as [E1 E2]. rewrite E1, E2. destruct (m k) as [| |v]; auto.
    destruct IV as (t & Et & Dt & Vt & Pt). exists t. split; [exact Et|]. split; [exact Dt|].
    assert (Q : forall b n, In (Own b n) (spans t) -> exists k', k' <> i /\ owns w k' b /\ (k' = k \/ S k' = true)).
    { intros b n K. destruct (Pt b n K) as [K'|(k' & Sk & K')]; [eauto|]. exists k'. split; [|auto]. intros ->. congruence. }
    split.
    + rewrite <- Vt. apply deref_all_agree. intros b n K. destruct (Q b n K) as (k' & N' & K' & _). now apply (Fr k').
    + intros b n K. destruct (Q b n K) as (k' & N' & K' & [->|Sk]); [left; now apply O1|right; exists k'; split; [exact Sk|now apply O1]].
  - intros k b K. apply O1 in K as [N K]. rewrite Hn, (Fr k b N K). now apply (IL k).
  - intros k l b Kk Kl. apply O1 in Kk as [_ Kk]. apply O1 in Kl as [_ Kl]. now apply (IO k l b).
  - intros k t E. destruct (Nat.eq_dec k i) as [->|N]; [congruence|]. rewrite (proj1 (Hk k N)) in E. now apply (IN k).
Qed.
Lemma move_inv w m i j (w' : world) s v : inv w m -> i <> j -> S j = false -> vars w i = None -> vars w j = Some s -> m j = Value v ->
  (forall k, k <> i -> k <> j -> vars w' k = vars w k /\ dead w' k = dead w k) ->
  vars w' i = Some s -> dead w' i = false -> (exists sp, vars w' j = Some (Obj [] sp)) -> dead w' j = true -> next w' = next w -> (forall b, heap w' b = heap w b) ->
  inv w' (set (set m i (Value v)) j MovedFrom).
Proof.
  intros [IV IL IO IN] Nij HS Hi Hj Mj Hk Wi Di (sp & Wj) Dj Hn Hh.
  assert (O1 : forall k b, owns w' k b <-> (k = i /\ owns w j b) \/ (k <> i /\ k <> j /\ owns w k b)).
  { intros k b. unfold owns. destruct (Nat.eq_dec k i) as [->|N]; [rewrite Wi, Hj; tauto|]. destruct (Nat.eq_dec k j) as [->|N']; [rewrite Wj; split; [intros (t & E & K); injection E as <-; destruct K|tauto]|].
    rewrite (proj1 (Hk k N N')). tauto. }
  assert (Oi : forall b, ~ owns w i b) by (intros b (t & E & _); congruence).
  assert (Lift : forall k b, S k = true -> owns w k b -> exists k', S k' = true /\ owns w' k' b).
  { intros k b Sk K. exists k. split; [exact Sk|]. apply O1. right. split; [intros ->; now apply (Oi b)|]. split; [intros ->; congruence|exact K]. }
  constructor.
  - intros k. destruct (Nat.eq_dec k j) as [->|Nj]; [rewrite set_same; eauto 6|]. rewrite set_other by exact Nj. destruct (Nat.eq_dec k i) as [->|N].
    + rewrite set_same. specialize (IV j). rewrite Mj in IV. destruct IV as (t & Et & Dt & Vt & Pt). assert (t = s) by congruence. subst t. exists s. split; [exact Wi|]. split; [exact Di|]. split.
      * rewrite <- Vt. apply deref_all_agree. auto.
      * intros b n K. destruct (Pt b n K) as [K'|(k & Sk & K')]; [left; apply O1; auto|right; now apply (Lift k)].
    + rewrite set_other by exact N. specialize (IV k). destruct (Hk k N Nj) as [E1 E2]. rewrite E1, E2. destruct (m k) as [| |vk]; auto. destruct IV as (t & Et & Dt & Vt & Pt). exists t. split; [exact Et|]. split; [exact Dt|]. split.
      * rewrite <- Vt. apply deref_all_agree. auto.
      * intros b n K. destruct (Pt b n K) as [K'|(k' & Sk & K')]; [left; apply O1; auto|right; now apply (Lift k')].
  - intros k b K. rewrite Hn, Hh. apply O1 in K as [[_ K]|(_ & _ & K)]; [now apply (IL j)|now apply (IL k)].
  - intros k l b Kk Kl. apply O1 in Kk. apply O1 in Kl. destruct Kk as [[-> Kk]|(Nk & Nk' & Kk)], Kl as [[-> Kl]|(Nl & Nl' & Kl)]; auto.
    + exfalso. now apply Nl', (IO l j b).
    + exfalso. now apply Nk', (IO k j b).
    + now apply (IO k l b).
  - intros k t E. destruct (Nat.eq_dec k i) as [->|N]; [rewrite Wi in E; injection E as <-; now apply (IN j)|]. destruct (Nat.eq_dec k j) as [->|N']; [rewrite Wj in E; injection E as <-; constructor|].
    rewrite (proj1 (Hk k N N')) in E. now apply (IN k).
Qed.
Definition matches (r : option (outcome (list (list Z)))) (r' : option (list (list Z))) : Prop := r = option_map (@Ok _) r'.
Lemma step_inv w m o : inv w m -> disciplined S o ->
  matches (snd (step ext w o)) (snd (aspec_step ext m o)) /\ inv (fst (step ext w o)) (fst (aspec_step ext m o)).
Proof.
  intros I Hd. pose proof I as [IV IL IO IN].
  assert (Vn : forall i, vars w i = None -> m i = Free).
  { intros i E. specialize (IV i). destruct (m i) as [| |v]; [reflexivity|destruct IV as (t & Et & _); congruence|destruct IV as (t & Et & _); congruence]. }
  assert (Vd : forall i t, vars w i = Some t -> dead w i = true -> m i = MovedFrom).
  { intros i t E D. specialize (IV i). destruct (m i) as [| |v]; [congruence|reflexivity|destruct IV as (t' & _ & D' & _); congruence]. }
  assert (Vv : forall i t, vars w i = Some t -> dead w i = false -> exists v, m i = Value v /\ deref_all ext (heap w) (spans t) = Ok v /\
     forall b n, In (Own b n) (spans t) -> owns w i b \/ exists k, S k = true /\ owns w k b).
  { intros i t E D. specialize (IV i). destruct (m i) as [| |v]; [congruence|destruct IV as (t' & _ & D' & _); congruence|]. destruct IV as (t' & E' & _ & P). assert (t' = t) by congruence. subst t'. eauto. }
  assert (Nothing : matches None None /\ inv w m) by (split; [reflexivity|exact I]).
  destruct o as [[i own e|i j|i j|i j|i|i]|i j]; cbn [step aspec_step spec_step disciplined] in *.
  - (* Make *) destruct (vars w i) as [t|] eqn:Ei.
    + destruct (dead w i) eqn:D; [rewrite (Vd i t Ei D)|destruct (Vv i t Ei D) as (v & -> & _)]; exact Nothing.
    + rewrite (Vn i Ei). pose proof (alloc_spec own (heap w) (next w)) as A. destruct (alloc (heap w) (next w) own) as [[h n] ids]. destruct A as (L & A & Nd & Ids & Dr). cbn [fst snd]. split; [reflexivity|].
      apply (replace_inv w m i _ ids (map whole ids ++ map Ext e) _ I); cbn [vars dead next heap].
      * intros k Nk. split; now apply set_other.
      * apply set_same.
      * apply set_same.
      * exact L.
      * exact Nd.
      * intros b K. destruct (Ids b K). auto.
      * intros b Hb _. now apply A.
      * auto.
      * now rewrite deref_all_app, Dr, deref_ext.
      * intros b k K. left. apply in_app_or in K as [K|K]; apply in_map_iff in K as (x & Ex & Kx); [|discriminate]. unfold whole in Ex. injection Ex as <- _. now apply in_map.
  - (* CopyTo *) destruct (vars w i) as [t|] eqn:Ei.
    + destruct (dead w i) eqn:D; [rewrite (Vd i t Ei D)|destruct (Vv i t Ei D) as (v & -> & _)]; exact Nothing.
    + rewrite (Vn i Ei). destruct (vars w j) as [s|] eqn:Ej; [|rewrite (Vn j Ej); exact Nothing]. destruct (dead w j) eqn:D; [rewrite (Vd j s Ej D); exact Nothing|].
      destruct (Vv j s Ej D) as (v & -> & Vs & Ps). pose proof (alloc_spec (map (contents (heap w)) (vecs s)) (heap w) (next w)) as A. destruct (alloc (heap w) (next w) _) as [[h n] ids]. destruct A as (L & A & Nd & Ids & _). cbn [fst snd]. split; [reflexivity|].
      assert (Bn : forall b k, In (Own b k) (spans s) -> exists k', k' <> i /\ S k' = true /\ owns w k' b).
      { intros b k K. assert (Q : exists k', S k' = true /\ owns w k' b) by (destruct (Ps b k K) as [K'|K']; eauto). destruct Q as (k' & Sk & K'). exists k'. split; [|auto]. intros ->. destruct K' as (t & Et & _). congruence. }
      apply (replace_inv w m i _ ids (spans s) v I); cbn [vars dead next heap].
      * intros k Nk. split; now apply set_other.
      * apply set_same.
      * apply set_same.
      * exact L.
      * exact Nd.
      * intros b K. destruct (Ids b K). auto.
      * intros b Hb _. now apply A.
      * auto.
      * rewrite <- Vs. apply deref_all_agree. intros b k K. destruct (Bn b k K) as (k' & _ & _ & K'). apply A. now apply (IL k').
      * intros b k K. right. now apply (Bn b k).
  - (* MoveTo *) destruct (vars w i) as [t|] eqn:Ei.
    + destruct (dead w i) eqn:D; [rewrite (Vd i t Ei D)|destruct (Vv i t Ei D) as (v & -> & _)]; exact Nothing.
    + rewrite (Vn i Ei). destruct (vars w j) as [s|] eqn:Ej; [|rewrite (Vn j Ej); exact Nothing]. destruct (dead w j) eqn:D; [rewrite (Vd j s Ej D); exact Nothing|].
      destruct (Vv j s Ej D) as (v & Mj & _). rewrite Mj. cbn [fst snd]. split; [reflexivity|]. assert (Nij : i <> j) by congruence.
      apply (move_inv w m i j _ s v I Nij Hd Ei Ej Mj); cbn [vars dead next heap]; auto.
      * intros k N1 N2. split; now rewrite !set_other.
      * rewrite set_other by exact Nij. apply set_same.
      * rewrite set_other by exact Nij. apply set_same.
      * eexists. apply set_same.
      * apply set_same.
  - (* MoveAssign *) destruct Hd as [Si Sj]. destruct (vars w i) as [t|] eqn:Ei; [|rewrite (Vn i Ei); destruct (vars w j); exact Nothing].
    assert (Mi : m i <> Free) by (intros K; specialize (IV i); rewrite K in IV; congruence).
    destruct (vars w j) as [s|] eqn:Ej; [|rewrite (Vn j Ej); destruct (m i); exact Nothing]. destruct (dead w j) eqn:D; [rewrite (Vd j s Ej D); destruct (m i); exact Nothing|].
    destruct (Vv j s Ej D) as (v & Mj & _). rewrite Mj. destruct (Nat.eqb_spec i j) as [->|Nij].
    + rewrite Mj. exact Nothing.
    + assert (Q : matches None None /\ inv (World (release (heap w) (vecs t)) (next w) (set (set (vars w) i (Some s)) j (Some (Obj [] (spans s)))) (set (set (dead w) i false) j true)) (set (set m i (Value v)) j MovedFrom));
        [|destruct (m i); [congruence|exact Q|exact Q]]. split; [reflexivity|].
      set (w1 := World (release (heap w) (vecs t)) (next w) (set (vars w) i None) (dead w)).
      assert (I1 : inv w1 (set m i Free)).
      { apply (drop_inv w m i w1 I Si); unfold w1; cbn [vars dead next heap]; auto.
        - intros k N. split; [now apply set_other|reflexivity].
        - apply set_same.
        - intros b N. apply release_other. intros K. apply N. exists t. auto. }
      apply (inv_ext _ (set (set (set m i Free) i (Value v)) j MovedFrom)).
      { intros k. destruct (Nat.eq_dec k j) as [->|N]; [now rewrite !set_same|]. rewrite !(set_other _ j) by exact N. destruct (Nat.eq_dec k i) as [->|N']; [now rewrite !set_same|now rewrite !set_other]. }
      apply (move_inv w1 (set m i Free) i j _ s v I1 Nij Sj); unfold w1; cbn [vars dead next heap]; auto.
      * apply set_same.
      * rewrite set_other; auto.
      * rewrite set_other; auto.
      * intros k N1 N2. split; rewrite !set_other; auto.
      * rewrite set_other by exact Nij. apply set_same.
      * rewrite set_other by exact Nij. apply set_same.
      * eexists. apply set_same.
      * apply set_same.
  - (* Destroy *) destruct (vars w i) as [t|] eqn:Ei; [|rewrite (Vn i Ei); exact Nothing]. assert (Mi : m i <> Free) by (intros K; specialize (IV i); rewrite K in IV; congruence).
    assert (Q : matches None None /\ inv (World (release (heap w) (vecs t)) (next w) (set (vars w) i None) (set (dead w) i false)) (set m i Free)); [|destruct (m i); [congruence|exact Q|exact Q]].
    split; [reflexivity|]. apply (drop_inv w m i _ I Hd); cbn [vars dead next heap]; auto.
    + intros k N. split; now apply set_other.
    + apply set_same.
    + intros b N. apply release_other. intros K. apply N. exists t. auto.
  - (* Read *) destruct (vars w i) as [t|] eqn:Ei; [|rewrite (Vn i Ei); exact Nothing]. destruct (dead w i) eqn:D; [rewrite (Vd i t Ei D); exact Nothing|].
    destruct (Vv i t Ei D) as (v & -> & Vt & _). cbn [fst snd]. split; [rewrite Vt; reflexivity|exact I].
  - (* CopyAssign *) destruct Hd as [Si Sj]. destruct (vars w i) as [t|] eqn:Ei; [|rewrite (Vn i Ei); destruct (vars w j); exact Nothing].
    assert (Mi : m i <> Free) by (intros K; specialize (IV i); rewrite K in IV; congruence).
    destruct (vars w j) as [s|] eqn:Ej; [|rewrite (Vn j Ej); destruct (m i); exact Nothing]. destruct (dead w j) eqn:D; [rewrite (Vd j s Ej D); destruct (m i); exact Nothing|].
    destruct (Vv j s Ej D) as (v & Mj & Vs & Ps). rewrite Mj. assert (Nij : i <> j) by congruence. rewrite (proj2 (Nat.eqb_neq _ _) Nij).
    pose proof (assign_spec (map (contents (heap w)) (vecs s)) (vecs t) (heap w) (next w) (IN i t Ei)) as A. destruct (assign_vecs _ _ _ _) as [[h n] ids]. destruct A as (L & A & Nd & Ids).
    { intros b K. apply (IL i). exists t. auto. }
    assert (Q : matches None None /\ inv (World h n (set (vars w) i (Some (Obj ids (spans s)))) (set (dead w) i false)) (set m i (Value v))); [|destruct (m i); [congruence|exact Q|exact Q]]. split; [reflexivity|].
    assert (Bn : forall b k, In (Own b k) (spans s) -> exists k', k' <> i /\ S k' = true /\ owns w k' b).
    { intros b k K. assert (Q : exists k', S k' = true /\ owns w k' b) by (destruct (Ps b k K) as [K'|K']; eauto). destruct Q as (k' & Sk & K'). exists k'. split; [|auto]. intros ->. congruence. }
    assert (Oi : forall b, owns w i b -> In b (map fst (vecs t))) by (intros b (t' & E & K); congruence).
    apply (replace_inv w m i _ ids (spans s) v I); cbn [vars dead next heap].
    + intros k Nk. split; now apply set_other.
    + apply set_same.
    + apply set_same.
    + exact L.
    + exact Nd.
    + intros b K. destruct (Ids b K) as [[K'|K'] Hb]; (split; [|exact Hb]); [left; exists t; auto|right; exact K'].
    + intros b Hb N. apply A; [exact Hb|]. intros K. apply N. exists t. auto.
    + congruence.
    + rewrite <- Vs. apply deref_all_agree. intros b k K. destruct (Bn b k K) as (k' & N' & _ & K'). apply A; [now apply (IL k')|]. intros K2. apply N'. apply (IO k' i b K'). exists t. auto.
    + intros b k K. right. now apply (Bn b k).
Qed.
Lemma run_inv ops : forall w m, inv w m -> Forall (disciplined S) ops -> run ext w ops = map (option_map (@Ok _)) (aspec_run ext m ops).
Proof.
  induction ops as [|o ops IH]; intros w m I F; [reflexivity|]. inversion F as [|? ? Fo F']; subst. cbn [run aspec_run]. destruct (step_inv w m o I Fo) as [M I'].
  destruct (step ext w o) as [w' r], (aspec_step ext m o) as [m' r']. cbn [fst snd] in *. cbn [map]. rewrite M. f_equal. now apply IH.
Qed.
Lemma start_inv : inv start (fun _ => Free).
Proof. constructor; cbn; try reflexivity; intros i; [intros b (t & E & _)|intros k b (t & E & _)|intros t E]; discriminate. Qed.
End Inv.
End Proofs.
