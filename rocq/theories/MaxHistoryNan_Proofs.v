From Verif Require Import Base MaxHistory_Spec MaxHistory_Model MaxHistoryNan_Spec.
Local Arguments Nat.eqb : simpl never.

Lemma list_eq_nil_dec {A} (l : list A) : {l = []} + {l <> []}.
Proof. destruct l; [now left|right; discriminate]. Qed.

Section Proofs.
Context {T : Type} (nan : T -> bool) (ltb gtb eqb : T -> T -> bool) (dflt : T).
Hypothesis Hord : float_order nan ltb gtb eqb.

Notation ismax := (is_max ltb).
Notation nums := (numbers nan).
Notation run := (run ltb gtb eqb dflt).

Lemma in_numbers l y : In y (nums l) <-> In y l /\ nan y = false.
Proof. unfold numbers. rewrite filter_In. destruct (nan y); simpl; intuition congruence. Qed.

Lemma in_window n (l : list T) y : In y (window n l) <-> exists k, length l - n <= k /\ nth_error l k = Some y.
Proof.
  unfold window. generalize (length l - n). intros d. revert d.
  induction l as [|a l IH]; intros d.
  - rewrite skipn_nil. split; [intros []|]. intros (k & _ & H). destruct k; discriminate.
  - destruct d as [|d]; cbn [skipn].
    + split.
      * intros H. apply In_nth_error in H as [k Hk]. exists k. split; [lia|exact Hk].
      * intros (k & _ & H). eapply nth_error_In; eauto.
    + rewrite IH. split.
      * intros (k & Hk & H). exists (S k). split; [lia|exact H].
      * intros (k & Hk & H). destruct k as [|k]; [lia|]. exists k. split; [lia|exact H].
Qed.

Lemma fold_nan l x : nan x = true -> fold_left (fun m y => if ltb m y then y else m) l x = x.
Proof. intros H. induction l as [|y l IH]; [reflexivity|]. cbn [fold_left]. now rewrite (nan_l _ _ _ _ Hord) by exact H. Qed.

Lemma fold_num l : forall x, nan x = false ->
  let m := fold_left (fun m y => if ltb m y then y else m) l x in
  nan m = false /\ (m = x \/ In m l) /\ ltb m x = false /\ forall y, In y l -> ltb m y = false.
Proof.
  induction l as [|z l IH]; intros x Hx; cbn [fold_left].
  - cbn. split; [exact Hx|]. split; [now left|]. split; [apply (f_irrefl _ _ _ _ Hord)|intros y []].
  - destruct (ltb x z) eqn:E.
    + assert (Hz : nan z = false).
      { destruct (nan z) eqn:Ez; [|reflexivity]. rewrite (nan_r _ _ _ _ Hord) in E by exact Ez. discriminate. }
      destruct (IH z Hz) as (A & B & C & D). cbn zeta in *.
      split; [exact A|]. split.
      { right. destruct B as [->|B]; [now left|now right]. }
      split.
      { match goal with |- ltb ?m x = false => destruct (ltb m x) eqn:E2; [|reflexivity] end.
        rewrite <- C. symmetry. eapply (f_trans _ _ _ _ Hord); eauto. }
      intros y [<-|Hy]; [exact C|now apply D].
    + destruct (IH x Hx) as (A & B & C & D). cbn zeta in *.
      split; [exact A|]. split.
      { destruct B as [->|B]; [now left|right; now right]. }
      split; [exact C|]. intros y [<-|Hy]; [|now apply D].
      eapply (f_weak _ _ _ _ Hord); [exact Hx|exact C|exact E].
Qed.

(** The state of one object after the values [xs] *)
Definition inv (n : nat) (xs v : list T) (pos : nat) (full : bool) (m : T) : Prop :=
  length v = n /\ pos = length xs mod n /\ full = Nat.leb n (length xs) /\
  (forall k x, nth_error xs k = Some x -> length xs - n <= k -> nth_error v (k mod n) = Some x) /\
  (xs <> [] -> (nan m = true <-> poisoned nan ltb gtb eqb n xs)) /\
  (xs <> [] -> nan m = false -> ismax m (nums (window n xs))).

Lemma window_all n (l : list T) : length l <= n -> window n l = l.
Proof. unfold window. intros H. replace (length l - n) with 0 by lia. reflexivity. Qed.

Lemma firstn_snoc j (xs : list T) x : j <= length xs -> firstn j (xs ++ [x]) = firstn j xs.
Proof. intros H. rewrite firstn_app. replace (j - length xs) with 0 by lia. cbn. apply app_nil_r. Qed.

Lemma nth_snoc k (xs : list T) x y : nth_error (xs ++ [x]) k = Some y <->
  nth_error xs k = Some y \/ k = length xs /\ y = x.
Proof.
  destruct (Nat.lt_ge_cases k (length xs)) as [H|H].
  - rewrite nth_error_app1 by exact H. split; [now left|]. intros [A|[A _]]; [exact A|lia].
  - rewrite nth_error_app2 by exact H. assert (N : nth_error xs k = None) by (now apply nth_error_None).
    rewrite N. destruct (k - length xs) as [|d] eqn:E; cbn.
    + split; [intros A; right; split; [lia|congruence]|]. intros [A|[_ ->]]; [discriminate|reflexivity].
    + split; [destruct d; discriminate|]. intros [A|[A _]]; [discriminate|lia].
Qed.

Lemma nth_snoc_old k (xs : list T) x y : nth_error xs k = Some y -> nth_error (xs ++ [x]) k = Some y.
Proof. intros H. apply nth_snoc. now left. Qed.

Lemma nth_lt k (xs : list T) y : nth_error xs k = Some y -> k < length xs.
Proof. intros H. apply nth_error_Some. congruence. Qed.

(** Poisoning by one more value *)
Lemma poisoned_snoc n xs x : xs <> [] ->
  (poisoned nan ltb gtb eqb n (xs ++ [x]) <->
   poisoned nan ltb gtb eqb n xs \/
   searched nan ltb gtb eqb n (xs ++ [x]) (length xs) /\ nan_in_front nan n (xs ++ [x]) (length xs)).
Proof.
  intros Hne. assert (Hl : 0 < length xs) by (destruct xs; [congruence|cbn; lia]). split.
  - intros [(y & Hy & Hn)|(j & Hs & Hf)].
    + left. left. exists y. split; [|exact Hn]. apply nth_snoc in Hy as [Hy|[Hy _]]; [exact Hy|lia].
    + assert (Hj : j <= length xs).
      { destruct Hs as (y & old & m & _ & Hy & _). apply nth_lt in Hy. rewrite app_length in Hy. cbn in Hy. lia. }
      destruct (Nat.eq_dec j (length xs)) as [->|Hne']; [right; split; assumption|].
      left. right. exists j. split.
      * destruct Hs as (y & old & m & A & B & C & D & E & F). exists y, old, m.
        apply nth_snoc in B as [B|[B _]]; [|lia]. apply nth_snoc in C as [C|[C _]]; [|lia].
        rewrite firstn_snoc in D by lia. repeat (split; [assumption|]). assumption.
      * destruct Hf as (k & y & A & B & C & D). exists k, y.
        apply nth_snoc in C as [C|[C _]]; [|lia]. repeat (split; [assumption|]). assumption.
  - intros [[(y & Hy & Hn)|(j & Hs & Hf)]|[Hs Hf]].
    + left. exists y. split; [now apply nth_snoc_old|exact Hn].
    + right. exists j. destruct Hs as (y & old & m & A & B & C & D & E & F). split.
      * exists y, old, m. pose proof (nth_lt _ _ _ B). split; [exact A|]. split; [now apply nth_snoc_old|].
        split; [now apply nth_snoc_old|]. rewrite firstn_snoc by lia. repeat (split; [assumption|]). assumption.
      * destruct Hf as (k & z & A' & B' & C' & D'). exists k, z. split; [exact A'|]. split; [exact B'|].
        split; [now apply nth_snoc_old|exact D'].
    + right. now exists (length xs).
Qed.

Lemma window_firstn_all n (xs : list T) x : window n (firstn (length xs) (xs ++ [x])) = window n xs.
Proof. rewrite firstn_snoc by lia. now rewrite firstn_all. Qed.

(** The maximum is unique up to equality. *)
Lemma max_unique l m m' : ismax m (nums l) -> ismax m' (nums l) -> eqb m m' = true.
Proof.
  intros [A B] [C D]. apply (f_eq _ _ _ _ Hord).
  pose proof (proj2 (proj1 (in_numbers _ _) A)). pose proof (proj2 (proj1 (in_numbers _ _) C)).
  split; [assumption|]. split; [assumption|]. split; [now apply B|now apply D].
Qed.

Lemma eqb_trans_max old m m' : eqb old m = true -> eqb m m' = true -> eqb old m' = true.
Proof.
  rewrite !(f_eq _ _ _ _ Hord). intros (A & B & C & D) (E & F & G & K).
  split; [exact A|]. split; [exact F|]. split; eapply (f_weak _ _ _ _ Hord) with (b := m); eassumption.
Qed.

Lemma gtb_max x m m' : eqb m m' = true -> gtb x m = gtb x m'.
Proof.
  rewrite (f_eq _ _ _ _ Hord). intros (A & B & C & D). rewrite !(f_gt _ _ _ _ Hord).
  destruct (ltb m x) eqn:E; destruct (ltb m' x) eqn:F; try reflexivity.
  - rewrite (f_weak _ _ _ _ Hord m m' x B C F) in E. discriminate.
  - rewrite (f_weak _ _ _ _ Hord m' m x A D E) in F. discriminate.
Qed.

(** With the maximum [m] at hand *)
Lemma searched_now n xs x m : n <= length xs -> nan m = false -> ismax m (nums (window n xs)) ->
  (searched nan ltb gtb eqb n (xs ++ [x]) (length xs) <->
   exists old, nth_error xs (length xs - n) = Some old /\ eqb old m = true /\ gtb x m = false).
Proof.
  intros Hn Hm Hmax. split.
  - intros (y & old & m' & A & B & C & D & E & F).
    apply nth_snoc in B as [B|[_ ->]]; [apply nth_lt in B; lia|].
    rewrite window_firstn_all in D. pose proof (max_unique _ _ _ D Hmax) as Hu.
    destruct (Nat.eq_dec n 0) as [->|Hn0].
    { exfalso. destruct Hmax as [Hi _]. apply in_numbers in Hi as [Hi _]. apply in_window in Hi as (k & Hk & Hi).
      apply nth_lt in Hi. lia. }
    apply nth_snoc in C as [C|[C _]].
    + exists old. split; [exact C|]. split; [eapply eqb_trans_max; eauto|]. now rewrite <- (gtb_max x _ _ Hu).
    + exfalso. destruct Hmax as [Hi _]. apply in_numbers in Hi as [Hi _]. apply in_window in Hi as (k & Hk & Hi).
      apply nth_lt in Hi. lia.
  - intros (old & A & B & C). exists x, old, m. split; [exact Hn|].
    split; [apply nth_snoc; now right|]. split; [now apply nth_snoc_old|].
    rewrite window_firstn_all. repeat (split; [assumption|]). assumption.
Qed.

Lemma mod_window n a b : 0 < n -> a mod n = b mod n -> a <= b < a + n -> a = b.
Proof.
  intros Hn He H. pose proof (Nat.div_mod a n ltac:(lia)). pose proof (Nat.div_mod b n ltac:(lia)).
  assert (a / n = b / n) by nia. nia.
Qed.

(** Every slot of a full buffer holds a value of the window. *)
Lemma slot_value n (xs v : list T) i y : 0 < n -> n <= length xs -> length v = n ->
  (forall k x, nth_error xs k = Some x -> length xs - n <= k -> nth_error v (k mod n) = Some x) ->
  nth_error v i = Some y ->
  exists k, length xs - n <= k /\ k mod n = i /\ nth_error xs k = Some y.
Proof.
  intros Hn Hl Hv H Hi. assert (Hin : i < n) by (rewrite <- Hv; now apply nth_lt in Hi).
  (* the largest k < length xs with k mod n = i *)
  set (L := length xs) in *.
  set (k := L - 1 - (L - 1 + n - i) mod n).
  pose proof (Nat.div_mod (L - 1 + n - i) n ltac:(lia)) as Hd.
  pose proof (Nat.mod_upper_bound (L - 1 + n - i) n ltac:(lia)) as Hb.
  set (r := (L - 1 + n - i) mod n) in *. set (q := (L - 1 + n - i) / n) in *.
  assert (Hk : k + n = i + n * q).
  { unfold k. nia. }
  assert (Hmod : k mod n = i).
  { rewrite <- (Nat.mod_add k 1 n) by lia. rewrite Nat.mul_1_l, Hk, Nat.mul_comm, Nat.mod_add by lia.
    now apply Nat.mod_small. }
  assert (Hkl : k < L) by (unfold k; lia).
  assert (Hlo : L - n <= k) by (unfold k; lia).
  exists k. split; [exact Hlo|]. split; [exact Hmod|].
  destruct (nth_error xs k) as [z|] eqn:E; [|apply nth_error_None in E; unfold L in *; lia].
  specialize (H k z E Hlo). rewrite Hmod in H. congruence.
Qed.

Lemma slots_snoc n (xs v : list T) x : 0 < n -> length v = n ->
  (forall k y, nth_error xs k = Some y -> length xs - n <= k -> nth_error v (k mod n) = Some y) ->
  forall k y, nth_error (xs ++ [x]) k = Some y -> length (xs ++ [x]) - n <= k ->
    nth_error (upd v (length xs mod n) x) (k mod n) = Some y.
Proof.
  intros Hn Hv H k y Hk Hlo. rewrite app_length in Hlo. cbn in Hlo.
  pose proof (Nat.mod_upper_bound (length xs) n ltac:(lia)).
  apply nth_snoc in Hk as [Hk|[-> ->]].
  - pose proof (nth_lt _ _ _ Hk). rewrite upd_other.
    + apply H; [exact Hk|lia].
    + intros E. assert (k = length xs) by (apply (mod_window n); lia). lia.
  - apply upd_same. lia.
Qed.

Lemma mod_snoc n (xs : list T) x : 0 < n ->
  length (xs ++ [x]) mod n = if Nat.eqb (S (length xs mod n)) n then 0 else S (length xs mod n).
Proof.
  intros Hn. rewrite app_length. cbn [length]. pose proof (Nat.mod_upper_bound (length xs) n ltac:(lia)) as Hb.
  rewrite <- Nat.add_mod_idemp_l by lia.
  destruct (Nat.eqb_spec (S (length xs mod n)) n) as [E|E].
  - replace (length xs mod n + 1) with n by lia. apply Nat.mod_same. lia.
  - replace (length xs mod n + 1) with (S (length xs mod n)) by lia. apply Nat.mod_small. lia.
Qed.

Lemma poisoned_one n x : poisoned nan ltb gtb eqb n [x] <-> nan x = true.
Proof.
  split.
  - intros [(y & Hy & Hn)|(j & (y & old & m & A & B & C & D & E & F) & _)].
    + injection Hy as <-. exact Hn.
    + apply nth_lt in B. cbn in B. assert (j = 0) by lia. subst j. cbn in D.
      replace (window n ([] : list T)) with ([] : list T) in D by (unfold window; now rewrite skipn_nil).
      destruct D as [[] _].
  - intros H. left. exists x. split; [reflexivity|exact H].
Qed.

Lemma front_now n xs v x : 0 < n -> n <= length (xs ++ [x]) -> length v = n ->
  (forall k y, nth_error (xs ++ [x]) k = Some y -> length (xs ++ [x]) - n <= k -> nth_error v (k mod n) = Some y) ->
  forall y, nth_error v 0 = Some y -> (nan_in_front nan n (xs ++ [x]) (length xs) <-> nan y = true).
Proof.
  intros Hn Hl Hv Hs y Hy. split.
  - intros (k & z & A & B & C & D). assert (nth_error v (k mod n) = Some z) as Hz.
    { apply Hs; [exact C|]. rewrite app_length. cbn [length]. lia. }
    rewrite A in Hz. congruence.
  - intros Hnan. destruct (slot_value n _ v 0 y Hn Hl Hv Hs Hy) as (k & A & B & C).
    exists k, y. pose proof (nth_lt _ _ _ C) as Hk. rewrite app_length in *. cbn [length] in *.
    split; [exact B|]. split; [lia|]. split; [exact C|exact Hnan].
Qed.

Lemma window_snoc_in n (xs : list T) x y : 0 < n ->
  (In y (window n (xs ++ [x])) <-> y = x \/ exists k, length xs + 1 - n <= k /\ nth_error xs k = Some y).
Proof.
  intros Hn. rewrite in_window, app_length. cbn [length]. split.
  - intros (k & Hk & H). apply nth_snoc in H as [H|[_ ->]]; [right; exists k; split; assumption|now left].
  - intros [->|(k & Hk & H)].
    + exists (length xs). split; [lia|]. apply nth_snoc. now right.
    + exists k. split; [exact Hk|now apply nth_snoc_old].
Qed.

(** One add *)
Lemma inv_add n xs v pos full m x : 0 < n -> inv n xs v pos full m ->
  exists old m', nth_error v pos = Some old /\
    (if full then
       if gtb x m then m' = x
       else if eqb old m then max_element ltb (upd v pos x) = Ok m' else m' = m
     else m' = if Nat.eqb pos 0 || gtb x m then x else m) /\
    inv n (xs ++ [x]) (upd v pos x) (if Nat.eqb (S pos) n then 0 else S pos)
        (full || Nat.eqb (S pos) n) m'.
Proof.
  intros Hn (Hv & Hpos & Hfull & Hs & Hp & Hm).
  pose proof (Nat.mod_upper_bound (length xs) n ltac:(lia)) as Hb.
  assert (Hlen : length (xs ++ [x]) = length xs + 1) by (rewrite app_length; reflexivity).
  destruct (nth_error v pos) as [old|] eqn:Eold; [|apply nth_error_None in Eold; lia].
  assert (Hs' : forall k y, nth_error (xs ++ [x]) k = Some y -> length (xs ++ [x]) - n <= k ->
                  nth_error (upd v pos x) (k mod n) = Some y).
  { rewrite Hpos. now apply slots_snoc. }
  assert (Hv' : length (upd v pos x) = n) by (now rewrite upd_length).
  assert (Hpos' : (if Nat.eqb (S pos) n then 0 else S pos) = length (xs ++ [x]) mod n).
  { rewrite mod_snoc by exact Hn. now rewrite Hpos. }
  assert (Hfull' : full || Nat.eqb (S pos) n = Nat.leb n (length (xs ++ [x]))).
  { rewrite Hlen, Hfull. destruct (Nat.leb_spec n (length xs)) as [H|H]; cbn [orb].
    - symmetry. apply Nat.leb_le. lia.
    - rewrite Hpos, Nat.mod_small by lia. destruct (Nat.eqb_spec (S (length xs)) n) as [E|E]; symmetry.
      + apply Nat.leb_le. lia.
      + apply Nat.leb_gt. lia. }
  assert (Hne : xs ++ [x] <> []) by (destruct xs; discriminate).
  assert (Hres : forall m', (nan m' = true <-> poisoned nan ltb gtb eqb n (xs ++ [x])) ->
             (nan m' = false -> ismax m' (nums (window n (xs ++ [x])))) ->
             inv n (xs ++ [x]) (upd v pos x) (if Nat.eqb (S pos) n then 0 else S pos) (full || Nat.eqb (S pos) n) m').
  { intros m' A B. split; [exact Hv'|]. split; [exact Hpos'|]. split; [exact Hfull'|]. split; [exact Hs'|].
    split; intros _; assumption. }
  destruct (list_eq_nil_dec xs) as [->|Hxs].
  { (* the first value *)
    cbn [length] in *. rewrite Nat.mod_0_l in Hpos by lia. subst pos.
    assert (full = false) by (rewrite Hfull; apply Nat.leb_gt; lia). rewrite Hfull in *. clear Hfull full.
    match goal with H : (n <=? 0) = false |- _ => rewrite H in * end.
    exists old, x. split; [reflexivity|]. split; [rewrite ?Eo; exact eq_refl|]. apply Hres.
    - cbn [app]. now rewrite poisoned_one.
    - intros Hx. cbn [app]. rewrite window_all by (cbn; lia).
      split; [apply in_numbers; split; [now left|exact Hx]|].
      intros y Hy. apply in_numbers in Hy as [[<-|[]] _]. apply (f_irrefl _ _ _ _ Hord). }
  specialize (Hp Hxs). specialize (Hm Hxs).
  destruct full.
  - (* full *)
    symmetry in Hfull. apply Nat.leb_le in Hfull.
    assert (Hold : nth_error xs (length xs - n) = Some old).
    { destruct (slot_value n xs v pos old Hn Hfull Hv Hs Eold) as (k & A & B & C).
      replace (length xs - n) with k; [exact C|]. symmetry. pose proof (nth_lt _ _ _ C).
      apply (mod_window n); [exact Hn| |lia]. rewrite B, Hpos.
      rewrite <- (Nat.mod_add (length xs - n) 1 n) by lia. f_equal. lia. }
    destruct (nan m) eqn:Enm.
    { (* already poisoned *)
      exists old, m. split; [reflexivity|].
      assert (Hg : gtb x m = false) by (rewrite (f_gt _ _ _ _ Hord); now apply (nan_l _ _ _ _ Hord)).
      assert (He : eqb old m = false).
      { destruct (eqb old m) eqn:E; [|reflexivity]. apply (f_eq _ _ _ _ Hord) in E as (_ & E & _). congruence. }
      rewrite Hg, He. split; [reflexivity|]. apply Hres; [|congruence].
      rewrite poisoned_snoc by exact Hxs. rewrite Enm. intuition. }
    specialize (Hm eq_refl).
    pose proof (proj2 (proj1 (in_numbers _ _) (proj1 Hm))) as Hnm.
    pose proof (searched_now n xs x m Hfull Enm Hm) as Hse.
    assert (Hnp : ~ poisoned nan ltb gtb eqb n xs) by (intros H; apply Hp in H; discriminate).
    destruct (gtb x m) eqn:Eg.
    { exists old, x. split; [reflexivity|]. split; [rewrite ?Eo; exact eq_refl|].
      rewrite (f_gt _ _ _ _ Hord) in Eg.
      assert (Hx : nan x = false).
      { destruct (nan x) eqn:E; [|reflexivity]. rewrite (nan_r _ _ _ _ Hord) in Eg by exact E. discriminate. }
      apply Hres.
      - rewrite Hx. split; [discriminate|]. intros H. apply poisoned_snoc in H as [H|[H _]]; [contradiction| |exact Hxs].
        apply Hse in H as (o & _ & _ & H). discriminate.
      - intros _. split.
        + apply in_numbers. split; [|exact Hx]. apply window_snoc_in; [exact Hn|now left].
        + intros y Hy. apply in_numbers in Hy as [Hy Hyn]. apply window_snoc_in in Hy as [->|(k & Hk & Hy)]; [|..|exact Hn].
          * apply (f_irrefl _ _ _ _ Hord).
          * assert (Hmy : ltb m y = false).
            { apply Hm. apply in_numbers. split; [|exact Hyn]. apply in_window. exists k. split; [lia|exact Hy]. }
            destruct (ltb x y) eqn:E; [|reflexivity].
            rewrite <- Hmy. symmetry. eapply (f_trans _ _ _ _ Hord); eauto. }
    destruct (eqb old m) eqn:Eo.
    + (* the maximum is searched *)
      destruct (upd v pos x) as [|y l] eqn:Eu; [cbn in Hv'; lia|].
      exists old, (fold_left (fun m y => if ltb m y then y else m) l y).
      split; [reflexivity|]. split; [rewrite ?Eo; exact eq_refl|].
      assert (Hfr : nan_in_front nan n (xs ++ [x]) (length xs) <-> nan y = true).
      { apply (front_now n xs (y :: l) x Hn); [lia|exact Hv'|exact Hs'|reflexivity]. }
      assert (Hsr : searched nan ltb gtb eqb n (xs ++ [x]) (length xs)).
      { apply Hse. exists old. split; [exact Hold|]. split; [exact Eo|reflexivity]. }
      apply Hres.
      * rewrite poisoned_snoc by exact Hxs. destruct (nan y) eqn:Ey.
        -- rewrite fold_nan by exact Ey. rewrite Ey. intuition.
        -- destruct (fold_num l y Ey) as (A & _). cbn zeta in A. rewrite A. split; [discriminate|].
           intros [H|[_ H]]; [contradiction|]. apply Hfr in H. discriminate.
      * intros Hnn. destruct (nan y) eqn:Ey; [rewrite fold_nan in Hnn by exact Ey; congruence|].
        destruct (fold_num l y Ey) as (A & B & C & D). cbn zeta in *.
        set (M := fold_left _ l y) in *.
        assert (Hset : forall z, In z (y :: l) <-> In z (window n (xs ++ [x]))).
        { intros z. split.
          - intros Hz. apply In_nth_error in Hz as [i Hi].
            destruct (slot_value n (xs ++ [x]) (y :: l) i z Hn ltac:(lia) Hv' Hs' Hi) as (k & K1 & K2 & K3).
            apply in_window. exists k. split; assumption.
          - intros Hz. apply in_window in Hz as (k & K1 & K2). eapply nth_error_In. apply (Hs' k z K2 K1). }
        split.
        -- apply in_numbers. split; [|exact A]. apply Hset. destruct B as [->|B]; [now left|now right].
        -- intros z Hz. apply in_numbers in Hz as [Hz _]. apply Hset in Hz as [<-|Hz]; [exact C|now apply D].
    + exists old, m. split; [reflexivity|]. split; [rewrite ?Eo; exact eq_refl|]. apply Hres.
      * rewrite Enm. split; [discriminate|]. intros H. apply poisoned_snoc in H as [H|[H _]]; [contradiction| |exact Hxs].
        apply Hse in H as (o & H & H' & _). rewrite Hold in H. injection H as <-. congruence.
      * intros _. destruct Hm as [Hin Hmax]. split.
        -- apply in_numbers. split; [|exact Enm]. apply window_snoc_in; [exact Hn|]. right.
           apply in_numbers in Hin as [Hin _]. apply in_window in Hin as (k & Hk & Hi). exists k. split; [|exact Hi].
           destruct (Nat.eq_dec k (length xs - n)) as [->|]; [|lia].
           rewrite Hold in Hi. injection Hi as ->.
           assert (eqb m m = true) as Hmm.
           { apply (f_eq _ _ _ _ Hord). rewrite !(f_irrefl _ _ _ _ Hord). auto. }
           congruence.
        -- intros y Hy. apply in_numbers in Hy as [Hy Hyn]. apply window_snoc_in in Hy as [->|(k & Hk & Hy)]; [|..|exact Hn].
           ++ now rewrite (f_gt _ _ _ _ Hord) in Eg.
           ++ apply Hmax. apply in_numbers. split; [|exact Hyn]. apply in_window. exists k. split; [lia|exact Hy].
  - (* not full *)
    symmetry in Hfull. apply Nat.leb_gt in Hfull. rewrite Nat.mod_small in Hpos by lia.
    assert (Hl0 : 0 < length xs) by (destruct xs; [congruence|cbn; lia]).
    exists old, (if Nat.eqb pos 0 || gtb x m then x else m). split; [reflexivity|]. split; [rewrite ?Eo; exact eq_refl|].
    replace (Nat.eqb pos 0) with false by (symmetry; apply Nat.eqb_neq; lia). cbn [orb].
    assert (Hpz : poisoned nan ltb gtb eqb n (xs ++ [x]) <-> poisoned nan ltb gtb eqb n xs).
    { rewrite poisoned_snoc by exact Hxs. split; [|now left].
      intros [H|[(y & o & m' & H & _) _]]; [exact H|lia]. }
    rewrite window_all in Hm by lia.
    apply Hres.
    + rewrite Hpz, <- Hp. destruct (gtb x m) eqn:Eg; [|reflexivity].
      rewrite (f_gt _ _ _ _ Hord) in Eg. split; intros H.
      * rewrite (nan_r _ _ _ _ Hord) in Eg by exact H. discriminate.
      * rewrite (nan_l _ _ _ _ Hord) in Eg by exact H. discriminate.
    + rewrite window_all by lia. destruct (gtb x m) eqn:Eg; rewrite (f_gt _ _ _ _ Hord) in Eg.
      * intros Hx. split; [apply in_numbers; split; [apply in_or_app; right; now left|exact Hx]|].
        intros y Hy. apply in_numbers in Hy as [Hy Hyn]. apply in_app_or in Hy as [Hy|[<-|[]]].
        -- destruct (nan m) eqn:Enm; [rewrite (nan_l _ _ _ _ Hord) in Eg by exact Enm; discriminate|].
           specialize (Hm eq_refl). assert (Hmy : ltb m y = false) by (apply Hm; apply in_numbers; split; assumption).
           destruct (ltb x y) eqn:E; [|reflexivity]. rewrite <- Hmy. symmetry. eapply (f_trans _ _ _ _ Hord); eauto.
        -- apply (f_irrefl _ _ _ _ Hord).
      * intros Enm. specialize (Hm Enm). destruct Hm as [Hin Hmax]. split.
        -- apply in_numbers in Hin as [Hin _]. apply in_numbers. split; [apply in_or_app; now left|exact Enm].
        -- intros y Hy. apply in_numbers in Hy as [Hy Hyn]. apply in_app_or in Hy as [Hy|[<-|[]]]; [|exact Eg].
           apply Hmax. apply in_numbers. split; assumption.
Qed.

Lemma mh_add_one (v : list T) (pos : nat) (full : bool) (m old m' x : T) : nth_error v pos = Some old ->
  (if full then
       if gtb x m then m' = x
       else if eqb old m then max_element ltb (upd v pos x) = Ok m' else m' = m
     else m' = if Nat.eqb pos 0 || gtb x m then x else m) ->
  mh_add ltb gtb eqb (World [v] [Obj 0 full (0, pos) m]) 0 x =
  Ok (World [upd v pos x] [Obj 0 (full || Nat.eqb (S pos) (length v))
        (0, if Nat.eqb (S pos) (length v) then 0 else S pos) m']).
Proof.
  intros Ho Hm. unfold mh_add, load, store, iter_eqb. cbn. rewrite Ho.
  destruct full; cbn [orb].
  - cbn. destruct (gtb x m); [subst m'|destruct (eqb old m); [rewrite Hm|subst m']]; cbn;
      destruct (S pos =? length v); reflexivity.
  - cbn. subst m'. destruct (S pos =? length v); reflexivity.
Qed.

Lemma inv_new n : 0 < n -> inv n [] (repeat dflt n) 0 false dflt.
Proof.
  intros Hn. split; [apply repeat_length|]. split; [now rewrite Nat.mod_0_l by lia|].
  split; [symmetry; apply Nat.leb_gt; cbn; lia|]. split; [intros k x H; destruct k; discriminate|].
  split; intros H; congruence.
Qed.

Lemma run_inv n : 0 < n -> forall ys xs v pos full m, inv n xs v pos full m ->
  exists v' pos' full' m', run (World [v] [Obj 0 full (0, pos) m]) (map (Add 0) ys) =
    Ok (World [v'] [Obj 0 full' (0, pos') m']) /\ inv n (xs ++ ys) v' pos' full' m'.
Proof.
  intros Hn. induction ys as [|y ys IH]; intros xs v pos full m Hi.
  - exists v, pos, full, m. split; [reflexivity|]. now rewrite app_nil_r.
  - destruct (inv_add n xs v pos full m y Hn Hi) as (old & m1 & Ho & Hm & Hi').
    pose proof (mh_add_one v pos full m old m1 y Ho Hm) as Hadd.
    assert (Hlv : length v = n) by apply Hi. rewrite Hlv in Hadd.
    destruct (IH _ _ _ _ _ Hi') as (v' & pos' & full' & m' & Hr & Hi2).
    exists v', pos', full', m'. split.
    + cbn [map MaxHistory_Model.run step]. rewrite Hadd. exact Hr.
    + now rewrite <- app_assoc in Hi2.
Qed.

Lemma nan_exact n xs : 0 < n -> xs <> [] ->
  exists w m, run init (New n :: map (Add 0) xs) = Ok w /\ mh_max w 0 = Ok m /\
    (nan m = true <-> poisoned nan ltb gtb eqb n xs) /\
    (nan m = false -> ismax m (nums (window n xs))).
Proof.
  intros Hn Hxs. destruct (run_inv n Hn xs [] _ _ _ _ (inv_new n Hn)) as (v & pos & full & m & Hr & Hi).
  exists (World [v] [Obj 0 full (0, pos) m]), m. split; [exact Hr|]. split; [reflexivity|].
  cbn [app] in Hi. destruct Hi as (_ & _ & _ & _ & A & B). split; [now apply A|now apply B].
Qed.

Lemma poisoned_app n xs ys : poisoned nan ltb gtb eqb n xs -> poisoned nan ltb gtb eqb n (xs ++ ys).
Proof.
  induction ys as [|y ys IH] using rev_ind; intros H; [now rewrite app_nil_r|].
  rewrite app_assoc. apply poisoned_snoc; [|left; now apply IH].
  specialize (IH H). intros E. rewrite E in IH.
  destruct IH as [(z & Hz & _)|(j & (z & o & m & _ & Hz & _) & _)]; [discriminate|destruct j; discriminate].
Qed.

Lemma not_poisoned n xs : 0 < n ->
  (forall k x, nth_error xs k = Some x -> k mod n = 0 -> nan x = false) -> ~ poisoned nan ltb gtb eqb n xs.
Proof.
  intros Hn H [(x & Hx & Hnx)|(j & _ & k & y & A & _ & B & C)].
  - rewrite (H 0 x Hx) in Hnx; [discriminate|apply Nat.mod_0_l; lia].
  - rewrite (H k y B A) in C. discriminate.
Qed.
End Proofs.
