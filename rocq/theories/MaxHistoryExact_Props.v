(** C02: what adding to a copy of a MaxHistory does, for every history. *)
From Verif Require Import Base MaxHistory_Spec MaxHistory_Model.
Local Open Scope outcome_scope.
Local Arguments Nat.eqb : simpl never.
Local Arguments Nat.modulo : simpl never.

Section S.
Context {T : Type} (ltb gtb eqb : T -> T -> bool) (dflt : T).
Notation mh_add := (mh_add ltb gtb eqb).
Notation run := (run ltb gtb eqb dflt).

Lemma run_app a : forall b w, run w (a ++ b) = (w' <- run w a ;; run w' b).
Proof.
  induction a as [|o a IH]; intros b w; [reflexivity|]. cbn [app MaxHistory_Model.run].
  destruct (step ltb gtb eqb dflt w o); cbn [bind]; [apply IH|reflexivity..].
Qed.

Lemma max_element_some l : 0 < length l -> exists m, max_element ltb l = Ok m.
Proof. destruct l as [|x l]; cbn [length]; [lia|]. intros _. eexists. reflexivity. Qed.

Lemma next_pos p n : p < n -> (if Nat.eqb (S p) n then 0 else S p) = S p mod n.
Proof.
  intros H. destruct (Nat.eqb_spec (S p) n) as [<-|N]; [now rewrite Nat.mod_same by lia|].
  rewrite Nat.mod_small; lia.
Qed.

Lemma add_own n v full k m x : length v = n -> 0 < n ->
  exists v' full' m', length v' = n /\
    mh_add (World [v] [Obj 0 full (0, k mod n) m]) 0 x = Ok (World [v'] [Obj 0 full' (0, S k mod n) m']).
Proof.
  intros L P. pose proof (Nat.mod_upper_bound k n ltac:(lia)) as B.
  assert (E : nth_error v (k mod n) <> None) by (apply nth_error_Some; lia).
  assert (Q : S k mod n = S (k mod n) mod n).
  { rewrite <- Nat.add_1_r, <- (Nat.add_1_r (k mod n)). now rewrite Nat.add_mod_idemp_l by lia. }
  rewrite Q. set (p := k mod n) in *. clearbody p. clear Q.
  destruct (nth_error v p) as [old|] eqn:En; [clear E|now destruct E].
  unfold MaxHistory_Model.mh_add, load, store. cbn [w_objs w_bufs nth_error o_buf o_full o_it fst snd upd]. rewrite En. cbn [bind].
  unfold iter_eqb; cbn [fst snd]. rewrite Nat.eqb_refl. cbn [andb].
  destruct full; cbn [bind].
  - destruct (max_element_some (upd v p x)) as [mm Emm]; [rewrite upd_length; lia|].
    exists (upd v p x), true, (if gtb x m then x else if eqb old m then mm else m).
    split; [now rewrite upd_length|]. cbn [o_max]. rewrite L.
    replace (if gtb x m then Ok x else if eqb old m then max_element ltb (upd v p x) else Ok m)
      with (Ok (if gtb x m then x else if eqb old m then mm else m)).
    2:{ rewrite Emm. destruct (gtb x m), (eqb old m); reflexivity. }
    cbn [bind]. rewrite <- next_pos by exact B. now destruct (Nat.eqb (S p) n).
  - exists (upd v p x). cbn [o_max]. rewrite L. rewrite <- next_pos by exact B.
    destruct (Nat.eqb (S p) n); do 2 eexists; (split; [now rewrite upd_length|reflexivity]).
Qed.

Lemma adds_own n xs : 0 < n -> forall v full k m, length v = n ->
  exists v' full' m', length v' = n /\
    run (World [v] [Obj 0 full (0, k mod n) m]) (map (Add 0) xs) = Ok (World [v'] [Obj 0 full' (0, (k + length xs) mod n) m']).
Proof.
  intros P. induction xs as [|x xs IH]; intros v full k m L.
  - exists v, full, m. rewrite Nat.add_0_r. now split.
  - cbn [map MaxHistory_Model.run step]. destruct (add_own n v full k m x L P) as (v1 & f1 & m1 & L1 & ->). cbn [bind].
    destruct (IH v1 f1 (S k) m1 L1) as (v2 & f2 & m2 & L2 & E). exists v2, f2, m2. split; [exact L2|]. rewrite E.
    cbn [length]. now rewrite Nat.add_succ_r.
Qed.

(** One add to the copy writes to the vector of the original. *)
Lemma add_copy n v c o full p m x : length v = n -> length c = n -> 0 < n -> p < n ->
  exists full' m',
    mh_add (World [v; c] [o; Obj 1 full (0, p) m]) 1 x = Ok (World [upd v p x; c] [o; Obj 1 full' (0, S p) m']).
Proof.
  intros L Lc P B. assert (E : nth_error v p <> None) by (apply nth_error_Some; lia).
  destruct (nth_error v p) as [old|] eqn:En; [clear E|now destruct E].
  unfold MaxHistory_Model.mh_add, load, store. cbn [w_objs w_bufs nth_error o_buf o_full o_it fst snd upd]. rewrite En. cbn [bind].
  unfold iter_eqb; cbn [fst snd]. change (Nat.eqb 0 1) with false. cbn [andb orb nth_error o_max].
  destruct full; cbn [bind].
  - destruct (max_element_some c) as [mm Emm]; [lia|].
    exists true, (if gtb x m then x else if eqb old m then mm else m).
    replace (if gtb x m then Ok x else if eqb old m then max_element ltb c else Ok m)
      with (Ok (if gtb x m then x else if eqb old m then mm else m)); [reflexivity|].
    rewrite Emm. destruct (gtb x m), (eqb old m); reflexivity.
  - do 2 eexists. reflexivity.
Qed.

Lemma add_copy_end v c o full m x : mh_add (World [v; c] [o; Obj 1 full (0, length v) m]) 1 x = UB.
Proof.
  assert (En : nth_error v (length v) = None) by now apply nth_error_None.
  unfold MaxHistory_Model.mh_add, load. cbn [w_objs w_bufs nth_error o_buf o_full o_it fst snd upd]. rewrite En.
  now destruct full.
Qed.

Lemma adds_copy n c o ys : 0 < n -> length c = n -> forall v full p m, length v = n -> p <= n ->
  (length ys <= n - p ->
    exists full' m', run (World [v; c] [o; Obj 1 full (0, p) m]) (map (Add 1) ys) =
      Ok (World [firstn p v ++ ys ++ skipn (p + length ys) v; c] [o; Obj 1 full' (0, p + length ys) m'])) /\
  (n - p < length ys -> run (World [v; c] [o; Obj 1 full (0, p) m]) (map (Add 1) ys) = UB).
Proof.
  intros P Lc. induction ys as [|y ys IH]; intros v full p m L Hp.
  - split; [|cbn [length]; lia]. intros _. exists full, m. cbn [map MaxHistory_Model.run length app].
    rewrite Nat.add_0_r, firstn_skipn. reflexivity.
  - cbn [map MaxHistory_Model.run step length]. destruct (Nat.eq_dec p n) as [->|N].
    + split; [lia|]. intros _. rewrite <- L at 1. now rewrite add_copy_end.
    + destruct (add_copy n v c o full p m y L Lc P ltac:(lia)) as (f1 & m1 & ->). cbn [bind].
      destruct (IH (upd v p y) f1 (S p) m1 ltac:(now rewrite upd_length) ltac:(lia)) as [A B].
      split; [|intros G; apply B; lia]. intros G. destruct A as (f2 & m2 & A); [lia|]. exists f2, m2. rewrite A.
      assert (S1 : firstn (S p) (upd v p y) = firstn p v ++ [y]).
      { clear - L N Hp. assert (H : p < length v) by lia. clear L N Hp n. revert v H.
        induction p as [|p IH]; intros [|a v] H; cbn [length] in H; try lia; [reflexivity|].
        cbn [upd firstn app]. f_equal. apply IH. lia. }
      assert (S2 : skipn (S p + length ys) (upd v p y) = skipn (p + S (length ys)) v).
      { replace (p + S (length ys)) with (S p + length ys) by lia. generalize (length ys). intros k.
        clear - L N Hp. assert (H : p < length v) by lia. clear L N Hp n. revert v H.
        induction p as [|p IH]; intros [|a v] H; cbn [length] in H; try lia; [reflexivity|].
        cbn [upd plus skipn]. apply (IH v). lia. }
      rewrite S1, S2, <- app_assoc. cbn [app]. now replace (p + S (length ys)) with (S p + length ys) by lia.
Qed.
End S.

(** C02, where it fails: for every element type and every comparison, every
    memory and every history of an object, adding to a copy of it is undefined
    behaviour as soon as the values added do not fit between the original's
    position and the end of the original's vector (at the latest with value number
    n + 1); before that every value is stored in the original. *)
Theorem C02_adding_to_a_copy :
  forall (T : Type) (ltb gtb eqb : T -> T -> bool) (dflt : T) n xs ys, 0 < n ->
  let ops := New n :: map (Add 0) xs ++ Copy 0 :: map (Add 1) ys in
  (n - length xs mod n < length ys -> run ltb gtb eqb dflt init ops = UB) /\
  (length ys <= n - length xs mod n ->
     exists w w' v, run ltb gtb eqb dflt init (New n :: map (Add 0) xs) = Ok w /\ w_bufs w = [v] /\
       run ltb gtb eqb dflt init ops = Ok w' /\
       (* the vectors of the original and of the copy *)
       w_bufs w' = [firstn (length xs mod n) v ++ ys ++ skipn (length xs mod n + length ys) v; v]).
Proof.
  intros T ltb gtb eqb dflt n xs ys P ops. subst ops.
  destruct (adds_own ltb gtb eqb dflt n xs P (repeat dflt n) false 0 dflt (repeat_length _ _)) as (v & full & m & L & E).
  rewrite Nat.mod_0_l in E by lia. cbn [plus] in E.
  pose proof (Nat.mod_upper_bound (length xs) n ltac:(lia)) as B.
  destruct (adds_copy ltb gtb eqb dflt n v (Obj 0 full (0, length xs mod n) m) ys P L v full (length xs mod n) m L ltac:(lia)) as [H1 H2].
  assert (R : run ltb gtb eqb dflt init (New n :: map (Add 0) xs ++ Copy 0 :: map (Add 1) ys) =
    run ltb gtb eqb dflt (World [v; v] [Obj 0 full (0, length xs mod n) m; Obj 1 full (0, length xs mod n) m]) (map (Add 1) ys)).
  { cbn [MaxHistory_Model.run step bind]. unfold mh_new, init; cbn [w_bufs w_objs app length].
    rewrite run_app, E. reflexivity. }
  rewrite R. split; [exact H2|]. intros G. destruct (H1 G) as (f' & m' & H).
  do 3 eexists. split; [|split; [|split; [exact H|reflexivity]]].
  - cbn [MaxHistory_Model.run step bind]. unfold mh_new, init; cbn [w_bufs w_objs app length]. exact E.
  - reflexivity.
Qed.
Print Assumptions C02_adding_to_a_copy.

(** Three values in a memory of 4, two of which were added to the original before
    the copy: the copy can take two values, both end up in the original. *)
Example C02_adding_nonvacuous :
  let ops k := New 4 :: map (Add 0) [5; 7]%Z ++ Copy 0 :: map (Add 1) (firstn k [1; 2; 3]%Z) in
  run Z.ltb Z.gtb Z.eqb 0%Z init (ops 3) = UB /\
  exists w, run Z.ltb Z.gtb Z.eqb 0%Z init (ops 2) = Ok w /\ w_bufs w = [[5; 7; 1; 2]; [5; 7; 0; 0]]%Z.
Proof. split; [reflexivity|]. eexists. split; vm_compute; reflexivity. Qed.
