(** C105: sliding-window maxima of floating-point numbers, NaN included. *)
From Verif Require Import Base MaxHistory_Spec MaxHistory_Model MaxHistoryNan_Spec MaxHistoryNan_Proofs.
From Coq Require Import Reals.
From Flocq Require Import Core IEEE754.Binary.

Section Order.
Context (prec emax : Z).
Notation float := (binary_float prec emax).
(** operator<, operator> and operator== of an IEEE floating-point type (-0 and +0 are equal) *)
Definition fltb (a b : float) : bool := match Bcompare prec emax a b with Some Lt => true | _ => false end.
Definition fgtb (a b : float) : bool := match Bcompare prec emax a b with Some Gt => true | _ => false end.
Definition feqb (a b : float) : bool := match Bcompare prec emax a b with Some Eq => true | _ => false end.
Definition fnan (a : float) : bool := is_nan prec emax a.

(** -infinity, the finite numbers, +infinity in order *)
Definition rank (a : float) : Z := match a with B754_infinity _ _ true => -1 | B754_infinity _ _ false => 1 | _ => 0 end%Z.
Definition less (a b : float) : Prop :=
  (rank a < rank b)%Z \/ rank a = rank b /\ (B2R prec emax a < B2R prec emax b)%R.

Lemma Bcompare_cases a b : fnan a = false -> fnan b = false ->
  (Bcompare prec emax a b = Some Lt /\ less a b) \/
  (Bcompare prec emax a b = Some Gt /\ less b a) \/
  (Bcompare prec emax a b = Some Eq /\ rank a = rank b /\ B2R prec emax a = B2R prec emax b).
Proof.
  intros Ha Hb. destruct (is_finite prec emax a) eqn:Fa; [destruct (is_finite prec emax b) eqn:Fb|].
  - rewrite Bcompare_correct by assumption.
    assert (rank a = 0%Z /\ rank b = 0%Z) as [Ra Rb].
    { split; [destruct a|destruct b]; try reflexivity; discriminate. }
    unfold less. rewrite Ra, Rb.
    destruct (Rcompare_spec (B2R prec emax a) (B2R prec emax b)); auto 6.
  - destruct b as [s|s| |]; try discriminate. unfold less.
    destruct a as [sa|sa| |sa]; try discriminate; destruct s; cbn; auto.
    all: try (right; left; split; [reflexivity|left; lia]).
    all: left; split; [reflexivity|left; lia].
  - destruct a as [s|s| |]; try discriminate. unfold less.
    destruct b as [sb|sb| |sb]; try discriminate; destruct s; cbn; try destruct sb; cbn; auto 6.
    all: try (right; left; split; [reflexivity|left; lia]).
    all: left; split; [reflexivity|left; lia].
Qed.

Lemma less_irrefl a : ~ less a a.
Proof. unfold less. intros [H|[_ H]]; [lia|exact (Rlt_irrefl _ H)]. Qed.
Lemma less_trans a b c : less a b -> less b c -> less a c.
Proof.
  unfold less. intros [H|[H H']] [K|[K K']]; try (left; lia). right. split; [lia|]. eapply Rlt_trans; eauto.
Qed.

Lemma fltb_less a b : fltb a b = true <-> fnan a = false /\ fnan b = false /\ less a b.
Proof.
  unfold fltb. destruct (fnan a) eqn:Ea.
  { split; [|intros (H & _); discriminate]. destruct a; try discriminate; destruct b; discriminate. }
  destruct (fnan b) eqn:Eb.
  { split; [|intros (_ & H & _); discriminate]. destruct b; try discriminate; destruct a; discriminate. }
  destruct (Bcompare_cases a b Ea Eb) as [[-> H]|[[-> H]|[-> [H H']]]].
  - intuition.
  - split; [discriminate|]. intros (_ & _ & K). exfalso. exact (less_irrefl _ (less_trans _ _ _ H K)).
  - split; [discriminate|]. intros (_ & _ & [K|[_ K]]); exfalso; [lia|rewrite H' in K; exact (Rlt_irrefl _ K)].
Qed.

Lemma ieee_float_order : float_order fnan fltb fgtb feqb.
Proof.
  assert (F : forall a b, fltb a b = false <-> ~ (fnan a = false /\ fnan b = false /\ less a b)).
  { intros a b. rewrite <- fltb_less. destruct (fltb a b); split; congruence. }
  split.
  - intros a b H. apply F. intros (K & _). congruence.
  - intros a b H. apply F. intros (_ & K & _). congruence.
  - intros a. apply F. intros (_ & _ & K). exact (less_irrefl _ K).
  - intros a b c H K. apply fltb_less in H as (A & B & C). apply fltb_less in K as (_ & D & E).
    apply fltb_less. split; [exact A|]. split; [exact D|]. eapply less_trans; eauto.
  - intros a b c Hb H K. apply F. intros (A & C & L). apply F in H. apply F in K.
    destruct (Bcompare_cases a b A Hb) as [[_ X]|[[_ X]|[_ [X X']]]].
    + apply H. auto.
    + apply K. split; [exact Hb|]. split; [exact C|]. eapply less_trans; eauto.
    + apply K. split; [exact Hb|]. split; [exact C|]. unfold less in *. rewrite <- X, <- X'. exact L.
  - intros a b. unfold fgtb, fltb. rewrite (Bcompare_swap prec emax b a).
    destruct (Bcompare prec emax b a) as [[]|]; reflexivity.
  - intros a b. unfold feqb. split.
    + intros H. assert (A : fnan a = false) by (destruct a; try reflexivity; destruct b; discriminate).
      assert (B : fnan b = false) by (destruct b; try reflexivity; destruct a as [| | |]; discriminate).
      split; [exact A|]. split; [exact B|]. destruct (Bcompare_cases a b A B) as [[E X]|[[E X]|[E [X X']]]];
        rewrite E in H; try discriminate.
      split; apply F; intros (_ & _ & L); unfold less in L; rewrite X, X' in L; destruct L as [L|[_ L]];
        try lia; exact (Rlt_irrefl _ L).
    + intros (A & B & C & D). destruct (Bcompare_cases a b A B) as [[E X]|[[E X]|[E [X X']]]]; rewrite E.
      * apply F in C. exfalso. auto.
      * apply F in D. exfalso. auto.
      * reflexivity.
Qed.
End Order.

(** C105, exactly: for every capacity and every history, max() is NaN exactly when the first value was a NaN or the
    maximum had to be searched while the slot at the front of the buffer held a NaN; otherwise it is the maximum of
    the numbers in the window. *)
Theorem C105_exact :
  forall (T : Type) (nan : T -> bool) (ltb gtb eqb : T -> T -> bool) (dflt : T),
    float_order nan ltb gtb eqb ->
    forall n xs, 0 < n -> xs <> [] ->
    exists w m, run ltb gtb eqb dflt init (New n :: map (Add 0) xs) = Ok w /\ mh_max w 0 = Ok m /\
      (nan m = true <-> poisoned nan ltb gtb eqb n xs) /\
      (nan m = false -> is_max ltb m (numbers nan (window n xs))).
Proof. intros T nan ltb gtb eqb dflt H n xs. now apply nan_exact. Qed.
Print Assumptions C105_exact.

(** The comparisons of every IEEE format are of that kind. *)
Theorem C105_ieee_formats : forall prec emax, float_order (fnan prec emax) (fltb prec emax) (fgtb prec emax) (feqb prec emax).
Proof. exact ieee_float_order. Qed.
Print Assumptions C105_ieee_formats.

(** As long as the values number 0, n, 2n, ... are numbers, max() is the maximum of the numbers in the window. *)
Theorem C105_numbers_in_front_partial :
  forall (T : Type) (nan : T -> bool) (ltb gtb eqb : T -> T -> bool) (dflt : T),
    float_order nan ltb gtb eqb ->
    forall n xs, 0 < n -> xs <> [] -> (forall k x, nth_error xs k = Some x -> k mod n = 0 -> nan x = false) ->
    exists w m, run ltb gtb eqb dflt init (New n :: map (Add 0) xs) = Ok w /\ mh_max w 0 = Ok m /\
      nan m = false /\ is_max ltb m (numbers nan (window n xs)).
Proof.
  intros T nan ltb gtb eqb dflt H n xs Hn Hx Hf.
  destruct (nan_exact nan ltb gtb eqb dflt H n xs Hn Hx) as (w & m & A & B & C & D).
  exists w, m. split; [exact A|]. split; [exact B|].
  assert (E : nan m = false).
  { destruct (nan m) eqn:E; [|reflexivity]. exfalso. eapply (not_poisoned nan ltb gtb eqb n xs Hn Hf). now apply C. }
  split; [exact E|now apply D].
Qed.
Print Assumptions C105_numbers_in_front_partial.

(** Once max() is NaN it is NaN for ever, whatever is added. *)
Theorem C105_nan_for_ever :
  forall (T : Type) (nan : T -> bool) (ltb gtb eqb : T -> T -> bool) (dflt : T),
    float_order nan ltb gtb eqb ->
    forall n xs w m, 0 < n -> xs <> [] -> run ltb gtb eqb dflt init (New n :: map (Add 0) xs) = Ok w ->
      mh_max w 0 = Ok m -> nan m = true ->
    forall ys, exists w' m', run ltb gtb eqb dflt init (New n :: map (Add 0) (xs ++ ys)) = Ok w' /\
      mh_max w' 0 = Ok m' /\ nan m' = true.
Proof.
  intros T nan ltb gtb eqb dflt H n xs w m Hn Hx Hr Hm Hnan ys.
  destruct (nan_exact nan ltb gtb eqb dflt H n xs Hn Hx) as (w0 & m0 & A & B & C & _).
  rewrite Hr in A. injection A as <-. rewrite Hm in B. injection B as <-.
  destruct (nan_exact nan ltb gtb eqb dflt H n (xs ++ ys) Hn) as (w' & m' & A' & B' & C' & _).
  { destruct xs; [congruence|discriminate]. }
  exists w', m'. split; [exact A'|]. split; [exact B'|]. apply C'. apply poisoned_app; [assumption..|]. now apply C.
Qed.
Print Assumptions C105_nan_for_ever.

(** Integers with one NaN, for examples *)
Definition xltb (a b : option Z) : bool := match a, b with Some x, Some y => Z.ltb x y | _, _ => false end.
Definition xeqb (a b : option Z) : bool := match a, b with Some x, Some y => Z.eqb x y | _, _ => false end.
Definition xnan (a : option Z) : bool := match a with None => true | _ => false end.
Lemma xorder : float_order xnan xltb (fun a b => xltb b a) xeqb.
Proof.
  split; try reflexivity.
  - intros [a|] [b|]; cbn; congruence.
  - intros [a|] [b|]; cbn; congruence.
  - intros [a|]; cbn; [apply Z.ltb_irrefl|reflexivity].
  - intros [a|] [b|] [c|]; cbn; try discriminate. rewrite !Z.ltb_lt. lia.
  - intros [a|] [b|] [c|]; cbn; try discriminate; auto. rewrite !Z.ltb_ge. lia.
  - intros [a|] [b|]; cbn; rewrite ?Z.eqb_eq, ?Z.ltb_ge; try (intuition discriminate). intuition lia.
Qed.

(** The window is {2, 3}, but max() is NaN: the NaN left the window long ago. The value must not be the first one:
    in the second history the NaN is value number 2, in the third, value number 3, the same values give 4. *)
Theorem C105_window_maximum_refuted :
  let after n xs := match run xltb (fun a b => xltb b a) xeqb (Some 0%Z) init (New n :: map (Add 0) xs) with
                    | Ok w => mh_max w 0 | _ => UB end in
  after 2 [None; Some 1; Some 2; Some 3]%Z = Ok None /\
  after 2 [Some 5; Some 4; None; Some 3; Some 2; Some 4]%Z = Ok None /\
  after 2 [Some 5; Some 4; Some 3; None; Some 2; Some 4]%Z = Ok (Some 4%Z).
Proof. vm_compute. auto. Qed.
Print Assumptions C105_window_maximum_refuted.

Example C105_exact_nonvacuous :
  poisoned xnan xltb (fun a b => xltb b a) xeqb 2 [Some 5; Some 4; None; Some 3]%Z /\
  ~ poisoned xnan xltb (fun a b => xltb b a) xeqb 2 [Some 5; None; Some 6; None; Some 3]%Z.
Proof.
  split.
  - right. exists 2. split.
    + exists None, (Some 5%Z), (Some 5%Z). split; [lia|]. split; [reflexivity|]. split; [reflexivity|].
      split; [|split; reflexivity]. split; [now left|]. intros y [<-|[<-|[]]]; reflexivity.
    + exists 2, None. split; [reflexivity|]. split; [lia|]. split; reflexivity.
  - apply (not_poisoned _ _ _ _ 2); [lia|]. intros [|[|[|[|[|k]]]]] x; cbn; try congruence; try discriminate.
    + intros H; injection H as <-. reflexivity.
    + intros H; injection H as <-. reflexivity.
    + intros H; injection H as <-. reflexivity.
    + destruct k; discriminate.
Qed.
