(** C16, C18: what parse_duration does with every string: an exact description of success, of both exceptions and of
    undefined behaviour. *)
From Flocq Require Import Core.
From Coq Require Import Reals.
From Verif Require Import Base Bytes Duration_Model Duration_Spec Duration_Proofs Duration_Props.
Local Open Scope Z_scope.

Section Reads.
Context (conv : Z -> Z -> number -> Z -> Prop).
(** [reads s ks r]: s starts with terms of ks ticks (in this order), r is left. *)
Inductive reads : list Z -> list Z -> list Z -> Prop :=
| reads_none s : reads s [] s
| reads_term s x units un ud k rest ks r :
    first_term s x units rest -> unit_period units un ud -> conv un ud x k -> reads rest ks r -> reads s (k :: ks) r.
End Reads.
Definition total (ks : list Z) : Z := fold_right Z.add 0 ks.
(** All sums along the way are representable. *)
Definition in_bounds (tg : target) (t : Z) (ks : list Z) : Prop :=
  forall j, (1 <= j <= length ks)%nat -> lo tg <= t + total (firstn j ks) <= hi tg.
(** What comes next is not a number, or a number with unknown units. *)
Inductive not_a_term : list Z -> exn -> Prop :=
| no_number blanks s : Forall blank blanks -> s <> [] -> ~ starts_with blank s -> (~ exists x rest, number_at s x rest) ->
    not_a_term (blanks ++ s) invalid_duration_value
| no_units s x units rest : first_term s x units rest -> (~ exists un ud, unit_period units un ud) ->
    not_a_term s invalid_duration_units.
(** The next term is well-formed, but its conversion or the addition is undefined. *)
Definition undefined_term (tg : target) (t : Z) (s : list Z) : Prop :=
  exists x units rest un ud, first_term s x units rest /\ unit_period units un ud /\
    (cast tg un ud x = UB \/ exists k, cast tg un ud x = Ok k /\ ~ (lo tg <= t + k <= hi tg)).

Lemma in_bounds_cons tg t k ks : in_bounds tg t (k :: ks) <-> lo tg <= t + k <= hi tg /\ in_bounds tg (t + k) ks.
Proof.
  unfold in_bounds. split.
  - intros H. split; [specialize (H 1%nat); cbn in H; rewrite Z.add_0_r in H; apply H; lia|].
    intros j Hj. specialize (H (S j)). cbn [firstn length total fold_right] in H. fold (total (firstn j ks)) in H. rewrite Z.add_assoc in H. apply H. lia.
  - intros [H1 H2] [|[|j]] Hj; [lia|cbn; rewrite Z.add_0_r; exact H1|].
    change (firstn (S (S j)) (k :: ks)) with (k :: firstn (S j) ks). cbn [total fold_right]. fold (total (firstn (S j) ks)). rewrite Z.add_assoc. apply H2. cbn [length] in Hj. lia.
Qed.

Lemma step_ub tg t s x u rest un ud : first_term s x u rest -> unit_period u un ud -> cast tg un ud x = UB -> parse_duration tg t s = (t, UB).
Proof.
  intros FT U C. unfold parse_duration. destruct s as [|c0 s0] eqn:Es.
  { exfalso. apply (first_term_not_blank _ _ _ _ FT). constructor. }
  rewrite <- Es in *. replace (length s) with (S (length s0)) by (subst; reflexivity).
  assert (E : parse_loop (S (length s0)) tg t s = match parse_single_duration tg t s with
      | (t, Ok s) => parse_loop (length s0) tg t s | (t, Throw e) => (t, Throw e) | (t, Abort) => (t, Abort) | (t, UB) => (t, UB) end).
  { rewrite Es. reflexivity. }
  rewrite E. clear E.
  destruct (single_spec tg t s) as [[B ->]|[(b & s' & E & F & NE & N & NN & ->)|(x' & u' & rest' & FT' & PL & H)]].
  - destruct (first_term_not_blank _ _ _ _ FT B).
  - exfalso. destruct FT as [b2 s2 x u r F2 N2 NU FU SR]. destruct (split_unique _ _ _ _ _ F F2 N N2 (eq_sym E)) as [-> ->].
    apply NN. eauto.
  - destruct (first_term_unique _ _ _ _ _ _ _ FT FT') as (<- & <- & <-).
    destruct H as [(NU & _)|(un' & ud' & U' & ->)]; [exfalso; apply NU; eauto|].
    destruct (unit_unique _ _ _ _ _ U U') as [<- <-]. rewrite C. reflexivity.
Qed.
Lemma parse_blank tg t s : Forall blank s -> parse_duration tg t s = (t, Ok tt).
Proof.
  intros B. unfold parse_duration. destruct s as [|c s]; [reflexivity|]. cbn [length parse_loop].
  destruct (single_spec tg t (c :: s)) as [[_ ->]|[(b & s' & E & F & NE & N & _)|(x & u & rest & FT & _)]].
  - destruct (length s); reflexivity.
  - exfalso. rewrite E in B. apply Forall_app in B as [_ B]. destruct s' as [|d s']; [congruence|]. apply N. rewrite starts_cons. now inversion B.
  - exfalso. now apply (first_term_not_blank _ _ _ _ FT).
Qed.
Lemma parse_not_a_term tg t s e : not_a_term s e -> parse_duration tg t s = (t, Throw e).
Proof.
  intros H. unfold parse_duration. assert (Ns : s <> []).
  { destruct H as [b s F NE N NN|s x u r FT NU].
    - destruct b; [exact NE|discriminate].
    - intros ->. apply (first_term_not_blank _ _ _ _ FT). constructor. }
  destruct s as [|c0 s0] eqn:Es; [congruence|]. rewrite <- Es in *. replace (length s) with (S (length s0)) by (subst; reflexivity).
  assert (E : parse_loop (S (length s0)) tg t s = match parse_single_duration tg t s with
      | (t, Ok s) => parse_loop (length s0) tg t s | (t, Throw e) => (t, Throw e) | (t, Abort) => (t, Abort) | (t, UB) => (t, UB) end).
  { rewrite Es. reflexivity. }
  rewrite E. clear E Es Ns.
  destruct (single_spec tg t s) as [[B P]|[(b & s' & E & F & NE & N & NN & P)|(x' & u' & rest' & FT' & PL & K)]].
  - exfalso. destruct H as [b s' F NE N NN|s x u r FT NU]; [|now apply (first_term_not_blank _ _ _ _ FT)].
    apply Forall_app in B as [_ B]. destruct s' as [|d s']; [congruence|]. apply N. rewrite starts_cons. now inversion B.
  - rewrite P. destruct H as [b2 s2 F2 NE2 N2 NN2|s2 x u r FT NU]; [reflexivity|]. exfalso. rewrite E in FT.
    inversion FT as [b2 s3 x2 u2 r2 F2 N2 NU2 FU2 SR2 E2]; subst. destruct (split_unique _ _ _ _ _ F F2 N N2 (eq_sym E2)) as [-> ->]. apply NN. eauto.
  - destruct H as [b2 s2 F2 NE2 N2 NN2|s2 x u r FT NU].
    + exfalso. inversion FT' as [b3 s3 x3 u3 r3 F3 N3 NU3 FU3 SR3 E3]; subst. destruct (split_unique _ _ _ _ _ F2 F3 N2 N3 (eq_sym E3)) as [-> ->]. apply NN2. eauto.
    + destruct (first_term_unique _ _ _ _ _ _ _ FT FT') as (<- & <- & <-).
      destruct K as [(_ & ->)|(un & ud & U & _)]; [reflexivity|]. exfalso. apply NU. eauto.
Qed.
Lemma parse_undefined tg t s : undefined_term tg t s -> parse_duration tg t s = (t, UB).
Proof.
  intros (x & u & rest & un & ud & FT & U & [C|(k & C & O)]); [now apply (step_ub tg t s x u rest un ud)|].
  rewrite (parse_step tg t s x u rest un ud k FT U C). replace ((lo tg <=? t + k) && (t + k <=? hi tg)) with false; [reflexivity|].
  symmetry. apply andb_false_iff. rewrite !Z.leb_gt. lia.
Qed.
Lemma parse_reads tg s ks r : reads (castR tg) s ks r -> forall t, in_bounds tg t ks ->
  parse_duration tg t s = parse_duration tg (t + total ks) r.
Proof.
  induction 1 as [s|s x u un ud k rest ks r FT U C R IH]; intros t B; [cbn; now rewrite Z.add_0_r|].
  apply in_bounds_cons in B as [B1 B2]. rewrite (parse_step tg t s x u rest un ud k FT U C).
  replace ((lo tg <=? t + k) && (t + k <=? hi tg)) with true by (symmetry; apply andb_true_iff; rewrite !Z.leb_le; lia).
  rewrite (IH _ B2). cbn [total fold_right]. fold (total ks). f_equal. lia.
Qed.
Lemma stops tg : forall n t s, (length s <= n)%nat -> exists ks r, reads (castR tg) s ks r /\ in_bounds tg t ks /\
  (Forall blank r \/ (exists e, not_a_term r e) \/ undefined_term tg (t + total ks) r).
Proof.
  assert (B0 : forall t, in_bounds tg t []) by (intros t j Hj; cbn in Hj; lia).
  induction n as [|n IH]; intros t s L.
  { destruct s; [|cbn in L; lia]. exists [], []. split; [constructor|]. split; [apply B0|]. left. constructor. }
  destruct (single_spec tg t s) as [[B _]|[(b & s' & E & F & NE & N & NN & _)|(x & u & rest & FT & PL & K)]].
  - exists [], s. split; [constructor|]. split; [apply B0|]. now left.
  - exists [], s. split; [constructor|]. split; [apply B0|]. right. left. exists invalid_duration_value. rewrite E. now constructor.
  - destruct K as [(NU & _)|(un & ud & U & _)].
    + exists [], s. split; [constructor|]. split; [apply B0|]. right. left. exists invalid_duration_units. econstructor; eauto.
    + destruct (cast_ok_or_ub tg un ud x) as [(k & C)|C].
      * assert (D : lo tg <= t + k <= hi tg \/ ~ (lo tg <= t + k <= hi tg)) by lia. destruct D as [D|D].
        -- destruct (IH (t + k) rest ltac:(lia)) as (ks & r & R & B & H). exists (k :: ks), r. split; [econstructor; eauto|].
           split; [apply in_bounds_cons; auto|]. cbn [total fold_right]. fold (total ks). now rewrite Z.add_assoc.
        -- exists [], s. split; [constructor|]. split; [apply B0|]. right. right. exists x, u, rest, un, ud. split; [exact FT|]. split; [exact U|]. right. exists k.
           split; [exact C|]. cbn. now rewrite Z.add_0_r.
      * exists [], s. split; [constructor|]. split; [apply B0|]. right. right. exists x, u, rest, un, ud. auto.
Qed.

(** C18 (and C16), every string, every duration type and every initial value. The call succeeds if and only if the string
    is a sequence of terms followed by blanks and no sum along the way leaves the range; it throws if and only if there
    is something that is not a term after such a sequence, and t is then the sum of the terms before it; it is undefined
    if and only if there is, after such a sequence, a term whose conversion is undefined or whose addition overflows. *)
Theorem C18_exact : forall tg t s t', let conv := fun un ud x k => cast tg un ud x = Ok k in
  (parse_duration tg t s = (t', Ok tt) <->
     exists ks r, reads conv s ks r /\ in_bounds tg t ks /\ Forall blank r /\ t' = t + total ks) /\
  (forall e, parse_duration tg t s = (t', Throw e) <->
     exists ks r, reads conv s ks r /\ in_bounds tg t ks /\ not_a_term r e /\ t' = t + total ks) /\
  (parse_duration tg t s = (t', UB) <->
     exists ks r, reads conv s ks r /\ in_bounds tg t ks /\ undefined_term tg (t + total ks) r /\ t' = t + total ks) /\
  parse_duration tg t s <> (t', Abort).
Proof.
  intros tg t s t' conv.
  assert (E1 : forall ks r, reads conv s ks r -> in_bounds tg t ks -> Forall blank r -> parse_duration tg t s = (t + total ks, Ok tt)).
  { intros ks r R B H. rewrite (parse_reads tg s ks r R t B). now apply parse_blank. }
  assert (E2 : forall ks r e, reads conv s ks r -> in_bounds tg t ks -> not_a_term r e -> parse_duration tg t s = (t + total ks, Throw e)).
  { intros ks r e R B H. rewrite (parse_reads tg s ks r R t B). now apply parse_not_a_term. }
  assert (E3 : forall ks r, reads conv s ks r -> in_bounds tg t ks -> undefined_term tg (t + total ks) r -> parse_duration tg t s = (t + total ks, UB)).
  { intros ks r R B H. rewrite (parse_reads tg s ks r R t B). now apply parse_undefined. }
  destruct (stops tg (length s) t s (le_n _)) as (ks & r & R & B & H).
  split; [|split; [|split]].
  - split; [|intros (ks' & r' & R' & B' & H' & ->); now apply (E1 ks' r')].
    intros P. destruct H as [H|[(e & H)|H]]; [pose proof (E1 _ _ R B H) as Q|pose proof (E2 _ _ _ R B H) as Q|pose proof (E3 _ _ R B H) as Q];
      rewrite P in Q; try discriminate Q. injection Q; intros; subst. exists ks, r. auto.
  - intros e. split; [|intros (ks' & r' & R' & B' & H' & ->); now apply (E2 ks' r')].
    intros P. destruct H as [H|[(e' & H)|H]]; [pose proof (E1 _ _ R B H) as Q|pose proof (E2 _ _ _ R B H) as Q|pose proof (E3 _ _ R B H) as Q];
      rewrite P in Q; try discriminate Q. injection Q; intros; subst. exists ks, r. auto.
  - split; [|intros (ks' & r' & R' & B' & H' & ->); now apply (E3 ks' r')].
    intros P. destruct H as [H|[(e' & H)|H]]; [pose proof (E1 _ _ R B H) as Q|pose proof (E2 _ _ _ R B H) as Q|pose proof (E3 _ _ R B H) as Q];
      rewrite P in Q; try discriminate Q. injection Q; intros; subst. exists ks, r. auto.
  - intros P. destruct H as [H|[(e' & H)|H]]; [pose proof (E1 _ _ R B H) as Q|pose proof (E2 _ _ _ R B H) as Q|pose proof (E3 _ _ R B H) as Q];
      rewrite P in Q; discriminate Q.
Qed.
Print Assumptions C18_exact.

(** inf and nan, in any spelling from_chars knows and with any units, are undefined behaviour instead of an error. *)
Theorem C18_nonfinite_refuted : forall tg t s x units rest un ud,
  first_term s x units rest -> unit_period units un ud -> x = Inf \/ x = NaN -> parse_duration tg t s = (t, UB).
Proof. intros tg t s x u rest un ud FT U Hx. apply (step_ub tg t s x u rest un ud FT U). now destruct Hx as [->| ->]. Qed.
Print Assumptions C18_nonfinite_refuted.

Lemma letters_not_stop u : Forall (fun c => 97 <= c <= 122) u -> Forall (fun c => ~ stop c) u.
Proof. intros H. eapply Forall_impl; [|exact H]. intros c Hc S. cbn beta in Hc. unfold stop in S. cbn in S. decompose [or] S; try contradiction; lia. Qed.
Example C18_nonfinite_nonvacuous :
  first_term (bytes " +infms 3s") Inf (bytes "ms") (bytes " 3s") /\ first_term (bytes "-NaN(abc_1)min") NaN (bytes "min") [] /\
  parse_duration seconds 5 (bytes "-NaN(abc_1)min") = (5, UB).
Proof.
  assert (A : first_term (bytes "-NaN(abc_1)min") NaN (bytes "min") []).
  { apply (FirstTerm [] (bytes "-NaN(abc_1)min") NaN (bytes "min") []).
    - constructor.
    - intros (c & t & E & B). injection E as <- _. cbn in B. decompose [or] B; try contradiction; lia.
    - apply (Nan true (bytes "NaN(abc_1)min") (bytes "(abc_1)min") (bytes "min")).
      + exists (bytes "NaN"). split; [reflexivity|]. cbn. do 3 (apply Forall2_cons; [unfold same_letter; lia|]). apply Forall2_nil.
      + left. exists (bytes "abc_1"). split; [reflexivity|]. cbn. do 5 (apply Forall_cons; [unfold word, digit; lia|]). apply Forall_nil.
    - apply letters_not_stop. cbn. repeat constructor; lia.
    - now left. }
  split; [|split; [exact A|]].
  - apply (FirstTerm (bytes " +") (bytes "infms 3s") Inf (bytes "ms") (bytes " 3s")).
    + cbn. do 2 (apply Forall_cons; [unfold blank; cbn; auto 6|]). apply Forall_nil.
    + intros (c & t & E & B). injection E as <- _. cbn in B. decompose [or] B; try contradiction; lia.
    + apply (Infinity false (bytes "inf") (bytes "infms 3s") (bytes "ms 3s")).
      * right. split; [reflexivity|]. intros (r & p & E & F). cbn in F. 
        destruct p as [|a [|b [|c [|d p]]]]; try (exfalso; repeat match goal with [ H : Forall2 _ (_ :: _) (_ :: _) |- _ ] => inversion H; subst; clear H | [ H : Forall2 _ (_ :: _) [] |- _ ] => inversion H end; fail). cbn in E. injection E as <- <- <- <- _.
        inversion F as [|? ? ? ? _ F1]; subst. inversion F1 as [|? ? ? ? _ F2]; subst. inversion F2 as [|? ? ? ? _ F3]; subst. inversion F3 as [|? ? ? ? S1 _]; subst.
        unfold same_letter in S1. lia.
      * exists (bytes "inf"). split; [reflexivity|]. cbn. do 3 (apply Forall2_cons; [unfold same_letter; lia|]). apply Forall2_nil.
    + apply letters_not_stop. cbn. repeat constructor; lia.
    + right. exists 32, (bytes "3s"). split; [reflexivity|]. unfold stop; cbn. auto 20.
  - apply (C18_nonfinite_refuted _ _ _ _ _ _ _ _ A u_min). now right.
Qed.
