(** Well-formed duration strings are accepted. *)
From Flocq Require Import Core.
From Coq Require Import Reals Lra.
From Verif Require Import Base Bytes Duration_Model Duration_Spec Duration_Proofs Duration_Round.
Local Open Scope Z_scope.
Local Notation concat := List.concat.
Local Arguments Z.add : simpl never.
Local Arguments Z.sub : simpl never.
Local Arguments Z.mul : simpl never.
Local Arguments Z.pow : simpl never.
Local Arguments Z.eqb : simpl never.
Local Arguments Z.leb : simpl never.

(** Numerals that are not just zeros: some nonzero digit before the point, a
    digit after it, a minus sign; or a plain zero without units. *)
Definition not_bare_zero (t : term) : Prop :=
  minus t = true \/ Exists (fun c => c <> 48) (int_part t) \/ (exists f, frac_part t = Some f /\ f <> []) \/
  (frac_part t = None /\ units_ t = []).

(** [converts tg ts total]: every numeral is in the range of double, and the
    ticks of the terms add up to total. *)
Inductive converts (tg : target) : list term -> Z -> Prop :=
| conv_nil : converts tg [] 0
| conv_cons t ts un ud k total :
    unit_period (units_ t) un ud ->
    in_range (value (int_part t ++ match frac_part t with Some f => f | None => [] end))
             (- Z.of_nat (length (match frac_part t with Some f => f | None => [] end))) ->
    cast tg un ud (term_number t) = Ok k -> converts tg ts total -> converts tg (t :: ts) (k + total).

Lemma zeros_split d : exists z d', d = z ++ d' /\ Forall (eq 48) z /\ ~ starts_with (eq 48) d'.
Proof.
  induction d as [|c d (z & d' & -> & F & N)].
  - exists [], []. repeat split; [constructor|apply not_starts_nil].
  - destruct (Z.eq_dec c 48) as [->|E].
    + exists (48 :: z), d'. repeat split; auto.
    + exists [], (c :: z ++ d'). split; [reflexivity|]. split; [constructor|]. rewrite starts_cons. congruence.
Qed.

Lemma value_zeros z d : Forall (eq 48) z -> value (z ++ d) = value d.
Proof. induction 1 as [|c z <- F IH]; cbn [app value]; [reflexivity|]. rewrite IH. lia. Qed.

Lemma digit_blank c : digit c -> blank c -> c = 48.
Proof. unfold digit, blank. cbn. intros D [H|[H|[H|[]]]]; lia. Qed.

Lemma sep_blank c : sep c -> blank c.
Proof. unfold sep, blank. cbn. tauto. Qed.

Lemma sums_blanks conv b s total : Forall blank b -> sums conv s total -> sums conv (b ++ s) total.
Proof.
  intros F S. destruct S as [s B|s x u un ud k rest total FT U C S].
  - apply sums_blank. now apply Forall_app.
  - eapply sums_term; eauto. destruct FT as [b' s x u r F' N NU FU SR]. rewrite app_assoc. constructor; auto. now apply Forall_app.
Qed.

Lemma zero_cast tg un ud z k : 0 < pn tg -> 0 < pd tg -> 0 < un -> 0 < ud -> cast tg un ud (Dec false 0 z) = Ok k -> k = 0.
Proof.
  intros P1 P2 U1 U2 H. cbn [cast] in H.
  set (n := un * pd tg) in *. set (d := ud * pn tg) in *. assert (0 < n) by (unfold n; nia). assert (0 < d) by (unfold d; nia).
  assert (G : 0 < Z.gcd n d) by (pose proof (Z.gcd_nonneg n d); destruct (Z.eq_dec (Z.gcd n d) 0) as [E|]; [apply Z.gcd_eq_0_l in E|]; lia).
  assert (Dn : 0 <= d / Z.gcd n d) by (apply Z.div_pos; lia).
  set (num := n / Z.gcd n d) in *. set (den := d / Z.gcd n d) in *. clearbody num den.
  unfold chrono_round in H. cbv zeta in H.
  assert (R0 : rnd 0 = 0%R) by (apply rnd_exact, generic_format_0).
  assert (V : dec_value false 0 z = 0%R) by (unfold dec_value; lra).
  rewrite V, R0 in H. rewrite Rmult_0_l, R0 in H. unfold Rdiv in H. rewrite Rmult_0_l, R0 in H.
  rewrite (Ztrunc_IZR 0) in H.
  destruct (represent (lo tg) (hi tg) 0) as [t| | |] eqn:E0; cbn [bind] in H; try discriminate.
  assert (t = 0) by (unfold represent in E0; destruct (_ && _); congruence). subst t.
  rewrite R0, Rmult_0_l, R0 in H. destruct (Rlt_dec 0 0) as [L|L]; [lra|]. cbn [bind] in H.
  destruct (represent (lo tg) (hi tg) (0 + 1)) as [t| | |] eqn:E1; cbn [bind] in H; try discriminate.
  rewrite R0, Rmult_0_l, R0, Rminus_0_r, R0 in H.
  assert (P : (0 <= rnd (rnd (rnd (IZR t) * IZR den) - 0))%R).
  { assert (t = 0 + 1) by (unfold represent in E1; destruct (_ && _); congruence). subst t.
    assert (PN : forall y, (0 <= y)%R -> (0 <= rnd y)%R).
    { intros y Y. apply Rle_trans with (rnd 0); [rewrite R0; lra|now apply rnd_le]. }
    rewrite Rminus_0_r. apply PN, PN.
    rewrite (rnd_exact (IZR (0 + 1))) by (apply F64_int; lia). apply (IZR_le 0) in Dn. change (0 + 1)%Z with 1%Z. lra. }
  destruct (Req_EM_T 0 _); [cbn in H; congruence|]. destruct (Rlt_dec 0 _); [congruence|lra].
Qed.

Lemma unit_positive u un ud : unit_period u un ud -> 0 < un /\ 0 < ud.
Proof. intros []; lia. Qed.

Lemma unit_nostop u un ud : unit_period u un ud -> Forall (fun c => ~ stop c) u.
Proof.
  assert (D : forall c, existsb (Z.eqb c) (bytes "+-0123456789. ") = false -> ~ stop c).
  { intros c E I. assert (existsb (Z.eqb c) (bytes "+-0123456789. ") = true); [|congruence].
    apply existsb_exists. exists c. split; [exact I|apply Z.eqb_refl]. }
  intros []; repeat constructor; apply D; reflexivity.
Qed.

(** What may follow a numeral. *)
Definition follows (w : list Z) : Prop := ~ starts_with (fun c => digit c \/ c = 46 \/ c = 101 \/ c = 69) w.

Lemma unit_follows u un ud rest : unit_period u un ud -> (u = [] -> follows rest) -> follows (u ++ rest).
Proof.
  intros [] H; try (now apply H); unfold follows; cbn [app bytes]; intros (c & r & E & C);
  vm_compute in E; injection E as <- _; unfold digit in C; lia.
Qed.

Lemma first_of_show ts : well_formed ts -> concat (map show ts) = [] \/
  starts_with (fun c => stop c) (concat (map show ts)).
Proof.
  destruct ts as [|t ts]; [now left|]. intros ((S & NI & D & _) & _). right. cbn [map concat]. unfold show, numeral.
  destruct (seps t) as [|c r].
  - cbn [app]. destruct (minus t); cbn [app]; [apply starts_cons; unfold stop; cbn; tauto|].
    destruct (int_part t) as [|c r]; [congruence|]. cbn [app]. apply starts_cons. apply Forall_inv in D. unfold digit in D.
    unfold stop. cbn. lia.
  - cbn [app]. apply starts_cons. apply Forall_inv in S. unfold sep in S. unfold stop. cbn in *. tauto.
Qed.

Lemma accepted_unsigned ip fr w : Forall digit ip -> (forall f, fr = Some f -> Forall digit f) -> follows w ->
  ip ++ match fr with Some f => f | None => [] end <> [] ->
  unsigned_at (ip ++ match fr with Some f => 46 :: f | None => [] end ++ w)
    (value (ip ++ match fr with Some f => f | None => [] end))
    (0 - Z.of_nat (length (match fr with Some f => f | None => [] end))) w.
Proof.
  intros FI FF W NE.
  assert (NX : ~ exists e' r, exponent w e' r).
  { intros (e' & r & X). apply W. destruct X. apply starts_cons. tauto. }
  assert (ND : ~ starts_with digit w) by (intros (c & r & -> & C); apply W; apply starts_cons; tauto).
  destruct fr as [f|].
  - apply (Unsigned ip f (46 :: f ++ w) w 0 w); auto.
    + split; [exact FI|]. rewrite starts_cons. unfold digit. lia.
    + right. split; [reflexivity|]. split; [now apply FF|exact ND].
  - cbn [app]. apply (Unsigned ip [] w w 0 w); auto.
    + split; auto.
    + left. repeat split; auto. intros (c & r & -> & <-). apply W. apply starts_cons. tauto.
Qed.

Lemma wf_sums tg : 0 < pn tg -> 0 < pd tg -> forall ts total, well_formed ts -> Forall not_bare_zero ts -> converts tg ts total ->
  sums (castR tg) (concat (map show ts)) total.
Proof.
  intros P1 P2 ts total WF NB C. revert WF NB. induction C as [|t ts un ud k total U R K C IH]; intros WF NB.
  { apply sums_blank. constructor. }
  destruct WF as ((S & NI & D & DF & _) & NX & WF). specialize (IH WF (Forall_inv_tail NB)). apply Forall_inv in NB.
  cbn [map concat]. set (rest := concat (map show ts)) in *.
  assert (Fr : rest = [] \/ starts_with stop rest) by now apply first_of_show.
  assert (FW : follows (units_ t ++ rest)).
  { apply (unit_follows _ un ud); auto. intros E. specialize (NX E). unfold rest.
    destruct ts as [|t' ts']; [apply not_starts_nil|]. destruct WF as ((S' & NI' & D' & _) & _).
    unfold follows. cbn [map concat]. unfold show at 1, numeral. intros (c & r & Ec & Cc).
    destruct (seps t') as [|c' r'].
    - destruct NX as [|Mn]; [congruence|]. rewrite Mn in Ec. cbn [app] in Ec. injection Ec as <- _. unfold digit in Cc. lia.
    - cbn [app] in Ec. injection Ec as <- _. apply Forall_inv in S'. unfold sep in S'. cbn in S'. unfold digit in Cc. lia. }
  set (fp := match frac_part t with Some f => f | None => [] end) in *.
  assert (SB : Forall blank (seps t)) by (eapply Forall_impl; [apply sep_blank|exact S]).
  destruct (minus t) eqn:Mn.
  - (* a minus sign: the number starts there *)
    eapply sums_term with (un := un) (ud := ud) (k := k) (rest := rest); eauto.
    unfold show, numeral. rewrite Mn, <- !app_assoc. cbn [app].
    apply (FirstTerm (seps t)); auto; [rewrite starts_cons; unfold blank; cbn; lia| |apply (unit_nostop _ un ud U)].
    unfold term_number. rewrite Mn. fold fp. replace (- Z.of_nat (length fp)) with (0 - Z.of_nat (length fp)) in * by lia.
    apply (Number true); [|exact R|discriminate].
    apply (accepted_unsigned (int_part t) (frac_part t)); auto.
    destruct (int_part t); [congruence|discriminate].
  - destruct (zeros_split (int_part t)) as (z & ip & Ei & Fz & Nz).
    assert (Dip : Forall digit ip) by (rewrite Ei in D; now apply Forall_app in D).
    assert (BZ : Forall blank (seps t ++ z)).
    { apply Forall_app. split; [exact SB|]. eapply Forall_impl; [|exact Fz]. intros c <-. unfold blank. cbn. tauto. }
    assert (Main : ip ++ fp <> [] -> sums (castR tg) (show t ++ rest) (k + total)).
    { intros NE. eapply sums_term with (un := un) (ud := ud) (k := k) (rest := rest); eauto.
      unfold show, numeral. rewrite Mn, Ei, <- !app_assoc. cbn [app]. rewrite (app_assoc (seps t)).
      apply (FirstTerm (seps t ++ z)); auto; [| |apply (unit_nostop _ un ud U)].
      - destruct ip as [|c ip].
        + cbn [app] in *. destruct (frac_part t) as [f|]; [|unfold fp in NE; congruence]. cbn [app]. rewrite starts_cons. unfold blank. cbn. lia.
        + cbn [app]. rewrite starts_cons. intros B. apply Nz. rewrite starts_cons. symmetry. apply digit_blank; [now apply Forall_inv in Dip|exact B].
      - unfold term_number. rewrite Mn, Ei. fold fp. rewrite <- app_assoc, value_zeros by exact Fz.
        replace (- Z.of_nat (length fp)) with (0 - Z.of_nat (length fp)) in * by lia.
        rewrite Ei, <- app_assoc, value_zeros in R by exact Fz.
        pose proof (accepted_unsigned ip (frac_part t) (units_ t ++ rest) Dip DF FW NE) as AU. fold fp in AU.
        apply (Number false); [exact AU|exact R|].
        intros _ S45. apply unsigned_first in AU. destruct S45 as (c & r & Ec & <-). rewrite Ec in AU. rewrite starts_cons in AU. unfold digit in AU. lia. }
    destruct (list_eq_dec Z.eq_dec (ip ++ fp) []) as [E|NE]; [|now apply Main].
    (* a bare zero *)
    apply app_eq_nil in E as [-> E2]. rewrite app_nil_r in Ei.
    destruct NB as [NB|[NB|[(f & Ef & Nf)|[NB1 NB2]]]].
    + congruence.
    + exfalso. rewrite Ei in NB. apply Exists_exists in NB as (c & I & Nc). rewrite Forall_forall in Fz. apply Nc. symmetry. now apply Fz.
    + exfalso. unfold fp in E2. rewrite Ef in E2. congruence.
    + assert (K0 : k = 0).
      { unfold term_number in K. rewrite Mn in K. fold fp in K. rewrite E2, app_nil_r, Ei in K.
        replace z with (z ++ []) in K by apply app_nil_r. rewrite value_zeros in K by exact Fz.
        cbn [value] in K. destruct (unit_positive _ _ _ U) as [U1 U2]. exact (zero_cast tg un ud _ k P1 P2 U1 U2 K). }
      subst k. unfold show, numeral. rewrite Mn, NB1, NB2, Ei. cbn [app]. rewrite !app_nil_r. now apply sums_blanks.
Qed.
