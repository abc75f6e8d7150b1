(** The fallback on texts in the format of std::from_chars. *)
From Verif Require Import Base FromChars_Model FromChars_Spec.
Local Open Scope Z_scope.
Local Arguments Z.eqb : simpl never.
Local Arguments Z.leb : simpl never.
Local Arguments Z.ltb : simpl never.
Local Arguments Z.pow : simpl never.
Local Arguments digit_of : simpl never.

Lemma digit_fun c d d' : digit c d -> digit c d' -> d = d'.
Proof. intros H H'. inversion H; inversion H'; subst; lia. Qed.
Lemma digit_of_spec c d : digit c d <-> digit_of c = d /\ d < 36.
Proof.
  unfold digit_of. split.
  - intros H; inversion H; subst;
      repeat match goal with |- context [?a <=? ?b] => destruct (Z.leb_spec a b) end; cbn [andb]; lia.
  - destruct (Z.leb_spec 48 c), (Z.leb_spec c 57), (Z.leb_spec 97 c), (Z.leb_spec c 122), (Z.leb_spec 65 c), (Z.leb_spec c 90);
      cbn [andb]; intros [<- L]; try lia;
      first [apply digit_dec; lia | (replace (c - 97 + 10) with (c - 87) by lia; apply digit_low; lia)
            | (replace (c - 65 + 10) with (c - 55) by lia; apply digit_upp; lia)].
Qed.
Lemma is_digit_dec base c : base <= 36 -> (digit_of c <? base) = true <-> is_digit base c.
Proof.
  intros B. rewrite Z.ltb_lt. split.
  - intros H. exists (digit_of c). split; [|exact H]. apply digit_of_spec. split; [reflexivity|lia].
  - intros (d & H & L). apply digit_of_spec in H as [-> _]. exact L.
Qed.
Lemma digit_nonneg c d : digit c d -> 0 <= d.
Proof. intros H; inversion H; lia. Qed.

Definition horner (base acc : Z) (ds : list Z) : Z := fold_left (fun v c => v * base + digit_of c) ds acc.
Lemma denotes_horner base ds : base <= 36 -> (forall c, In c ds -> is_digit base c) -> denotes base ds (horner base 0 ds).
Proof.
  intros B. induction ds as [|c ds IH] using rev_ind; intros H; [constructor|].
  unfold horner. rewrite fold_left_app. cbn. apply denotes_snoc.
  - apply IH. intros c' Hc'. apply H, in_or_app. now left.
  - apply digit_of_spec. split; [reflexivity|].
    destruct (H c) as (d & D & L); [apply in_or_app; right; now left|]. apply digit_of_spec in D as [-> _]. lia.
  - apply Z.ltb_lt, is_digit_dec; [exact B|]. apply H, in_or_app. right. now left.
Qed.
Lemma denotes_fun base ds : forall v v', denotes base ds v -> denotes base ds v' -> v = v'.
Proof.
  induction ds as [|c ds IH] using rev_ind; intros v v' H H'.
  - inversion H as [|ds1 ? ? ? ? ? ? E]; inversion H' as [|ds2 ? ? ? ? ? ? E']; subst; try reflexivity;
      exfalso; (destruct ds1 || destruct ds2); discriminate.
  - inversion H as [E|ds1 v1 c1 d1 D1 G1 L1 E]; subst; [symmetry in E; destruct ds; discriminate|].
    inversion H' as [E'|ds2 v2 c2 d2 D2 G2 L2 E']; subst; [symmetry in E'; destruct ds; discriminate|].
    apply app_inj_tail in E as [-> ->]. apply app_inj_tail in E' as [-> ->].
    rewrite (IH v1 v2) by assumption. now rewrite (digit_fun c d1 d2).
Qed.
Lemma denotes_nonneg base ds v : 0 <= base -> denotes base ds v -> 0 <= v.
Proof. intros B H. induction H; [lia|]. apply digit_nonneg in H0. nia. Qed.

Lemma accumulate_spec base s : base <= 36 -> forall acc n,
  exists ds rest, s = ds ++ rest /\ (forall c, In c ds -> is_digit base c) /\
    (forall c r, rest = c :: r -> ~ is_digit base c) /\
    accumulate base s acc n = (horner base acc ds, (n + length ds)%nat).
Proof.
  intros B. induction s as [|c s IH]; intros acc n.
  - exists [], []. cbn. repeat split; try easy. now rewrite Nat.add_0_r.
  - cbn [accumulate]. destruct (digit_of c <? base) eqn:D.
    + destruct (IH (acc * base + digit_of c) (S n)) as (ds & rest & -> & H1 & H2 & ->).
      exists (c :: ds), rest. split; [reflexivity|]. split.
      * intros c' [<-|Hc]; [now apply is_digit_dec|auto].
      * split; [exact H2|]. cbn. f_equal. lia.
    + exists [], (c :: s). split; [reflexivity|]. split; [intros ? []|]. split.
      * intros c' r [= <- <-] G. apply is_digit_dec in G; [congruence|exact B].
      * cbn. now rewrite Nat.add_0_r.
Qed.

Lemma skip_space_plain s : (forall c t, s = c :: t -> c <> 32 /\ ~ 9 <= c <= 13) -> skip_space s 0 = (s, 0%nat).
Proof.
  intros H. destruct s as [|c t]; [reflexivity|]. destruct (H c t eq_refl) as [H1 H2]. cbn [skip_space].
  unfold isspace. rewrite (proj2 (Z.eqb_neq c 32) H1). cbn [orb].
  destruct (Z.leb_spec 9 c); [|reflexivity]. destruct (Z.leb_spec c 13); [lia|reflexivity].
Qed.
(** After the sign. *)
Definition after_sign (base : Z) (neg : bool) (s2 : list Z) (n2 : nat) : option (bool * Z * nat) :=
  match s2 with
  | c :: _ => if digit_of c <? base
              then let '(v, n) := accumulate base s2 0 n2 in Some (neg, v, n)
              else None
  | [] => None
  end.
Lemma strto_plain base ty s : base <= 36 -> plain_text base ty s ->
  strto base s = match s with
                 | c :: t => if c =? 45 then after_sign base true t 1 else after_sign base false s 0
                 | [] => None
                 end.
Proof.
  intros B [P1 P2]. unfold strto. rewrite skip_space_plain by (intros c t E; destruct (P1 c t E) as (?&?&?); auto).
  destruct s as [|c t]; [reflexivity|]. destruct (P1 c t eq_refl) as (_ & _ & N43 & _).
  assert (PX : forall sign s2, (sign = [] \/ sign = [45]) -> c :: t = sign ++ s2 -> forall n2,
    (match s2 with
    | z :: x :: d :: t =>
        if (base =? 16) && (z =? 48) && ((x =? 120) || (x =? 88)) && (digit_of d <? 16)
        then (d :: t, S (S n2)) else (s2, n2)
    | _ => (s2, n2)
    end) = (s2, n2)).
  { intros sign s2 Hs E n2. destruct s2 as [|z [|x [|d t']]]; try reflexivity.
    destruct (Z.eqb_spec base 16) as [B16|]; [|reflexivity].
    destruct (Z.eqb_spec z 48) as [->|]; [|reflexivity].
    destruct (P2 B16 sign x (d :: t') Hs E) as [N1 N2].
    rewrite (proj2 (Z.eqb_neq x 120) N1), (proj2 (Z.eqb_neq x 88) N2). reflexivity. }
  destruct (Z.eqb_spec c 45) as [->|N45].
  - rewrite (PX [45] t (or_intror eq_refl) eq_refl). reflexivity.
  - rewrite (proj2 (Z.eqb_neq c 43) N43). rewrite (PX [] (c :: t) (or_introl eq_refl) eq_refl). reflexivity.
Qed.
(** strto finds the integer, or there is none. *)
Lemma strto_spec base ty s : base <= 36 -> plain_text base ty s ->
  (exists sign ds rest, integer_at base ty s sign ds rest /\
     strto base s = Some (match sign with [] => false | _ => true end, horner base 0 ds, (length sign + length ds)%nat)) \/
  ((forall sign ds rest, ~ integer_at base ty s sign ds rest) /\ strto base s = None).
Proof.
  intros B P. rewrite (strto_plain base ty s B P). pose proof P as [P1 _].
  assert (AS : forall sign s2, s = sign ++ s2 -> (sign = [] /\ (forall t, s <> 45 :: t) \/ is_signed ty /\ sign = [45]) ->
    let neg := match sign with [] => false | _ => true end in
    (exists ds rest, integer_at base ty s sign ds rest /\
       after_sign base neg s2 (length sign) = Some (neg, horner base 0 ds, (length sign + length ds)%nat)) \/
    ((forall sign' ds rest, ~ integer_at base ty s sign' ds rest) /\ after_sign base neg s2 (length sign) = None)).
  { intros sign s2 E HS neg.
    assert (ND : ~ is_digit base 45).
    { intros (d & D & _). inversion D; lia. }
    assert (NOM : (forall c r, s2 = c :: r -> ~ is_digit base c) -> forall sign' ds rest, ~ integer_at base ty s sign' ds rest).
    { intros H sign' ds rest (E' & HS' & Nd & HD & _).
      destruct ds as [|c ds]; [now apply Nd|]. specialize (HD c (or_introl eq_refl)).
      destruct HS as [[-> H45]|[_ ->]], HS' as [->|[_ ->]]; cbn in E, E'; subst s.
      - apply (H c (ds ++ rest)); [exact E'|exact HD].
      - apply (H45 (c :: ds ++ rest)). exact E'.
      - injection E' as E' _. rewrite <- E' in HD. now apply ND.
      - injection E' as E'. apply (H c (ds ++ rest)); [exact E'|exact HD]. }
    destruct s2 as [|c t].
    - right. split; [apply NOM; discriminate|reflexivity].
    - cbn [after_sign]. destruct (digit_of c <? base) eqn:D.
      + left. destruct (accumulate_spec base (c :: t) B 0 (length sign)) as (ds & rest & E2 & H1 & H2 & ->).
        exists ds, rest. split; [|reflexivity].
        split; [rewrite E, E2; reflexivity|]. split; [destruct HS as [[-> _]|[HS ->]]; auto|].
        split; [|split; assumption]. intros ->. cbn in E2.
        apply (H2 c t (eq_sym E2)). now apply is_digit_dec.
      + right. split; [|reflexivity]. apply NOM. intros c' r [= <- <-] G. apply is_digit_dec in G; [congruence|exact B]. }
  destruct s as [|c t].
  - right. split; [|reflexivity]. intros sign ds rest (E & _ & Nd & _). symmetry in E.
    apply app_eq_nil in E as [_ E]. apply app_eq_nil in E as [E _]. contradiction.
  - destruct (Z.eqb_spec c 45) as [->|N].
    + destruct (P1 45 t eq_refl) as (_ & _ & _ & HS). specialize (HS eq_refl).
      destruct (AS [45] t eq_refl (or_intror (conj HS eq_refl))) as [(ds & rest & H)|H].
      * left. exists [45], ds, rest. exact H.
      * right. exact H.
    + destruct (AS [] (c :: t) eq_refl) as [(ds & rest & H)|H].
      * left. split; [reflexivity|]. intros t' [= -> _]. now apply N.
      * left. exists [], ds, rest. exact H.
      * right. exact H.
Qed.
Lemma unsigned_no_sign base ty s sign ds rest : ~ is_signed ty -> integer_at base ty s sign ds rest -> sign = [].
Proof. intros N (_ & [H|[H _]] & _); [exact H|contradiction]. Qed.
Lemma representable_signed ty x : is_signed ty -> representable ty x -> - 2 ^ (width ty - 1) <= x < 2 ^ (width ty - 1).
Proof. intros S [R _]. now apply R. Qed.
Lemma representable_unsigned ty x : ~ is_signed ty -> representable ty x -> 0 <= x < 2 ^ width ty.
Proof. intros S [_ R]. now apply R. Qed.
Lemma is_signed_dec ty : {is_signed ty} + {~ is_signed ty}.
Proof.
  destruct ty; ((left; unfold is_signed; tauto) || (right; unfold is_signed; intuition discriminate)).
Qed.
Lemma representable_dec ty x : representable ty x \/ ~ representable ty x.
Proof.
  unfold representable. destruct (is_signed_dec ty) as [S|S].
  - destruct (Z_le_dec (- 2 ^ (width ty - 1)) x), (Z_lt_dec x (2 ^ (width ty - 1))); (left; split; [lia|tauto]) || (right; intros [H _]; specialize (H S); lia).
  - destruct (Z_le_dec 0 x), (Z_lt_dec x (2 ^ width ty)); (left; split; [tauto|lia]) || (right; intros [_ H]; specialize (H S); lia).
Qed.
(** What the sto functions make of an integer. *)
Lemma fallback_number base ty s sign ds rest v : base <= 36 -> 0 <= base -> integer_at base ty s sign ds rest ->
  denotes base ds v ->
  strto base s = Some (match sign with [] => false | _ => true end, v, (length sign + length ds)%nat) ->
  representable ty (match sign with [] => v | _ => - v end) ->
  from_chars_fallback base ty s = Number (match sign with [] => v | _ => - v end) (length sign + length ds).
Proof.
  intros B B0 I D E R. pose proof (denotes_nonneg base ds v B0 D) as V0.
  set (n := (length sign + length ds)%nat) in *. 
  destruct (is_signed_dec ty) as [S|S].
  - apply representable_signed in R; [|exact S].
    assert (G : forall bits, width ty <= bits -> 8 <= width ty ->
      sto_signed bits base s = Number (match sign with [] => v | _ => - v end) n).
    { intros bits Hb H8. unfold sto_signed. rewrite E.
      assert (P : 2 ^ (width ty - 1) <= 2 ^ (bits - 1)) by (apply Z.pow_le_mono_r; lia).
      replace (if match sign with [] => false | _ => true end then - v else v)
        with (match sign with [] => v | _ => - v end) by (destruct sign; reflexivity).
      rewrite (proj2 (Z.leb_le _ _)) by lia. rewrite (proj2 (Z.ltb_lt _ _)) by lia. reflexivity. }
    assert (C : forall bits x, 1 <= bits -> - 2 ^ (bits - 1) <= x < 2 ^ (bits - 1) -> cast_signed bits x = x).
    { intros bits x Hb Hx. unfold cast_signed. assert (2 ^ bits = 2 * 2 ^ (bits - 1)).
      { replace bits with (bits - 1 + 1) at 1 by lia. rewrite Z.pow_add_r by lia. lia. }
      rewrite Z.mod_small by lia. lia. }
    unfold from_chars_fallback.
    destruct ty; cbn [width] in *; try (exfalso; revert S; unfold is_signed; intuition discriminate);
      rewrite G by (cbn; lia); cbn [map_number]; rewrite ?C by lia; reflexivity.
  - apply representable_unsigned in R; [|exact S].
    assert (sign = []) as -> by (eapply unsigned_no_sign; eassumption).
    assert (G : sto_unsigned base s = Number v n).
    { unfold sto_unsigned. rewrite E.
      assert (P : 2 ^ width ty <= 2 ^ 64) by (apply Z.pow_le_mono_r; [lia|]; destruct ty; cbn; lia).
      rewrite (proj2 (Z.ltb_lt _ _)) by lia. reflexivity. }
    unfold from_chars_fallback.
    destruct ty; cbn [width] in *; try (exfalso; apply S; unfold is_signed; tauto);
      rewrite G; cbn [map_number]; unfold cast_unsigned; rewrite ?Z.mod_small by lia; reflexivity.
Qed.
(** Out of range of the type, for the types that are not cast. *)
Lemma fallback_range base ty s sign ds rest v : base <= 36 -> 0 <= base -> integer_at base ty s sign ds rest ->
  denotes base ds v -> width ty = 64 \/ ty = Int ->
  strto base s = Some (match sign with [] => false | _ => true end, v, (length sign + length ds)%nat) ->
  ~ representable ty (match sign with [] => v | _ => - v end) ->
  from_chars_fallback base ty s = OutOfRange 0.
Proof.
  intros B B0 I D W E R. pose proof (denotes_nonneg base ds v B0 D) as V0.
  destruct (is_signed_dec ty) as [S|S].
  - assert (N : ~ (- 2 ^ (width ty - 1) <= match sign with [] => v | _ => - v end < 2 ^ (width ty - 1))).
    { intros H. apply R. split; [auto|tauto]. }
    assert (G : sto_signed (width ty) base s = OutOfRange 0).
    { unfold sto_signed. rewrite E.
      replace (if match sign with [] => false | _ => true end then - v else v)
        with (match sign with [] => v | _ => - v end) by (destruct sign; reflexivity).
      destruct (Z.leb_spec (- 2 ^ (width ty - 1)) (match sign with [] => v | _ => - v end)); cbn [andb]; [|reflexivity].
      destruct (Z.ltb_spec (match sign with [] => v | _ => - v end) (2 ^ (width ty - 1))); [lia|reflexivity]. }
    unfold from_chars_fallback. destruct ty; cbn [width] in *; try (destruct W; (lia || discriminate)); try exact G;
      exfalso; revert S; unfold is_signed; intuition discriminate.
  - assert (sign = []) as -> by (eapply unsigned_no_sign; eassumption).
    assert (N : ~ (0 <= v < 2 ^ width ty)) by (intros H; apply R; split; [tauto|auto]).
    unfold from_chars_fallback. destruct ty; cbn [width] in *; try (destruct W; (lia || discriminate));
      try (exfalso; apply S; unfold is_signed; tauto); unfold sto_unsigned; rewrite E;
      rewrite (proj2 (Z.ltb_ge _ _)) by lia; reflexivity.
Qed.
(** The integer at the start of the text is determined. *)
Lemma integer_at_fun base ty s sign ds rest sign' ds' rest' :
  integer_at base ty s sign ds rest -> integer_at base ty s sign' ds' rest' -> sign = sign' /\ ds = ds' /\ rest = rest'.
Proof.
  intros (E & HS & Nd & HD & HR) (E' & HS' & Nd' & HD' & HR').
  assert (ND : ~ is_digit base 45) by (intros (d & D & _); inversion D; lia).
  assert (sign = sign').
  { destruct ds as [|c ds]; [contradiction|]. destruct ds' as [|c' ds']; [contradiction|].
    destruct HS as [->|[_ ->]], HS' as [->|[_ ->]]; try reflexivity; subst s; cbn in E'.
    - injection E' as -> _. exfalso. apply ND, HD. now left.
    - injection E' as <- _. exfalso. apply ND, HD'. now left. }
  subst sign'. split; [reflexivity|]. rewrite E in E'. apply app_inv_head in E'. clear E HS HS' Nd Nd'.
  revert ds' E' HD'. induction ds as [|c ds IH]; intros [|c' ds'] E' HD'; cbn in E'.
  - auto.
  - exfalso. apply (HR c' (ds' ++ rest') E'). apply HD'. now left.
  - exfalso. apply (HR' c (ds ++ rest) (eq_sym E')). apply HD. now left.
  - injection E' as -> E'. destruct (IH ltac:(intros x Hx; apply HD; now right) ds' E' ltac:(intros x Hx; apply HD'; now right)) as [-> ->]. auto.
Qed.
