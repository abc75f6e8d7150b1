From Verif Require Import Base Bytes MatView_Model Print_Model Print_Spec Csv_Spec Print_Ints PrintStream_Model PrintStream_Proofs PrintStreamInt_Spec.
Local Open Scope Z_scope.

Lemma value_snoc b ds d : value_in_base b (ds ++ [d]) = b * value_in_base b ds + d.
Proof. unfold value_in_base. now rewrite fold_left_app. Qed.
Lemma radix_rev_ok b up (Hb : 2 <= b) : forall fuel n, 0 <= n < 2 ^ Z.of_nat fuel -> (1 <= fuel)%nat ->
  exists ds, radix_rev fuel b (if up : bool then 65 else 97) n = map (digit_char up) ds /\ Forall (fun d => 0 <= d < b) ds /\ ds <> [] /\
    value_in_base b (rev ds) = n /\ (hd 0 (rev ds) = 0 -> rev ds = [0]).
Proof.
  induction fuel as [|fuel IH]; intros n Hn Hf; [lia|]. cbn [radix_rev].
  assert (D : 0 <= n mod b < b) by (apply Z.mod_pos_bound; lia).
  assert (Ec : (if n mod b <? 10 then 48 + n mod b else (if up then 65 else 97) + (n mod b - 10)) = digit_char up (n mod b)) by reflexivity.
  rewrite Ec. destruct (Z.ltb_spec n b) as [L|L].
  - exists [n mod b]. split; [reflexivity|]. split; [now constructor|]. split; [discriminate|]. rewrite Z.mod_small by lia. split; [unfold value_in_base; cbn [rev app fold_left]; lia|]. cbn [rev app hd]. now intros ->.
  - assert (Q : 1 <= n / b) by (apply Z.div_le_lower_bound; lia).
    assert (Q2 : n / b < 2 ^ Z.of_nat fuel).
    { apply Z.div_lt_upper_bound; [lia|]. rewrite Nat2Z.inj_succ, Z.pow_succ_r in Hn by lia. nia. }
    assert (Hf' : (1 <= fuel)%nat). { destruct fuel; [cbn in Q2; lia|lia]. }
    destruct (IH (n / b) ltac:(lia) Hf') as (ds & E & F & N & V & Z0). exists (n mod b :: ds). rewrite E. split; [reflexivity|]. split; [now constructor|]. split; [discriminate|].
    cbn [rev]. split; [rewrite value_snoc, V; pose proof (Z.div_mod n b ltac:(lia)); lia|].
    destruct (rev ds) as [|x xs] eqn:Er; [exfalso; apply N; rewrite <- (rev_involutive ds), Er; reflexivity|]. cbn [app hd]. intros ->. cbn [hd] in Z0. specialize (Z0 eq_refl). injection Z0 as ->. unfold value_in_base in V. cbn [fold_left] in V. lia.
Qed.
Lemma radix_ok b up n : 2 <= b -> 0 <= n -> numeral b up n (radix b (if up then 65 else 97) n).
Proof.
  intros Hb Hn. unfold radix. destruct (radix_rev_ok b up Hb (S (Z.to_nat (Z.log2 n))) n) as (ds & E & F & N & V & Z0).
  { split; [lia|]. pose proof (log2_fuel n Hn). lia. }
  { lia. }
  exists (rev ds). rewrite E, map_rev. split; [reflexivity|]. split; [now apply Forall_rev|]. split; [|auto]. intros K. apply N. rewrite <- (rev_involutive ds), K. reflexivity.
Qed.
Lemma decimal_ok up n : 0 <= n -> numeral 10 up n (show_nat n).
Proof.
  intros H. destruct (show_nat_ok n H) as (N & F & V & _ & Z0). exists (map (fun c => c - 48) (show_nat n)).
  assert (M : map (digit_char up) (map (fun c => c - 48) (show_nat n)) = show_nat n).
  { rewrite map_map. rewrite <- (map_id (show_nat n)) at 2. apply map_ext_in. intros c Hc. rewrite Forall_forall in F. specialize (F c Hc). unfold digit_char. cbn beta in F. rewrite (proj2 (Z.ltb_lt _ _)) by lia. lia. }
  split; [now rewrite M|]. split.
  - rewrite Forall_map. eapply Forall_impl; [|exact F]. cbn. intros; lia.
  - split; [intros K; apply N; destruct (show_nat n); [reflexivity|discriminate]|]. split.
    + transitivity (decimal (show_nat n)); [|exact V]. unfold value_in_base, decimal. generalize 0. clear. induction (show_nat n) as [|c t IH]; intros a; cbn [map fold_left]; [reflexivity|]. apply IH.
    + destruct (show_nat n) as [|c t]; [congruence|]. cbn [map hd] in *. intros K. assert (c = 48) as -> by lia. specialize (Z0 eq_refl). injection Z0 as ->. reflexivity.
Qed.

(** Grouping *)
Lemma joined_snoc sep ds d : ds <> [] -> joined sep (ds ++ [d]) = joined sep ds ++ sep :: d.
Proof.
  induction ds as [|x ds IH]; [congruence|]. intros _. destruct ds as [|y ds]; [reflexivity|]. change (joined sep ((x :: y :: ds) ++ [d])) with (x ++ sep :: joined sep ((y :: ds) ++ [d])). change (joined sep (x :: y :: ds)) with (x ++ sep :: joined sep (y :: ds)). rewrite IH by discriminate. now rewrite <- app_assoc.
Qed.
Lemma group_rev_ok sep : forall fuel sizes ds, (length ds <= fuel)%nat -> ds <> [] ->
  exists gs, groups_of sizes gs /\ gs <> [] /\ List.concat gs = rev ds /\ rev (group_rev fuel sizes sep ds) = joined sep gs.
Proof.
  induction fuel as [|fuel IH]; intros sizes ds Hf N.
  - destruct ds; [congruence|cbn in Hf; lia].
  - assert (Nr : rev ds <> []) by (intros K; apply N; rewrite <- (rev_involutive ds), K; reflexivity).
    assert (One : (forall g more, sizes = g :: more -> 0 < g < 127 -> Z.of_nat (length (rev ds)) <= g) ->
       exists gs, groups_of sizes gs /\ gs <> [] /\ List.concat gs = rev ds /\ rev ds = joined sep gs).
    { intros K. exists [rev ds]. split; [now constructor|]. split; [discriminate|]. cbn [List.concat joined]. now rewrite app_nil_r. }
    destruct sizes as [|g more]; cbn [group_rev]; [apply One; discriminate|].
    destruct (Z.leb_spec g 0) as [G|G]; [apply One; intros ? ? K; injection K as <- <-; lia|].
    destruct (Z.leb_spec 127 g) as [G'|G']; [apply One; intros ? ? K; injection K as <- <-; lia|].
    destruct (Z.leb_spec (Z.of_nat (length ds)) g) as [G''|G'']; [apply One; intros ? ? K; injection K as <- <-; rewrite rev_length; lia|]. clear One.
    cbn [orb]. set (k := Z.to_nat g). assert (Lk : (k < length ds)%nat) by lia.
    set (more' := match more with [] => [g] | _ => more end).
    destruct (IH more' (skipn k ds)) as (gs & G1 & G2 & G3 & G4).
    { rewrite skipn_length. lia. }
    { intros K. apply (f_equal (@length Z)) in K. rewrite skipn_length in K. cbn in K. lia. }
    exists (gs ++ [rev (firstn k ds)]). split; [|split; [intros K; apply app_eq_nil in K; destruct K; discriminate|split]].
    + assert (Z.of_nat (length (rev (firstn k ds))) = g) by (rewrite rev_length, firstn_length; lia).
      unfold more' in *. destruct more as [|g' more]; [apply last_group; auto; lia|apply next_group; auto; lia].
    + rewrite concat_app, G3. cbn [List.concat]. rewrite app_nil_r, <- rev_app_distr, firstn_skipn. reflexivity.
    + rewrite rev_app_distr. cbn [rev]. rewrite G4, <- app_assoc. cbn [app]. rewrite joined_snoc by exact G2. reflexivity.
Qed.
Lemma grouped_ok f ds : ds <> [] -> exists gs, groups_of (grouping f) gs /\ List.concat gs = ds /\ grouped f ds = joined (thousands_sep f) gs.
Proof.
  intros N. unfold grouped. destruct (group_rev_ok (thousands_sep f) (length ds) (grouping f) (rev ds)) as (gs & A & _ & B & C).
  { now rewrite rev_length. }
  { intros K. apply N. rewrite <- (rev_involutive ds), K. reflexivity. }
  exists gs. now rewrite B, rev_involutive.
Qed.
Lemma numeral_nonempty b up n s : numeral b up n s -> s <> [].
Proof. intros (ds & -> & _ & N & _) K. apply N. destruct ds; [reflexivity|discriminate]. Qed.
