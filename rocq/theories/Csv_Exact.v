(** C45: whatever the lengths of the fields, a successful read of as many numbers as
    the line has fields gives the values of the fields. *)
From Verif Require Import Base Csv_Spec Csv_Model Csv_Proofs.
Local Open Scope outcome_scope.
Local Arguments Nat.eqb : simpl never.
Local Arguments Nat.sub : simpl never.
Local Arguments Z.eqb : simpl never.

Lemma length_fields_nonempty sep l : l <> [] -> 1 <= length (fields sep l).
Proof. intros H. apply (fields_nonempty sep) in H. destruct (fields sep l); [congruence|cbn; lia]. Qed.
Section Exact.
Context (eager : bool) {V : Type} (number : list Z -> option (V * nat)) (sep : Z) (Hsep : separates number sep).

Lemma read_long_value r st p more after v : rep r st (p ++ more) after -> ~ In sep p -> 64 <= length p -> value_of number (firstn 64 p) = Some v ->
  exists r' st', read eager number sep r st = Ok (v, r', st') /\ rep r' st' (skipn 64 p ++ more) after.
Proof using Hsep.
  intros H Hs Hl Hv. destruct (refill eager r st _ after H) as (r' & st' & E & (Hn & Hb & l2 & Ep & Hk) & F). unfold read. rewrite E. cbn [bind].
  assert (Hlen : length (buf r') = 64).
  { destruct F as [F|F]; [|exact F]. rewrite F in Hk. destruct Hk as [-> _]. rewrite app_nil_r in Ep. apply (f_equal (@length Z)) in Ep. rewrite app_length in Ep. lia. }
  assert (Ef : buf r' = firstn 64 p).
  { pose proof (f_equal (firstn 64) Ep) as Ep'. rewrite !firstn_app, Hlen in Ep'. replace (64 - length p) with 0 in Ep' by lia. rewrite Nat.sub_diag, !firstn_O, !app_nil_r in Ep'.
    rewrite (firstn_all2 (buf r')) in Ep' by lia. auto. }
  assert (El : l2 = skipn 64 p ++ more).
  { rewrite Ef in Ep. rewrite <- (firstn_skipn 64 p) in Ep at 1. rewrite <- app_assoc in Ep. apply app_inv_head in Ep. auto. }
  rewrite Ef. set (q := firstn 64 p) in *.
  destruct (read_single number q) as [[w k]|e| |] eqn:Es; cbn [bind].
  - destruct (skipn_last number sep Hsep q w k Es) as (Hle & Hv1 & Hv2). assert (Hk2 : k = length q).
    { destruct (Nat.eq_dec k (length q)) as [K|K]; [exact K|]. rewrite (Hv2 K) in Hv. discriminate. }
    pose proof (proj2 Hv1 Hk2) as Hw. rewrite Hv in Hw. injection Hw as <-. rewrite Hk2, skipn_all.
    do 2 eexists. split; [reflexivity|]. split; [|split].
    + intros K. apply Hn. rewrite Ep. apply in_or_app. right. now rewrite El.
    + cbn. lia.
    + cbn [buf keep_reading]. exists l2. split; [now rewrite El|exact Hk].
  - rewrite single_end in Es. unfold value_of in Hv. destruct (number (strip_plus q)) as [[w k]|]; [discriminate|]. congruence.
  - rewrite single_end in Es. destruct (number (strip_plus q)) as [[w k]|]; discriminate.
  - rewrite single_end in Es. destruct (number (strip_plus q)) as [[w k]|]; discriminate.
Qed.
(** Reading one field at the start of what remains of a line *)
Lemma read_some r st l after v r' st' : rep r st l after -> read eager number sep r st = Ok (v, r', st') ->
  exists l', rep r' st' l' after /\
    ((fields sep l = match fields sep l with f :: _ => f | [] => [] end :: fields sep l' /\
      value_of number (match fields sep l with f :: _ => f | [] => [] end) = Some v) \/
     (length (fields sep l) <= length (fields sep l') /\ l' <> [])).
Proof using Hsep.
  intros H Hr. destruct (cut_line sep l) as [->|[[Hne Hs]|(p & l' & -> & Hs)]].
  - destruct (rep_nil _ _ _ H) as [-> He]. rewrite (read_nil eager number sep Hsep) in Hr. discriminate.
  - destruct (Nat.lt_ge_cases (length l) 64) as [L|L].
    + pose proof (read_last_short eager number sep Hsep r st l after H Hne Hs L) as R. destruct (value_of number l) as [w|] eqn:Ev; [|congruence].
      destruct R as (st2 & R & He). rewrite R in Hr. injection Hr as <- <- <-. exists []. split; [now apply at_end_rep|]. left.
      rewrite fields_one by auto. auto.
    + rewrite <- (app_nil_r l) in H. destruct (value_of number (firstn 64 l)) as [w|] eqn:Ev.
      * destruct (read_long_value r st l [] after w H Hs L Ev) as (r2 & st2 & R & He). rewrite R in Hr. injection Hr as <- <- <-. rewrite app_nil_r in He.
        exists (skipn 64 l). split; [exact He|]. rewrite (fields_one sep l) by auto. destruct (skipn 64 l) as [|c t] eqn:Ek.
        { left. split; [reflexivity|]. rewrite <- Ev. f_equal. rewrite <- (app_nil_r (firstn 64 l)), <- Ek. now rewrite firstn_skipn. }
        right. split; [|discriminate]. pose proof (length_fields_nonempty sep (c :: t) ltac:(discriminate)). cbn [length]. lia.
      * rewrite (read_long eager number sep Hsep r st l [] after H Hs L Ev) in Hr. discriminate.
  - rewrite fields_cons by auto. destruct (Nat.lt_ge_cases (length p) 64) as [L|L].
    + pose proof (read_first_short eager number sep Hsep r st p l' after H Hs L) as R. destruct (value_of number p) as [w|] eqn:Ev; [|congruence].
      destruct R as (r2 & st2 & R & He). rewrite R in Hr. injection Hr as <- <- <-. exists l'. split; [exact He|]. left. auto.
    + destruct (value_of number (firstn 64 p)) as [w|] eqn:Ev.
      * destruct (read_long_value r st p (sep :: l') after w H Hs L Ev) as (r2 & st2 & R & He). rewrite R in Hr. injection Hr as <- <- <-.
        exists (skipn 64 p ++ sep :: l'). split; [exact He|]. right. rewrite fields_cons.
        { split; [reflexivity|]. destruct (skipn 64 p); discriminate. }
        intros K. apply Hs. rewrite <- (firstn_skipn 64 p). apply in_or_app. now right.
      * rewrite (read_long eager number sep Hsep r st p _ after H Hs L Ev) in Hr. discriminate.
Qed.
Lemma read_fields_exact n : forall r st l after vs r' st', rep r st l after -> finish (read_fields eager number sep n r st) = Ok (vs, r', st') ->
  length (fields sep l) <= n /\ (length (fields sep l) = n -> values_of number (fields sep l) = Some vs) /\ buf r' = [] /\ at_text st' (text_after after).
Proof using Hsep.
  induction n as [|n IH]; intros r st l after vs r' st' H Hr; cbn [read_fields] in Hr; unfold finish in Hr.
  - cbn [bind] in Hr. destruct l as [|c l].
    + destruct (rep_nil _ _ _ H) as [-> He]. destruct (next_line_end false st after He) as (st2 & E & Ht). rewrite E in Hr. cbn [bind] in Hr. injection Hr as <- <- <-.
      split; [reflexivity|]. auto.
    + rewrite (next_line_more _ _ _ _ H) in Hr by discriminate. discriminate.
  - destruct (read eager number sep r st) as [[[v r1] st1]|e| |] eqn:E; try discriminate. cbn [bind] in Hr.
    destruct (read_some r st l after v r1 st1 H E) as (l' & R & D).
    destruct (read_fields eager number sep n r1 st1) as [[[vs2 r2] st2]|e| |] eqn:E2; try discriminate. cbn [bind] in Hr.
    destruct (next_line r2 st2) as [st3|e| |] eqn:E3; try discriminate. cbn [bind] in Hr. injection Hr as <- <- <-.
    specialize (IH r1 st1 l' after vs2 r2 st3 R). unfold finish in IH. rewrite E2 in IH. cbn [bind] in IH. rewrite E3 in IH. cbn [bind] in IH.
    destruct (IH eq_refl) as (I1 & I2 & I3 & I4). destruct D as [[D1 D2]|[D1 D2]].
    + rewrite D1. cbn [length]. split; [lia|]. split; [|auto]. intros Hn. injection Hn as Hn. cbn [values_of]. rewrite D2, (I2 Hn). reflexivity.
    + split; [lia|]. split; [intros; lia|auto].
Qed.
Lemma one_row_exact c text line after n b st vs r' st' : comments c -> first_line text = (line, after) -> (c = [] \/ line <> []) -> ~ is_comment line ->
  at_text st (c ++ text) -> one_row eager number sep n (Reader [] b) st = Ok (vs, r', st') ->
  length (fields sep line) <= n /\ (length (fields sep line) = n -> values_of number (fields sep line) = Some vs) /\ buf r' = [] /\ at_text st' (text_after after).
Proof using Hsep.
  intros Hc Hf Hcl Hnc Hst Hr. unfold one_row in Hr. destruct line as [|d line].
  - destruct Hcl as [->|K]; [|congruence]. cbn [app] in Hst. destruct (skip_empty eager text after b st Hf Hst) as (st2 & E & He). rewrite E in Hr. cbn [bind] in Hr.
    destruct n as [|n]; cbn [read_fields] in Hr.
    + cbn [bind] in Hr. destruct (next_line_end b st2 after He) as (st3 & E3 & Ht). rewrite E3 in Hr. cbn [bind] in Hr. injection Hr as <- <- <-. cbn. auto.
    + rewrite (read_empty eager number sep Hsep b st2 after He) in Hr. discriminate.
  - destruct (skip_ok eager c text (d :: line) after b st Hc Hf) as (r & st2 & E & R); auto; [discriminate|]. rewrite E in Hr. cbn [bind] in Hr.
    apply (read_fields_exact n r st2 (d :: line) after vs r' st' R Hr).
Qed.
Lemma csv_read_row_exact c text line after n st vs st' : comments c -> first_line text = (line, after) -> (c = [] \/ line <> []) -> ~ is_comment line ->
  at_text st (c ++ text) -> csv_read_row eager number sep n st = Ok (vs, st') ->
  length (fields sep line) <= n /\ (length (fields sep line) = n -> values_of number (fields sep line) = Some vs) /\ at_text st' (text_after after).
Proof using Hsep.
  intros Hc Hf Hcl Hnc Hst Hr. unfold csv_read_row in Hr. change new_reader with (Reader [] true) in Hr.
  destruct (one_row eager number sep n (Reader [] true) st) as [[[ws r'] st2]|e| |] eqn:E; try discriminate. cbn [bind] in Hr. injection Hr as <- <-.
  destruct (one_row_exact c text line after n true st ws r' st2 Hc Hf Hcl Hnc Hst E) as (I1 & I2 & _ & I4). auto.
Qed.
Lemma csv_read_exact n k text rows text' : lines_of sep k text rows text' -> forall b st vss st', at_text st text ->
  read_rows eager number sep k n (Reader [] b) st = Ok (vss, st') ->
  Forall (fun fs => length fs <= n) rows /\
  (Forall (fun fs => length fs = n) rows -> Forall2 (fun fs vs => values_of number fs = Some vs) rows vss) /\ at_text st' text'.
Proof using Hsep.
  induction 1 as [text|k c text line after rows text' Hc Hf Hcl Hnc Hr IH]; intros b st vss st' Hst H; cbn [read_rows] in H.
  - injection H as <- <-. auto.
  - destruct (one_row eager number sep n (Reader [] b) st) as [[[vs r1] st1]|e| |] eqn:E; try discriminate. cbn [bind] in H.
    destruct (one_row_exact c text line after n b st vs r1 st1 Hc Hf Hcl Hnc Hst E) as (I1 & I2 & I3 & I4).
    destruct r1 as [bb b1]. cbn in I3. subst bb. destruct (read_rows eager number sep k n (Reader [] b1) st1) as [[vss1 st2]|e| |] eqn:E2; try discriminate. cbn [bind] in H.
    injection H as <- <-. destruct (IH b1 st1 vss1 st2 I4 E2) as (J1 & J2 & J3). split; [now constructor|]. split; [|exact J3].
    intros HF. inversion HF as [|? ? F1 F2]; subst. constructor; auto.
Qed.
End Exact.
