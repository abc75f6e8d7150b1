(** Proofs about print_csv_impl, print_matlab_impl, print_python_impl. *)
From Verif Require Import Base Bytes MatView_Model MatView_Spec MatView_Proofs Print_Spec Print_Model.
Local Notation concat := List.concat.
Local Open Scope outcome_scope.
Local Open Scope Z_scope.

(** ** Loops that append texts *)
Lemma loop_texts (f : Z -> list Z -> outcome (list Z)) ts : forall i0 os,
  (forall i t os, nth_error ts i = Some t -> f (i0 + Z.of_nat i) os = Ok (os ++ t)) ->
  loop (length ts) i0 f os = Ok (os ++ concat ts).
Proof.
  induction ts as [|t ts IH]; intros i0 os H; cbn [length loop List.concat]; [now rewrite app_nil_r|].
  pose proof (H 0%nat t os eq_refl) as H0. rewrite Z.add_0_r in H0. rewrite H0. cbn [bind]. rewrite IH.
  - now rewrite app_assoc.
  - intros i u os' Hi. replace (i0 + 1 + Z.of_nat i) with (i0 + Z.of_nat (S i)) by lia. apply H. exact Hi.
Qed.
Lemma for_texts (f : Z -> list Z -> outcome (list Z)) ts n os : Z.of_nat (length ts) = n ->
  (forall i t os, nth_error ts i = Some t -> f (Z.of_nat i) os = Ok (os ++ t)) ->
  for_ 0 n f os = Ok (os ++ concat ts).
Proof.
  intros <- H. unfold for_. rewrite Z.sub_0_r, Nat2Z.id. apply loop_texts. intros i t os' Hi. apply H. exact Hi.
Qed.
(** Every text but the last followed by the delimiter *)
Fixpoint punctuate (d : list Z) (ts : list (list Z)) : list (list Z) :=
  match ts with [] => [] | [t] => [t] | t :: ts => (t ++ d) :: punctuate d ts end.
Lemma punctuate_length d ts : length (punctuate d ts) = length ts.
Proof. induction ts as [|t [|u ts] IH]; auto. change (punctuate d (t :: u :: ts)) with ((t ++ d) :: punctuate d (u :: ts)). cbn [length] in *. congruence. Qed.
Lemma punctuate_concat d ts : concat (punctuate d ts) = joined d ts.
Proof.
  induction ts as [|t [|u ts] IH]; auto; [apply app_nil_r|]. change (punctuate d (t :: u :: ts)) with ((t ++ d) :: punctuate d (u :: ts)).
  cbn [List.concat]. rewrite IH. change (joined d (t :: u :: ts)) with (t ++ d ++ joined d (u :: ts)). now rewrite app_assoc.
Qed.
Lemma punctuate_nth d : forall ts i t, nth_error (punctuate d ts) i = Some t ->
  exists u, nth_error ts i = Some u /\ t = (if Z.of_nat i =? Z.of_nat (length ts) - 1 then u else u ++ d).
Proof.
  induction ts as [|t [|u ts] IH]; intros i x H.
  - destruct i; discriminate.
  - destruct i as [|[|i]]; [|discriminate H|discriminate H]. injection H as <-. exists t. split; reflexivity.
  - change (punctuate d (t :: u :: ts)) with ((t ++ d) :: punctuate d (u :: ts)) in H. destruct i as [|i].
    + injection H as <-. exists t. split; [reflexivity|]. cbn [length]. rewrite (proj2 (Z.eqb_neq _ _)) by lia. reflexivity.
    + cbn [nth_error] in *. destruct (IH i x H) as (w & Hw & ->). exists w. split; [exact Hw|]. cbn [length] in *.
      destruct (Z.eqb_spec (Z.of_nat (S i)) (Z.of_nat (S (S (length ts))) - 1)), (Z.eqb_spec (Z.of_nat i) (Z.of_nat (S (length ts)) - 1)); auto; lia.
Qed.
Lemma nth_error_map_inv {A B} (f : A -> B) l i y : nth_error (map f l) i = Some y -> exists x, nth_error l i = Some x /\ y = f x.
Proof. rewrite nth_error_map. destruct (nth_error l i); [|discriminate]. intros H. injection H as <-. eauto. Qed.
Lemma mapi_first {A B} (f g : A -> B) l i x : nth_error l i = Some x ->
  nth_error (match l with [] => [] | a :: l => f a :: map g l end) i = Some (if Z.of_nat i =? 0 then f x else g x).
Proof.
  destruct l as [|a l]; [destruct i; discriminate|]. destruct i as [|i]; cbn [nth_error]; [intros H; now injection H as <-|].
  intros H. rewrite nth_error_map, H. cbn [option_map]. rewrite (proj2 (Z.eqb_neq _ _)) by lia. reflexivity.
Qed.

Section Print.
Context {V : Type} (show : V -> list Z) (v : view) (m : mem V) (M : list (list V)) (HM : holds v m M).
Definition tokens : list (list (list Z)) := map (map show) M.
Lemma element_ok r row c x : nth_error M r = Some row -> nth_error row c = Some x -> element v m (Z.of_nat r) (Z.of_nat c) = Ok x.
Proof using HM.
  destruct HM as (H1 & H2 & H3). intros Hr Hc. unfold element.
  assert (Lr : (r < length M)%nat) by (apply nth_error_Some; congruence). assert (Lc : (c < length row)%nat) by (apply nth_error_Some; congruence).
  assert (Lw : Z.of_nat (length row) = cols v) by (rewrite Forall_forall in H2; apply H2; eapply nth_error_In; eauto).
  rewrite at_ok by (split; lia). cbn [bind]. unfold load. now rewrite (H3 r row c x Hr Hc).
Qed.
Lemma row_width r row : nth_error M r = Some row -> Z.of_nat (length row) = cols v.
Proof using HM. destruct HM as (_ & H2 & _). intros H. rewrite Forall_forall in H2. apply H2. eapply nth_error_In; eauto. Qed.
(** The loop over the elements of a row *)
Lemma row_loop r row d os : nth_error M r = Some row ->
  for_ 0 (cols v) (fun c os => x <- element v m (Z.of_nat r) c ;; let os := os ++ show x in Ok (if negb (c =? cols v - 1) then os ++ d else os)) os
  = Ok (os ++ joined d (map show row)).
Proof using HM.
  intros Hr. pose proof (row_width r row Hr) as Lw. rewrite <- punctuate_concat. apply for_texts.
  - now rewrite punctuate_length, map_length.
  - intros i t os' Hi. apply punctuate_nth in Hi. destruct Hi as (u & Hu & ->). apply nth_error_map_inv in Hu. destruct Hu as (x & Hx & ->).
    rewrite (element_ok r row i x Hr Hx). cbn [bind]. rewrite map_length, Lw. destruct (Z.of_nat i =? cols v - 1); cbn [negb]; [reflexivity|now rewrite <- app_assoc].
Qed.
Definition one_dim (o : opts) : bool := ((cols v =? 1) && column_vector_as_1d o) || ((rows v =? 1) && row_vector_as_1d o).
Lemma print_csv_lines o os : one_dim o = false ->
  print_csv_impl show v m o os = Ok (os ++ line_per_row (repeat (indent_char o) (indent o)) (start o) (line_start o) (delimiter o) (line_end o) (end_ o) tokens).
Proof using HM.
  intros H1. unfold print_csv_impl. fold (one_dim o). rewrite H1. set (ind := repeat (indent_char o) (indent o)).
  set (ts := match tokens with [] => [] | a :: l => (ind ++ start o ++ joined (delimiter o) a) :: map (fun row => ind ++ line_start o ++ joined (delimiter o) row) l end).
  assert (Lt : length ts = length M). { unfold ts. rewrite <- (map_length (map show) M). fold tokens. destruct tokens; auto. cbn. now rewrite map_length. }
  rewrite (for_texts _ (punctuate (line_end o) ts)).
  - cbn [bind]. rewrite punctuate_concat. unfold line_per_row. fold ind. unfold ts. destruct tokens as [|a l]; cbn [joined app]; rewrite <- app_assoc; reflexivity.
  - rewrite punctuate_length, Lt. apply HM.
  - intros i t os' Hi. apply punctuate_nth in Hi. destruct Hi as (u & Hu & ->).
    assert (Hi : exists row, nth_error M i = Some row).
    { destruct (nth_error M i) as [row|] eqn:E; [eauto|]. apply nth_error_None in E. assert (nth_error ts i = None) by (apply nth_error_None; lia). congruence. }
    destruct Hi as (row & Hrow). assert (Hu' : u = if Z.of_nat i =? 0 then ind ++ start o ++ joined (delimiter o) (map show row) else ind ++ line_start o ++ joined (delimiter o) (map show row)).
    { unfold ts in Hu. assert (Ht : nth_error tokens i = Some (map show row)) by (unfold tokens; now rewrite nth_error_map, Hrow).
      rewrite (mapi_first (fun a => ind ++ start o ++ joined (delimiter o) a) (fun row => ind ++ line_start o ++ joined (delimiter o) row) tokens i _ Ht) in Hu. now injection Hu as <-. }
    rewrite (row_loop i row (delimiter o) _ Hrow). cbn [bind]. rewrite Lt. replace (Z.of_nat (length M)) with (rows v) by (symmetry; apply HM).
    f_equal. rewrite Hu'. destruct (Z.of_nat i =? 0); destruct (Z.of_nat i =? rows v - 1); cbn [negb]; now rewrite <- !app_assoc.
Qed.
Lemma one_dim_cases o : one_dim o = true -> cols v = 1 \/ rows v = 1.
Proof. unfold one_dim. destruct (cols v =? 1) eqn:E1, (rows v =? 1) eqn:E2; cbn; try discriminate; intros; lia. Qed.
Lemma print_csv_one_line o os : one_dim o = true ->
  print_csv_impl show v m o os = Ok (os ++ one_line (repeat (indent_char o) (indent o)) (start o) (delimiter o) (end_ o) (concat tokens)).
Proof using HM.
  intros H1. unfold print_csv_impl. fold (one_dim o). rewrite H1. set (ind := repeat (indent_char o) (indent o)). cbv zeta.
  assert (G : for_ 0 (rows v) (fun r os => for_ 0 (cols v) (fun c os => x <- element v m r c ;;
      Ok (if negb (r =? rows v - 1) || negb (c =? cols v - 1) then (os ++ show x) ++ delimiter o else os ++ show x)) os) (os ++ ind ++ start o)
    = Ok ((os ++ ind ++ start o) ++ joined (delimiter o) (concat tokens))).
  { pose proof HM as (L1 & L2 & _). apply one_dim_cases in H1. destruct (Z.eq_dec (rows v) 1) as [R|R].
    - assert (EM : exists row, M = [row]) by (clear - L1 R; destruct M as [|row [|row2 M']]; cbn [length] in L1; try lia; eauto). destruct EM as (row & EM).
      unfold for_ at 1. rewrite R. change (Z.to_nat (1 - 0)) with 1%nat. cbn [loop].
      assert (Hrow : nth_error M 0 = Some row) by now rewrite EM.
      unfold tokens. rewrite EM. cbn [map List.concat]. rewrite app_nil_r.
      pose proof (row_loop 0 row (delimiter o) (os ++ ind ++ start o) Hrow) as E.
      change (0 =? 1 - 1) with true. cbn [negb orb]. change (Z.of_nat 0) with 0 in E.
      rewrite <- E. match goal with |- bind ?a _ = ?b => replace a with b by reflexivity end. destruct (for_ 0 (cols v) _ _); reflexivity.
    - destruct H1 as [C|C]; [|congruence]. rewrite C in *.
      assert (Hs : forall row, In row M -> exists x, row = [x]).
      { intros row Hr. rewrite Forall_forall in L2. specialize (L2 row Hr). destruct row as [|x [|y row]]; cbn in L2; try lia. eauto. }
      rewrite <- punctuate_concat. apply for_texts.
      + rewrite punctuate_length. rewrite <- L1. f_equal. unfold tokens. clear - Hs. induction M as [|row M' IH]; auto. cbn [map List.concat]. rewrite app_length.
        destruct (Hs row (or_introl eq_refl)) as (x & ->). cbn. f_equal. apply IH. intros; apply Hs; now right.
      + intros i t os' Hi. apply punctuate_nth in Hi. destruct Hi as (u & Hu & ->).
        assert (Ht : exists x, nth_error M i = Some [x] /\ u = show x /\ length (concat tokens) = length M).
        { unfold tokens in Hu |- *. clear - Hu Hs. revert i u Hu. induction M as [|row M' IH]; intros i u Hu; [destruct i; discriminate|].
          destruct (Hs row (or_introl eq_refl)) as (x & ->). cbn [map List.concat app] in Hu |- *. destruct i as [|i].
          - injection Hu as <-. exists x. split; [reflexivity|]. split; [reflexivity|]. cbn [length]. f_equal. clear - Hs.
            induction M' as [|row M2 IH]; auto. cbn [map List.concat]. rewrite app_length. destruct (Hs row) as (y & ->); [cbn; auto|]. cbn [map length Nat.add]. f_equal. apply IH.
            intros r Hr. apply Hs. destruct Hr as [Hr|Hr]; [left; auto|right; now right].
          - cbn [nth_error] in *. destruct (IH (fun r Hr => Hs r (or_intror Hr)) i u Hu) as (y & Hy & Hu' & Hl). exists y. split; [exact Hy|]. split; [exact Hu'|]. cbn [length]. now f_equal. }
        destruct Ht as (x & Hx & -> & Hl). unfold for_. change (Z.to_nat (1 - 0)) with 1%nat. cbn [loop].
        change 0 with (Z.of_nat 0) at 1. rewrite (element_ok i [x] 0 x Hx eq_refl). cbn [bind]. rewrite Hl, L1. change (Z.of_nat 0 =? 1 - 1) with true. cbn [negb]. rewrite orb_false_r.
        destruct (Z.of_nat i =? rows v - 1); cbn [negb]; [reflexivity|now rewrite app_assoc]. }
  rewrite G. cbn [bind]. unfold one_line. fold ind. now rewrite <- !app_assoc.
Qed.
End Print.
