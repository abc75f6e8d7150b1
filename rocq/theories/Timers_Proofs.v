From Verif Require Import Base Timers_Model Timers_Spec.
Local Open Scope Z_scope.
Local Arguments Nat.eqb : simpl never.
Local Arguments Nat.ltb : simpl never.
Local Arguments Z.mul : simpl never.
Local Arguments Z.add : simpl never.
Local Arguments Z.sub : simpl never.

Lemma Zsum_app l k : Zsum (l ++ k) = Zsum l + Zsum k.
Proof. unfold Zsum. induction l as [|x l IH]; cbn [app fold_right]; [lia|]. rewrite IH; lia. Qed.
Lemma Zsum_perm l k : Permutation l k -> Zsum l = Zsum k.
Proof. unfold Zsum. induction 1; cbn [fold_right]; lia. Qed.
Lemma Zsum_cons x l : Zsum (x :: l) = x + Zsum l.
Proof. reflexivity. Qed.

Lemma ended_app a b : ended (a ++ b) = ended a ++ ended b.
Proof. induction a as [|e a IH]; cbn; [reflexivity|]. destruct e; cbn; now rewrite ?IH. Qed.

Section Fix.
Variables (k : Z) (ds : list Z) (cs : list timings) (es : list event).
Hypothesis WF : well_formed (length ds) (length cs) es.

Definition scope_of (e : event) : option scope :=
  match e with
  | StartDur d _ => Some (SDur d)
  | StartCpu d w c => Some (SCpu d w c)
  | End _ _ _ => None
  end.

Definition contr (d : nat) (e : event) : Z :=
  match e with
  | StartDur d' now => if Nat.eqb d' d then - now else 0
  | StartCpu _ _ _ => 0
  | End t wall _ => match nth_timer es t with
                    | Some (StartDur d' _) => if Nat.eqb d' d then wall else 0
                    | _ => 0
                    end
  end.
Definition fst3 (x : Z * Z * Z) := fst (fst x).
Definition snd3 (x : Z * Z * Z) := snd (fst x).
Definition thd3 (x : Z * Z * Z) := snd x.

Record inv (pre : list event) (w : world) : Prop := {
  i_dlen : length (durs w) = length ds;
  i_durs : forall d, (d < length ds)%nat -> nth d (durs w) 0 = nth d ds 0 + k * Zsum (map (contr d) pre);
  i_clen : length (cpus w) = length cs;
  i_cpus : forall d c0, nth_error cs d = Some c0 ->
    nth_error (cpus w) d = Some (Timings (wall_time c0 + Zsum (map (fun e => fst3 (elapsed_cpu es d e)) pre))
                                          (cpu_time c0 + Zsum (map (fun e => snd3 (elapsed_cpu es d e)) pre))
                                          (num_invocations c0 + Zsum (map (fun e => thd3 (elapsed_cpu es d e)) pre)));
  i_slen : length (scopes w) = length (filter is_start pre);
  i_sc : forall t, (t < length (filter is_start pre))%nat -> ~ In t (ended pre) ->
    exists e, nth_timer es t = Some e /\ nth_error (scopes w) t = Some (scope_of e);
}.

Lemma nth_upd {A} (l : list A) i j x (d : A) : (i < length l)%nat -> nth j (upd l i x) d = if Nat.eqb i j then x else nth j l d.
Proof.
  revert i j; induction l as [|y l IH]; intros [|i] [|j] H; cbn in *; try lia; auto.
  rewrite IH by lia. reflexivity.
Qed.

Lemma nth_timer_prefix pre e post : es = pre ++ e :: post -> is_start e = true -> nth_timer es (length (filter is_start pre)) = Some e.
Proof.
  intros E S. unfold nth_timer. rewrite E, filter_app. cbn [filter]. rewrite S.
  rewrite nth_error_app2, Nat.sub_diag by lia. reflexivity.
Qed.
Lemma nth_timer_start t e : nth_timer es t = Some e -> is_start e = true /\ In e es.
Proof. unfold nth_timer. intros H. apply nth_error_In, filter_In in H. tauto. Qed.

Lemma map_snoc {A B} (f : A -> B) l x : map f (l ++ [x]) = map f l ++ [f x].
Proof. now rewrite map_app. Qed.

Lemma step_inv pre e post w : es = pre ++ e :: post -> inv pre w -> inv (pre ++ [e]) (step k e w).
Proof.
  intros E I. destruct WF as (ND & Before & Hd & Hc).
  assert (Hin : In e es) by (rewrite E; apply in_or_app; right; now left).
  destruct e as [d now|d wl cp|t wl cp].
  - pose proof (Hd _ _ Hin) as Ld.
    split; cbn [step durs cpus scopes].
    + rewrite upd_length. apply I.
    + intros d' Ld'. rewrite nth_upd by (rewrite (i_dlen _ _ I); exact Ld). rewrite map_snoc, Zsum_app. cbn [map].
      rewrite Zsum_cons. cbn [contr]. destruct (Nat.eqb_spec d d') as [->|N].
      * rewrite (i_durs _ _ I) by exact Ld'. unfold Zsum at 3; cbn. lia.
      * rewrite (i_durs _ _ I) by exact Ld'. unfold Zsum at 3; cbn. lia.
    + apply I.
    + intros d' c0 H0. rewrite !map_snoc, !Zsum_app. cbn [map elapsed_cpu fst3 snd3 thd3 fst snd].
      rewrite !Zsum_cons. change (Zsum []) with 0. rewrite !Z.add_0_r. now apply (i_cpus _ _ I).
    + rewrite filter_app, !app_length. cbn. now rewrite (i_slen _ _ I).
    + intros t. rewrite filter_app, app_length, ended_app, app_nil_r. cbn [filter is_start length]. intros Lt Nt.
      destruct (Nat.eq_dec t (length (filter is_start pre))) as [->|N].
      * exists (StartDur d now). split; [eapply nth_timer_prefix; eauto|].
        rewrite <- (i_slen _ _ I), nth_error_app2, Nat.sub_diag by lia. reflexivity.
      * destruct (i_sc _ _ I t) as (e & A & B); [lia|exact Nt|]. exists e. split; [exact A|].
        rewrite nth_error_app1; [exact B|]. rewrite (i_slen _ _ I). lia.
  - split; cbn [step durs cpus scopes].
    + apply I.
    + intros d' Ld'. rewrite map_snoc, Zsum_app. cbn [map contr]. rewrite Zsum_cons. change (Zsum []) with 0.
      rewrite !Z.add_0_r. now apply (i_durs _ _ I).
    + apply I.
    + intros d' c0 H0. rewrite !map_snoc, !Zsum_app. cbn [map elapsed_cpu fst3 snd3 thd3 fst snd].
      rewrite !Zsum_cons. change (Zsum []) with 0. rewrite !Z.add_0_r. now apply (i_cpus _ _ I).
    + rewrite filter_app, !app_length. cbn. now rewrite (i_slen _ _ I).
    + intros t. rewrite filter_app, app_length, ended_app, app_nil_r. cbn [filter is_start length]. intros Lt Nt.
      destruct (Nat.eq_dec t (length (filter is_start pre))) as [->|N].
      * exists (StartCpu d wl cp). split; [eapply nth_timer_prefix; eauto|].
        rewrite <- (i_slen _ _ I), nth_error_app2, Nat.sub_diag by lia. reflexivity.
      * destruct (i_sc _ _ I t) as (e & A & B); [lia|exact Nt|]. exists e. split; [exact A|].
        rewrite nth_error_app1; [exact B|]. rewrite (i_slen _ _ I). lia.
  - pose proof (Before _ _ _ _ _ E) as Lt.
    assert (Nt : ~ In t (ended pre)).
    { rewrite E, ended_app in ND. cbn [ended] in ND. apply NoDup_remove_2 in ND. intros H; apply ND, in_or_app; now left. }
    destruct (i_sc _ _ I t Lt Nt) as (e & He & Hs). destruct (nth_timer_start t e He) as [Se Ie].
    cbn [step]. rewrite Hs. destruct e as [d now|d ws cc|]; [| |discriminate]; cbn [scope_of].
    + pose proof (Hd _ _ Ie) as Ld. split; cbn [durs cpus scopes].
      * rewrite upd_length. apply I.
      * intros d' Ld'. rewrite nth_upd by (rewrite (i_dlen _ _ I); exact Ld). rewrite map_snoc, Zsum_app. cbn [map].
        rewrite Zsum_cons. cbn [contr]. rewrite He. change (Zsum []) with 0. destruct (Nat.eqb_spec d d') as [->|N].
        -- rewrite (i_durs _ _ I) by exact Ld'. lia.
        -- rewrite (i_durs _ _ I) by exact Ld'. lia.
      * apply I.
      * intros d' c0 H0. rewrite !map_snoc, !Zsum_app. cbn [map elapsed_cpu]. rewrite He. cbn [fst3 snd3 thd3 fst snd].
        rewrite !Zsum_cons. change (Zsum []) with 0. rewrite !Z.add_0_r. now apply (i_cpus _ _ I).
      * rewrite filter_app, upd_length, !app_length. cbn. rewrite (i_slen _ _ I). lia.
      * intros t'. rewrite filter_app, app_length, ended_app. cbn [filter is_start length ended]. intros Lt' Nt'.
        destruct (i_sc _ _ I t') as (e & A & B); [lia|intros H; apply Nt', in_or_app; now left|].
        exists e. split; [exact A|]. rewrite upd_other; [exact B|]. intros ->. apply Nt', in_or_app; right; now left.
    + pose proof (Hc _ _ _ Ie) as Lc. destruct (nth_error cs d) as [c0|] eqn:Ec; [|apply nth_error_None in Ec; lia].
      pose proof (i_cpus _ _ I d c0 Ec) as Hcp. rewrite Hcp. split; cbn [durs cpus scopes].
      * apply I.
      * intros d' Ld'. rewrite map_snoc, Zsum_app. cbn [map contr]. rewrite He, Zsum_cons. change (Zsum []) with 0.
        rewrite !Z.add_0_r. now apply (i_durs _ _ I).
      * rewrite upd_length. apply I.
      * intros d' c1 H1. rewrite nth_error_upd, (i_clen _ _ I). rewrite !map_snoc, !Zsum_app. cbn [map elapsed_cpu]. rewrite He.
        rewrite !Zsum_cons. change (Zsum []) with 0. destruct (Nat.eqb_spec d d') as [<-|N].
        -- destruct (Nat.ltb_spec d (length cs)); [|lia]. assert (c1 = c0) by congruence; subst c1.
           unfold fst3, snd3, thd3; cbn [fst snd]. f_equal. f_equal; lia.
        -- unfold fst3, snd3, thd3; cbn [fst snd]. rewrite !Z.add_0_r. now apply (i_cpus _ _ I).
      * rewrite filter_app, upd_length, !app_length. cbn. rewrite (i_slen _ _ I). lia.
      * intros t'. rewrite filter_app, app_length, ended_app. cbn [filter is_start length ended]. intros Lt' Nt'.
        destruct (i_sc _ _ I t') as (e & A & B); [lia|intros H; apply Nt', in_or_app; now left|].
        exists e. split; [exact A|]. rewrite upd_other; [exact B|]. intros ->. apply Nt', in_or_app; right; now left.
Qed.

Lemma run_inv : inv es (run k es (start ds cs)).
Proof.
  assert (G : forall pre post, es = pre ++ post -> inv pre (run k pre (start ds cs))).
  { intros pre. induction pre as [|e pre IH] using rev_ind; intros post E.
    - split; cbn [run fold_left start durs cpus scopes map]; change (Zsum []) with 0; auto; try lia.
      + intros d [a b c] H. rewrite H. cbn [wall_time cpu_time num_invocations]. now rewrite !Z.add_0_r.
      + intros t H. cbn in H. lia.
    - unfold run. rewrite fold_left_app. cbn [fold_left]. eapply (step_inv pre e post).
      + now rewrite E, <- app_assoc.
      + eapply IH. now rewrite E, <- app_assoc. }
  apply (G es []). now rewrite app_nil_r.
Qed.

(** The start times of the ended timers are those of all timers. *)
Definition st_val (d : nat) (e : event) : Z :=
  match e with StartDur d' now => if Nat.eqb d' d then now else 0 | _ => 0 end.
Definition timer_st (d t : nat) : Z := match nth_timer es t with Some e => st_val d e | None => 0 end.

Lemma sum_end_starts d l : Zsum (map (elapsed_dur es d) l) = Zsum (map (contr d) l) + Zsum (map (st_val d) l) - Zsum (map (timer_st d) (ended l)).
Proof.
  induction l as [|e l IH]; [reflexivity|]. cbn [map ended]. rewrite !Zsum_cons, IH.
  destruct e as [d' now|d' a b|t a b]; cbn [elapsed_dur contr st_val].
  - destruct (Nat.eqb d' d); lia.
  - lia.
  - cbn [map]. rewrite Zsum_cons. unfold timer_st at 2. destruct (nth_timer es t) as [[d' now| |]|]; cbn [st_val]; try lia.
    destruct (Nat.eqb d' d); lia.
Qed.

Lemma seq_timers d : Zsum (map (timer_st d) (seq 0 (length (filter is_start es)))) = Zsum (map (st_val d) es).
Proof.
  transitivity (Zsum (map (st_val d) (filter is_start es))).
  - f_equal. unfold timer_st, nth_timer. induction (filter is_start es) as [|e l IH] using rev_ind; [reflexivity|].
    rewrite app_length. cbn [length]. rewrite Nat.add_1_r, seq_S, !map_app. cbn [map Nat.add].
    rewrite nth_error_app2, Nat.sub_diag by lia. cbn [nth_error]. f_equal. rewrite <- IH. apply map_ext_in.
    intros t Ht. apply in_seq in Ht. now rewrite nth_error_app1 by lia.
  - clear WF. induction es as [|e l IH]; [reflexivity|]. cbn [filter map]. rewrite Zsum_cons.
    rewrite <- IH. destruct e as [d' n|d' a b|t a b]; cbn [is_start map]; [rewrite Zsum_cons; reflexivity..|].
    cbn [st_val]. lia.
Qed.

Lemma ended_perm : all_ended es -> Permutation (ended es) (seq 0 (length (filter is_start es))).
Proof.
  intros A. destruct WF as (ND & Before & _). apply NoDup_Permutation; [exact ND|apply seq_NoDup|].
  intros t. rewrite in_seq. split.
  - intros H. split; [lia|]. cbn.
    assert (X : exists pre w c post, es = pre ++ End t w c :: post).
    { clear -H. induction es as [|e l IH]; [contradiction|]. cbn in H.
      destruct e as [d n|d a b|u a b]; cbn in H.
      - destruct (IH H) as (pre & w & c & post & ->). exists (StartDur d n :: pre). do 3 eexists. reflexivity.
      - destruct (IH H) as (pre & w & c & post & ->). exists (StartCpu d a b :: pre). do 3 eexists. reflexivity.
      - destruct H as [->|H]; [exists []; do 3 eexists; reflexivity|].
        destruct (IH H) as (pre & w & c & post & ->). exists (End u a b :: pre). do 3 eexists. reflexivity. }
    destruct X as (pre & w & c & post & E). pose proof (Before _ _ _ _ _ E).
    rewrite E, filter_app, app_length. lia.
  - intros [_ H]. now apply A.
Qed.

Lemma durs_final d : all_ended es -> (d < length ds)%nat ->
  nth d (durs (run k es (start ds cs))) 0 = nth d ds 0 + k * Zsum (map (elapsed_dur es d) es).
Proof.
  intros A L. rewrite (i_durs _ _ run_inv d L). rewrite sum_end_starts.
  rewrite (Zsum_perm _ _ (Permutation_map (timer_st d) (ended_perm A))), seq_timers. f_equal. f_equal. lia.
Qed.
Lemma cpus_final d c0 : nth_error cs d = Some c0 ->
  nth_error (cpus (run k es (start ds cs))) d = Some (Timings (wall_time c0 + Zsum (map (fun e => fst (fst (elapsed_cpu es d e))) es))
      (cpu_time c0 + Zsum (map (fun e => snd (fst (elapsed_cpu es d e))) es))
      (num_invocations c0 + Zsum (map (fun e => snd (elapsed_cpu es d e)) es))).
Proof. apply (i_cpus _ _ run_inv). Qed.
End Fix.
