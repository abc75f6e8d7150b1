From Verif Require Import Base Ringbuffer_Model.
Local Arguments Nat.eqb : simpl never.
Local Arguments Nat.ltb : simpl never.
Local Arguments Nat.modulo : simpl never.

Definition entry (i1 max k : nat) : indices := CI k ((i1 + k) mod max).

Lemma mod_succ i max : max <> 0 ->
  (if i mod max + 1 =? max then 0 else i mod max + 1) = (S i) mod max.
Proof.
  intros Hm. pose proof (Nat.mod_upper_bound i max Hm) as Hb.
  pose proof (Nat.div_mod i max Hm) as Hd.
  destruct (Nat.eqb_spec (i mod max + 1) max) as [He|He].
  - apply (Nat.mod_unique (S i) max (S (i / max))); nia.
  - apply (Nat.mod_unique (S i) max (i / max)); nia.
Qed.

Lemma mod_pred i max : max <> 0 ->
  (if (S i) mod max =? 0 then max - 1 else (S i) mod max - 1) = i mod max.
Proof.
  intros Hm. rewrite <- mod_succ by assumption.
  pose proof (Nat.mod_upper_bound i max Hm) as Hb.
  destruct (Nat.eqb_spec (i mod max + 1) max) as [He|He].
  - simpl. replace (0 =? 0) with true by reflexivity. lia.
  - destruct (Nat.eqb_spec (i mod max + 1) 0); lia.
Qed.

Lemma inc_entry i1 max k : k < max ->
  inc (It (entry i1 max k) max) = Ok (It (entry i1 max (S k)) max).
Proof.
  intros Hk. unfold inc, entry; simpl.
  destruct (Nat.ltb_spec k max); [|lia].
  rewrite mod_succ by lia. now rewrite Nat.add_succ_r.
Qed.

Lemma dec_entry i1 max k : 0 < max ->
  dec (It (entry i1 max (S k)) max) = Ok (It (entry i1 max k) max).
Proof.
  intros Hk. unfold dec, entry; simpl.
  destruct (Nat.ltb_spec 0 (S k)); [|lia].
  rewrite Nat.add_succ_r, mod_pred by lia. now rewrite Nat.sub_0_r.
Qed.

Lemma forward_from i1 i2 size max n : forall k fuel,
  k + n = size -> size <= max -> n < fuel ->
  for_loop (fun it => Ok (deref it)) inc fuel (It (entry i1 max k) max) (It (CI size i2) max)
  = Ok (Some (map (entry i1 max) (seq k n))).
Proof.
  induction n as [|n IH]; intros k fuel Hk Hs Hf; (destruct fuel as [|fuel]; [lia|]).
  - simpl. unfold eq_iter; simpl. rewrite Nat.eqb_refl. simpl.
    replace (k =? size) with true by (symmetry; apply Nat.eqb_eq; lia). reflexivity.
  - cbn [for_loop]. unfold eq_iter at 1; simpl zerobased; simpl imax. rewrite Nat.eqb_refl. cbn [bind].
    replace (k =? size) with false by (symmetry; apply Nat.eqb_neq; lia).
    rewrite inc_entry by lia. cbn [bind].
    rewrite IH by lia. reflexivity.
Qed.

Lemma forward_all size i1 i2 max fuel :
  i1 < max -> size <= max -> size < fuel ->
  for_range fuel (Range size i1 i2 max) =
  Ok (Some (map (fun k => CI k ((i1 + k) mod max)) (seq 0 size))).
Proof.
  intros Hi Hs Hf. unfold for_range, rg_begin, rg_end; simpl.
  replace (CI 0 i1) with (entry i1 max 0).
  2: { unfold entry. rewrite Nat.add_0_r, Nat.mod_small by lia. reflexivity. }
  now apply forward_from.
Qed.

Lemma backward_from i1 max n : forall fuel,
  n <= max -> 0 < max -> n < fuel ->
  for_loop rderef rinc fuel (It (entry i1 max n) max) (It (entry i1 max 0) max)
  = Ok (Some (rev (map (entry i1 max) (seq 0 n)))).
Proof.
  induction n as [|n IH]; intros fuel Hs Hm Hf; (destruct fuel as [|fuel]; [lia|]).
  - simpl. unfold eq_iter; simpl. rewrite Nat.eqb_refl. reflexivity.
  - cbn [for_loop]. unfold eq_iter at 1; simpl zerobased; simpl imax. rewrite Nat.eqb_refl. cbn [bind].
    replace (S n =? 0) with false by reflexivity.
    unfold rderef, rinc. rewrite dec_entry by lia. cbn [bind].
    rewrite IH by lia. cbn [bind option_map].
    rewrite seq_S, map_app, rev_app_distr. reflexivity.
Qed.

Lemma backward_all size i1 i2 max fuel :
  i1 < max -> size <= max -> i2 = (i1 + size) mod max -> size < fuel ->
  for_range_rev fuel (Range size i1 i2 max) =
  Ok (Some (rev (map (fun k => CI k ((i1 + k) mod max)) (seq 0 size)))).
Proof.
  intros Hi Hs -> Hf. unfold for_range_rev, rg_rbegin, rg_rend, rg_begin, rg_end; simpl.
  replace (CI 0 i1) with (entry i1 max 0).
  2: { unfold entry. rewrite Nat.add_0_r, Nat.mod_small by lia. reflexivity. }
  apply (backward_from i1 max size); lia.
Qed.

Lemma nodup_circular size i1 max : size <= max -> i1 < max ->
  NoDup (map circular (map (fun k => CI k ((i1 + k) mod max)) (seq 0 size))).
Proof.
  intros Hs Hi. rewrite map_map. simpl.
  assert (H : forall n s, s + n <= max ->
      NoDup (map (fun k => (i1 + k) mod max) (seq s n))).
  { induction n as [|n IH]; intros s Hsn; simpl; constructor.
    - intros Hin. apply in_map_iff in Hin as (k & Hk & Hks). apply in_seq in Hks.
      assert (Hd : exists d, k = s + d /\ 0 < d < max) by (exists (k - s); lia).
      destruct Hd as (d & -> & Hd).
      pose proof (Nat.div_mod (i1 + s) max ltac:(lia)) as E1.
      pose proof (Nat.div_mod (i1 + (s + d)) max ltac:(lia)) as E2.
      rewrite Hk in E2.
      assert (Hdd : d = max * ((i1 + (s + d)) / max - (i1 + s) / max)).
      { rewrite Nat.mul_sub_distr_l. lia. }
      destruct ((i1 + (s + d)) / max - (i1 + s) / max) as [|q]; nia.
    - apply IH; lia. }
  apply H; lia.
Qed.

Lemma inc_dec z c max : z < max -> c < max ->
  exists it', inc (It (CI z c) max) = Ok it' /\ dec it' = Ok (It (CI z c) max) /\ 
              circular (ind it') < max.
Proof.
  intros Hz Hc. unfold inc; simpl.
  destruct (Nat.ltb_spec z max); [|lia]. eexists; split; [reflexivity|].
  unfold dec; simpl. destruct (Nat.ltb_spec 0 (S z)); [|lia].
  destruct (Nat.eqb_spec (c + 1) max).
  - replace (0 =? 0) with true by reflexivity. split; [do 3 f_equal; lia|lia].
  - destruct (Nat.eqb_spec (c + 1) 0); [lia|]. split; [do 3 f_equal; lia|lia].
Qed.

Lemma dec_inc z c max : 0 < z <= max -> c < max ->
  exists it', dec (It (CI z c) max) = Ok it' /\ inc it' = Ok (It (CI z c) max) /\
              circular (ind it') < max.
Proof.
  intros Hz Hc. unfold dec; simpl.
  destruct (Nat.ltb_spec 0 z); [|lia]. eexists; split; [reflexivity|].
  unfold inc; simpl. destruct (Nat.ltb_spec (z - 1) max); [|lia].
  destruct (Nat.eqb_spec c 0).
  - subst. destruct (Nat.eqb_spec (max - 1 + 1) max); [|lia]. split; [do 3 f_equal; lia|lia].
  - destruct (Nat.eqb_spec (c - 1 + 1) max); [lia|]. split; [do 3 f_equal; lia|lia].
Qed.

Lemma forward_nodup size i1 i2 max fuel l :
  i1 < max -> size <= max -> size < fuel ->
  for_range fuel (Range size i1 i2 max) = Ok (Some l) ->
  NoDup (map circular l) /\ Forall (fun x => circular x < max) l /\ length l = size.
Proof.
  intros Hi Hs Hf H. rewrite forward_all in H by assumption. injection H as <-.
  split; [now apply nodup_circular|]. split.
  - apply Forall_forall. intros x Hx. apply in_map_iff in Hx as (k & <- & _). simpl.
    apply Nat.mod_upper_bound. lia.
  - now rewrite map_length, seq_length.
Qed.
