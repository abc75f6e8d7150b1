(** C12, C14: buffers of fewer than three bytes. *)
From Verif Require Import Base Streambuf_Model Streambuf_Spec Streambuf_Proofs.
Local Open Scope outcome_scope.

(** Writing a four-byte code point with one call to a buffer of less than three bytes is undefined, however much memory is accessible
    behind the buffer: the pending bytes do not fit, pptr() is then behind epptr(), and the number of free bytes is negative. *)
Theorem C14_small_buffers_refuted : forall N slack a b c d, N < 3 -> code_point [a; b; c; d] -> run [Write [a; b; c; d]] (create N slack) = UB.
Proof.
  intros N slack a b c d HN CP.
  assert (A : (240 <= a <= 244)%Z /\ (128 <= b <= 191)%Z /\ (128 <= c <= 191)%Z) by (inversion CP; subst; unfold cont in *; lia). destruct A as (A & B & C). clear CP.
  assert (Asc : forall x, (128 <= x <= 255)%Z -> is_ascii x = false).
  { intros x Hx. assert (K := by_bytes (fun x => implb (128 <=? x)%Z (negb (is_ascii x))) x ltac:(vm_compute; reflexivity) ltac:(lia)). cbv beta in K. rewrite (proj2 (Z.leb_le _ _)) in K by lia. now apply negb_true_iff. }
  assert (Ld : is_leading a = true).
  { assert (K := by_bytes (fun x => implb ((240 <=? x) && (x <=? 244))%Z (is_leading x)) a ltac:(vm_compute; reflexivity) ltac:(lia)). cbv beta in K. rewrite (proj2 (Z.leb_le _ _)), (proj2 (Z.leb_le a 244)) in K by lia. exact K. }
  assert (Nl : forall x, (128 <= x <= 191)%Z -> is_leading x = false).
  { intros x Hx. assert (K := by_bytes (fun x => implb ((128 <=? x) && (x <=? 191))%Z (negb (is_leading x))) x ltac:(vm_compute; reflexivity) ltac:(lia)). cbv beta in K. rewrite (proj2 (Z.leb_le _ _)), (proj2 (Z.leb_le x 191)) in K by lia. now apply negb_true_iff. }
  assert (L2 : is_leading_2b a = false) by (apply Z.leb_gt; lia). assert (L3 : is_leading_3b a = false) by (apply Z.leb_gt; lia).
  assert (Ha : is_ascii a = false) by (apply Asc; lia). assert (Hb : is_ascii b = false) by (apply Asc; lia). assert (Hc : is_ascii c = false) by (apply Asc; lia). assert (Nb := Nl b B). assert (Nc := Nl c C).
  assert (R1 : utf8_remainder [a] = 1) by (unfold utf8_remainder; cbn [nth]; rewrite Ha; cbn [firstn find_if]; rewrite Ld; reflexivity).
  assert (R2 : utf8_remainder [b; a] = 2) by (unfold utf8_remainder; cbn [nth]; rewrite Hb; cbn [firstn find_if]; rewrite Nb, Ld; cbn [length Nat.eqb nth]; now rewrite L2).
  assert (R3 : utf8_remainder [c; b; a] = 3) by (unfold utf8_remainder; cbn [nth]; rewrite Hc; cbn [firstn find_if]; rewrite Nc, Nb, Ld; cbn [length Nat.eqb nth]; now rewrite L3).
  clear - HN R1 R2 R3.
  unfold run, step. set (M := repeat 0%Z (N + slack)). assert (LM : length M = N + slack) by apply repeat_length. change (create N slack) with (Sb M N 0 []). clearbody M.
  destruct N as [|[|[|N]]]; [| | |lia].
  - destruct M as [|m0 M]; [reflexivity|]. cbn [length xsputn cap pp mem Nat.ltb Nat.leb Nat.sub Nat.min firstn skipn].
    unfold store_n at 1. cbn [pp mem length Nat.add Nat.leb bind firstn skipn app cap out]. unfold overflow at 1, store1 at 1. cbn [pp mem length Nat.ltb Nat.leb bind upd cap out].
    unfold sync_ at 1. cbn [pp mem Nat.eqb firstn rev app]. rewrite R1. reflexivity.
  - destruct M as [|m0 [|m1 M]]; [discriminate LM|reflexivity|]. cbn [length xsputn cap pp mem Nat.ltb Nat.leb Nat.sub Nat.min firstn skipn].
    unfold store_n at 1. cbn [pp mem length Nat.add Nat.leb bind firstn skipn app cap out]. unfold overflow at 1, store1 at 1. cbn [pp mem length Nat.ltb Nat.leb bind upd cap out].
    unfold sync_ at 1. cbn [pp mem Nat.eqb firstn rev app]. rewrite R2. reflexivity.
  - destruct M as [|m0 [|m1 [|m2 M]]]; [discriminate LM|discriminate LM|reflexivity|]. cbn [length xsputn cap pp mem Nat.ltb Nat.leb Nat.sub Nat.min firstn skipn].
    unfold store_n at 1. cbn [pp mem length Nat.add Nat.leb bind firstn skipn app cap out]. unfold overflow at 1, store1 at 1. cbn [pp mem length Nat.ltb Nat.leb bind upd cap out].
    unfold sync_ at 1. cbn [pp mem Nat.eqb firstn rev app]. rewrite R3. reflexivity.
Qed.
Print Assumptions C14_small_buffers_refuted.

(** Characters written one by one are neither lost nor reordered by small buffers, if there is memory to write to: up to four bytes from the
    start of the buffer. *)
Definition single (o : op) : Prop := match o with Write _ => False | _ => True end.
Theorem C12_small_buffers : forall N slack ops, N < 3 -> 4 <= N + slack -> Forall single ops ->
  exists s, run ops (create N slack) = Ok s /\ concat (out s) ++ buffered s = written ops /\ length (buffered s) <= 3.
Proof.
  intros N slack ops HN HL F.
  assert (G : forall s, cap s = N -> length (mem s) = N + slack -> pp s <= 3 -> exists s', run ops s = Ok s' /\ concat (out s') ++ buffered s' = (concat (out s) ++ buffered s) ++ written ops /\ length (buffered s') <= 3).
  { induction F as [|o ops Ho F IH]; intros s Cs Ms Ps.
    - exists s. unfold written. cbn. rewrite app_nil_r. split; [reflexivity|]. split; [reflexivity|]. unfold buffered. rewrite firstn_length. lia.
    - change (written (o :: ops)) with (written1 o ++ written ops). cbn [run].
      assert (S1 : exists s1, step o s = Ok s1 /\ cap s1 = N /\ length (mem s1) = N + slack /\ pp s1 <= 3 /\ concat (out s1) ++ buffered s1 = (concat (out s) ++ buffered s) ++ written1 o).
      { destruct o as [c|d|]; [|destruct Ho|]; cbn [step written1].
        - destruct (store1_ok c s ltac:(lia)) as (s1 & E & I1 & C1 & M1 & P1 & O1 & B1). unfold sputc. destruct (Nat.ltb_spec (pp s) (cap s)) as [L|L].
          + exists s1. rewrite E. split; [reflexivity|]. split; [congruence|]. split; [congruence|]. split; [lia|]. now rewrite O1, B1, app_assoc.
          + unfold overflow. rewrite E. cbn [bind]. exists (sync_ s1). destruct (sync_spec s1 I1) as (_ & C2 & M2 & _). split; [reflexivity|]. split; [congruence|]. split; [congruence|]. split; [now apply sync_pp|].
            pose proof (sync_keeps s1 I1) as K. unfold delivered in K. rewrite K, O1, B1. now rewrite app_assoc.
        - assert (I : inv s) by (unfold inv; lia). exists (sync_ s). destruct (sync_spec s I) as (_ & C2 & M2 & _). split; [reflexivity|]. split; [congruence|]. split; [congruence|]. split; [now apply sync_pp|].
          pose proof (sync_keeps s I) as K. unfold delivered in K. now rewrite K, app_nil_r. }
      destruct S1 as (s1 & E1 & C1 & M1 & P1 & K1). rewrite E1. cbn [bind]. destruct (IH s1 C1 M1 P1) as (s2 & E2 & K2 & L2). exists s2. split; [exact E2|]. split; [|exact L2]. rewrite K2, K1. now rewrite <- app_assoc. }
  destruct (G (create N slack)) as (s & E & K & L); [reflexivity|apply repeat_length|cbn; lia|]. exists s. split; [exact E|]. split; [|exact L]. rewrite K. reflexivity.
Qed.
Print Assumptions C12_small_buffers.
Example C14_small_nonvacuous : code_point [240; 159; 166; 153]%Z /\ Forall single [Put 240; Put 159; Flush; Put 166; Put 153]%Z /\
  run [Put 240; Put 159; Flush; Put 166; Put 153]%Z (create 1 3) = Ok (Sb [240; 159; 166; 153]%Z 1 0 [[240; 159; 166; 153]%Z]).
Proof. split; [apply cp4_F0; unfold cont; lia|]. split; [repeat constructor|reflexivity]. Qed.
