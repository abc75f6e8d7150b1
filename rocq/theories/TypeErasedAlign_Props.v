(** C90: objects in TypeErased wrappers are aligned. *)
From Verif Require Import Base TypeErased_Spec TypeErased_Model TypeErased_Trace TypeErased_Inv TypeErased_Proofs
  TypeErased_Main TypeErased_Obs TypeErased_Final TypeErasedAlign_Model.

(** The object wrapper [i] owns has an address that is a multiple of its alignment. *)
Definition aligned {V} (alignof : nat -> nat) (address : loc -> nat) (s : @world V) (i t : nat) : Prop :=
  exists l, points_to s i l /\ Nat.divide (alignof t) (address l).

(** After any history, an owned object is in the small buffer of its wrapper if it fits
    there, and in a heap block otherwise. *)
Theorem C90_place :
  forall (V : Type) (P : settings) (ext : list (nat * V)) os rs s a i t v n,
    (forall t, 0 < sizeof P t) -> reached P ext os rs s a -> a_get a i = Some (AOwned t v, n) ->
    exists l, points_to s i l /\ if sizeof P t <=? sbs P then l = LSmall i else exists b, l = LHeap b.
Proof.
  intros V P ext os rs s a i t v n Hp H Hg. destruct (reached_inv P Hp ext os rs s a H) as [[I RR] _].
  destruct (R_get_inv s a i _ RR Hg) as (w & Hw & E). pose proof (inv_slot _ _ _ I i w Hw) as K.
  unfold slot_ok in K. unfold aview in E. destruct (self w) as [[b|j|e]|] eqn:Es.
  - destruct K as (_ & o & Ho & _ & Lt & _). rewrite Ho in E. injection E as -> _ _.
    exists (LHeap b). split; [apply points_iff; eauto|]. rewrite (proj2 (Nat.leb_gt _ _)) by exact Lt. eauto.
  - destruct K as (-> & o & Ho & _ & Le & _). rewrite Ho in E. injection E as -> _ _.
    exists (LSmall i). split; [apply points_iff; eauto|]. rewrite (proj2 (Nat.leb_le _ _)) by exact Le. reflexivity.
  - discriminate E.
  - discriminate E.
Qed.
Print Assumptions C90_place.

(** Aligned, if the alignment divides what the storage guarantees. *)
Theorem C90_aligned_partial :
  forall (V : Type) (P : settings) (alignof : nat -> nat) g address (ext : list (nat * V)) os rs s a i t v n,
    (forall t, 0 < sizeof P t) -> reached P ext os rs s a -> a_get a i = Some (AOwned t v, n) -> places g address ->
    Nat.divide (alignof t) (if sizeof P t <=? sbs P then g_buffer g else g_heap g) ->
    aligned alignof address s i t.
Proof.
  intros V P alignof g address ext os rs s a i t v n Hp H Hg [P1 P2] D.
  destruct (C90_place V P ext os rs s a i t v n Hp H Hg) as (l & Hl & Hk). exists l. split; [exact Hl|].
  destruct (sizeof P t <=? sbs P).
  - subst l. exact (Nat.divide_trans _ _ _ D (P1 i)).
  - destruct Hk as (b & ->). exact (Nat.divide_trans _ _ _ D (P2 b)).
Qed.
Print Assumptions C90_aligned_partial.

Lemma points_unique {V} (s : @world V) i l l' : points_to s i l -> points_to s i l' -> l = l'.
Proof. rewrite !points_iff. intros (w & E & E1) (w' & E' & E1'). congruence. Qed.

(** Exactly then: a type is aligned in every history and at all addresses the storage may
    have if and only if its alignment divides the storage's guarantee. *)
Theorem C90_exact :
  forall (V : Type) (P : settings) (alignof : nat -> nat) g (v0 : V) t,
    (forall t, 0 < sizeof P t) ->
    ((forall address (ext : list (nat * V)) os rs s a i v n,
        reached P ext os rs s a -> a_get a i = Some (AOwned t v, n) -> places g address -> aligned alignof address s i t) <->
     Nat.divide (alignof t) (if sizeof P t <=? sbs P then g_buffer g else g_heap g)).
Proof.
  intros V P alignof g v0 t Hp. split.
  - intros H.
    set (os := [OVal false 0 t v0 FNone]). set (a := AState [Some (AOwned t v0, 0)] ([] : list (nat * V))).
    assert (Hr : a_run P (AState [] []) os [Done] a) by (econstructor; [reflexivity|constructor]).
    destruct (te_run_exists P Hp [] os [Done] a Hr) as (s & Hs); [repeat constructor|].
    set (address := fun l : loc => match l with LSmall _ => g_buffer g | LHeap _ => g_heap g | LExt _ => 0 end).
    destruct (H address [] os [Done] s a 0 v0 0 Hs eq_refl) as (l & Hl & D).
    { split; intros; apply Nat.divide_refl. }
    destruct (C90_place V P [] os [Done] s a 0 t v0 0 Hp Hs eq_refl) as (l' & Hl' & Hk).
    rewrite (points_unique s 0 l l' Hl Hl') in D. destruct (sizeof P t <=? sbs P).
    + subst l'. exact D.
    + destruct Hk as (b & ->). exact D.
  - intros D address ext os rs s a i v n H Hg Hpl. exact (C90_aligned_partial V P alignof g address ext os rs s a i t v n Hp H Hg Hpl D).
Qed.
Print Assumptions C90_exact.

(** So it is false in general: with std::allocator for types aligned to 32 bytes, in the
    buffer and on the heap; with a polymorphic allocator already for a type aligned to 8
    bytes that does not fit in the buffer. *)
Theorem C90_refuted :
  exists (P : settings) (alignof : nat -> nat), (forall t, 0 < sizeof P t /\ Nat.divide (alignof t) (sizeof P t)) /\
    (exists address s a i v n, places std_allocator address /\ reached P [] [OVal false 0 0 5 FNone] [Done] s a /\
       a_get a i = Some (AOwned 0 v, n) /\ ~ aligned alignof address s i 0) /\
    (exists address s a i v n, places std_allocator address /\ reached P [] [OVal false 0 1 5 FNone] [Done] s a /\
       a_get a i = Some (AOwned 1 v, n) /\ ~ aligned alignof address s i 1) /\
    (exists address s a i v n, places pmr_allocator address /\ reached P [] [OVal false 0 2 5 FNone] [Done] s a /\
       a_get a i = Some (AOwned 2 v, n) /\ alignof 2 = 8 /\ ~ aligned alignof address s i 2).
Proof.
  set (P := Settings (fun t => match t with 0 => 32 | 1 => 128 | _ => 96 end) 64 false false (fun a => a)).
  set (al := fun t => match t with 0 => 32 | 1 => 32 | _ => 8 end).
  assert (Hp : forall t, 0 < sizeof P t) by (intros [|[|t]]; cbn; lia).
  exists P, al. split.
  { intros [|[|t]]; cbn; (split; [lia|]); [exists 1|exists 4|exists 12]; reflexivity. }
  assert (G : forall t, t < 3 -> exists s, reached P [] [OVal false 0 t 5 FNone] [Done] s (AState [Some (AOwned t 5, 0)] [])).
  { intros t Ht. apply (te_run_exists P Hp [] [OVal false 0 t 5 FNone] [Done]); [|repeat constructor]. econstructor; [reflexivity|constructor]. }
  assert (N : forall g address s t, t < 3 -> reached P [] [OVal false 0 t 5 FNone] [Done] s (AState [Some (AOwned t 5, 0)] []) ->
    places g address -> (if sizeof P t <=? sbs P then address (LSmall 0) mod al t <> 0 else forall b, address (LHeap b) mod al t <> 0) -> ~ aligned al address s 0 t).
  { intros g address s t Ht H Hpl Ha (l & Hl & D).
    destruct (C90_place nat P [] _ _ s _ 0 t 5 0 Hp H eq_refl) as (l' & Hl' & Hk).
    rewrite (points_unique s 0 l l' Hl Hl') in D. apply Nat.mod_divide in D; [|destruct t as [|[|t]]; cbn; lia].
    destruct (sizeof P t <=? sbs P); [subst l'; exact (Ha D)|]. destruct Hk as (b & ->). exact (Ha b D). }
  assert (W : forall address (g : guarantees) t, t < 3 -> places g address -> (if sizeof P t <=? sbs P then address (LSmall 0) mod al t <> 0 else forall b, address (LHeap b) mod al t <> 0) ->
    exists address s a i v n, places g address /\ reached P [] [OVal false 0 t 5 FNone] [Done] s a /\
       a_get a i = Some (AOwned t v, n) /\ ~ aligned al address s i t).
  { intros address g t Ht Hpl Ha. destruct (G t Ht) as (s & Hs). exists address, s, (AState [Some (AOwned t 5, 0)] []), 0, 5, 0.
    split; [exact Hpl|]. split; [exact Hs|]. split; [reflexivity|]. exact (N g address s t Ht Hs Hpl Ha). }
  assert (P1 : places std_allocator (fun _ => 16)) by (split; intros; exists 1; reflexivity).
  split; [|split].
  - apply (W (fun _ => 16) std_allocator 0 ltac:(lia) P1). cbn. discriminate.
  - apply (W (fun _ => 16) std_allocator 1 ltac:(lia) P1). cbn. discriminate.
  - destruct (W (fun l => match l with LHeap _ => 1 | LSmall _ => 16 | LExt _ => 0 end) pmr_allocator 2 ltac:(lia)) as (ad & s & a & i & v & n & H1 & H2 & H3 & H4).
    + split; intros; exists 1; reflexivity.
    + cbn. discriminate.
    + exists ad, s, a, i, v, n. split; [exact H1|]. split; [exact H2|]. split; [exact H3|]. split; [reflexivity|exact H4].
Qed.
Print Assumptions C90_refuted.

(** The usual types (alignment at most 16) with std::allocator, small and large. *)
Example C90_nonvacuous :
  exists s a, reached (Settings (fun t => match t with 0 => 16 | _ => 800 end) 64 false false (fun a => a)) []
    [OVal false 0 0 5 FNone; OVal false 0 1 6 FNone; OMove 1 None false; OCopy 0 None FNone]
    [Done; Done; Done; Done] s a /\
    a_get a 2 = Some (AOwned 1 6, 0) /\ a_get a 3 = Some (AOwned 0 5, 0) /\
    places std_allocator (fun l => match l with LHeap b => 16 + 800 * b | LSmall i => 96 * i | LExt _ => 0 end).
Proof.
  set (P := Settings (fun t => match t with 0 => 16 | _ => 800 end) 64 false false (fun a => a)).
  assert (Hp : forall t, 0 < sizeof P t) by (intros [|t]; cbn; lia).
  destruct (te_run_exists P Hp ([] : list (nat * nat)) [OVal false 0 0 5 FNone; OVal false 0 1 6 FNone; OMove 1 None false; OCopy 0 None FNone]
    [Done; Done; Done; Done]
    (AState [Some (AOwned 0 5, 0); Some (AEmpty, 0); Some (AOwned 1 6, 0); Some (AOwned 0 5, 0)] [])) as (s & Hs).
  - repeat (econstructor; [reflexivity|]). constructor.
  - repeat constructor.
  - exists s. eexists. split; [exact Hs|]. split; [reflexivity|]. split; [reflexivity|]. split.
    + intros i. exists (6 * i). cbn [std_allocator g_buffer]. lia.
    + intros b. exists (1 + 50 * b). cbn [std_allocator g_heap]. lia.
Qed.
