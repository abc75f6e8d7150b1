(** C69, C96: the floating-point formats are those of IEEE 754 (and x87), with the smallest number of digits that
    always suffices. *)
From Verif Require Import Base FloatIO_Model FloatStr_Model.
Local Open Scope Z_scope.
(** A format with [k] exponent bits and [p] significant bits *)
Definition ieee (k p : Z) (f : format) : Prop := prec f = p /\ emax f = 2 ^ (k - 1) /\ emin f = 3 - emax f - prec f.
(** std::numeric_limits<T>::max_digits10: the smallest d with 2^p < 10^(d - 1) *)
Definition digits10 (f : format) : Prop :=
  2 ^ prec f < 10 ^ (Z.of_nat (max_digits10 f) - 1) /\ forall d, 1 <= d -> 2 ^ prec f < 10 ^ (d - 1) -> Z.of_nat (max_digits10 f) <= d.
Theorem C69_ieee_formats :
  (ieee 11 53 binary64 /\ ieee 8 24 binary32 /\ ieee 5 11 binary16 /\ ieee 8 8 bfloat16) /\
  digits10 binary64 /\ digits10 binary32 /\ digits10 binary16 /\ digits10 bfloat16.
Proof.
  assert (D : forall f, 2 ^ prec f < 10 ^ (Z.of_nat (max_digits10 f) - 1) -> 10 ^ (Z.of_nat (max_digits10 f) - 2) <= 2 ^ prec f -> digits10 f).
  { intros f A B. split; [exact A|]. intros d Hd L. apply Znot_gt_le. intros G.
    assert (10 ^ (d - 1) <= 10 ^ (Z.of_nat (max_digits10 f) - 2)) by (apply Z.pow_le_mono_r; lia). lia. }
  split; [unfold ieee; repeat split|]. split; [|split; [|split]]; apply D; vm_compute; (reflexivity || discriminate).
Qed.
Print Assumptions C69_ieee_formats.
Theorem C96_ieee_formats : ieee 15 64 x87 /\ ieee 15 113 binary128 /\ digits10 x87 /\ digits10 binary128.
Proof.
  assert (D : forall f, 2 ^ prec f < 10 ^ (Z.of_nat (max_digits10 f) - 1) -> 10 ^ (Z.of_nat (max_digits10 f) - 2) <= 2 ^ prec f -> digits10 f).
  { intros f A B. split; [exact A|]. intros d Hd L. apply Znot_gt_le. intros G.
    assert (10 ^ (d - 1) <= 10 ^ (Z.of_nat (max_digits10 f) - 2)) by (apply Z.pow_le_mono_r; lia). lia. }
  split; [unfold ieee; repeat split|]. split; [unfold ieee; repeat split|]. split; apply D; vm_compute; (reflexivity || discriminate).
Qed.
Print Assumptions C96_ieee_formats.
