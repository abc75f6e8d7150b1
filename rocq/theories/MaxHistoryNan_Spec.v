(** What the maximum of a sliding window means for a type with values that are not numbers; independent of the model. *)
From Verif Require Import Base MaxHistory_Spec.

Section Spec.
Context {T : Type} (nan : T -> bool) (ltb gtb eqb : T -> T -> bool).

(** The comparisons of IEEE floating-point numbers: comparisons with a NaN are false, the other values are ordered. *)
Record float_order : Prop := {
  nan_l : forall a b, nan a = true -> ltb a b = false;
  nan_r : forall a b, nan b = true -> ltb a b = false;
  f_irrefl : forall a, ltb a a = false;
  f_trans : forall a b c, ltb a b = true -> ltb b c = true -> ltb a c = true;
  f_weak : forall a b c, nan b = false -> ltb a b = false -> ltb b c = false -> ltb a c = false;
  f_gt : forall a b, gtb a b = ltb b a;
  f_eq : forall a b, eqb a b = true <-> nan a = false /\ nan b = false /\ ltb a b = false /\ ltb b a = false
}.

(** The numbers among the values *)
Definition numbers (l : list T) : list T := filter (fun x => negb (nan x)) l.

(** The maximum has to be searched again when value number [j] is added: the value that leaves the window was the
    maximum [m] and the new one is not larger. *)
Definition searched (n : nat) (xs : list T) (j : nat) : Prop :=
  exists x old m, n <= j /\ nth_error xs j = Some x /\ nth_error xs (j - n) = Some old /\
    is_max ltb m (numbers (window n (firstn j xs))) /\ eqb old m = true /\ gtb x m = false.

(** At that moment the window, [j] included, contains a NaN whose number is a multiple of [n]. *)
Definition nan_in_front (n : nat) (xs : list T) (j : nat) : Prop :=
  exists k y, k mod n = 0 /\ k <= j < k + n /\ nth_error xs k = Some y /\ nan y = true.

(** The first value is a NaN, or the maximum is searched again with a NaN in front. *)
Definition poisoned (n : nat) (xs : list T) : Prop :=
  (exists x, nth_error xs 0 = Some x /\ nan x = true) \/
  (exists j, searched n xs j /\ nan_in_front n xs j).
End Spec.
