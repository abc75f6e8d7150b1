(** What C81 talks about. *)
From Flocq Require Import Core.
From Coq Require Import Reals.
From Verif Require Import Base Duration_Spec FloatIO_Model FloatIO_Spec.
Local Open Scope Z_scope.

(** Formats up to quadruple precision whose max_digits10 is large enough. *)
Definition wide (fmt : format) : Prop :=
  2 <= prec fmt <= 113 /\ -16494 <= emin fmt /\ 0 <= emax fmt <= 16384 /\ emin fmt + prec fmt <= emax fmt /\
  2 ^ prec fmt < 10 ^ Z.of_nat (max_digits10 fmt) /\ (max_digits10 fmt <= 50)%nat.
(** m * 10^(e - p) is a decimal with p digits behind the first one that is nearest
    to x: at most half a unit of the last digit away; the first digit is not zero
    unless x is. *)
Definition nearest_decimal (p : Z) (x : R) (m e : Z) : Prop :=
  (Rabs (IZR m * powerRZ 10 (e - p) - x) <= / 2 * powerRZ 10 (e - p))%R /\
  (x = 0%R /\ m = 0 /\ e = 0 \/ 10 ^ p <= m < 10 ^ (p + 1)).
(** The largest precision for which sign, digits, point and exponent fit into 64
    characters. *)
Definition room (e : Z) : Z := if Z.abs e <? 100 then 57 else if Z.abs e <? 1000 then 56 else 55.
(** A negative precision means 6. *)
Definition digits_behind (precision : Z) : Z := if precision <? 0 then 6 else precision.
