(** What C69 talks about: the numbers of a floating-point format. *)
From Flocq Require Import Core.
From Coq Require Import Reals.
From Verif Require Import Base FloatIO_Model. (* for the types format, fp *)
Local Open Scope Z_scope.

(** A nonnegative real number of the format: m * 2^e with m below 2^prec. *)
Definition representable (fmt : format) (x : R) : Prop :=
  (0 <= x < IZR 2 ^ Z.to_nat (emax fmt))%R /\
  exists m e, x = (IZR m * powerRZ 2 e)%R /\ 0 <= m < 2 ^ prec fmt /\ emin fmt <= e.
Definition value_in (fmt : format) (v : fp) : Prop :=
  match v with Fin _ x => representable fmt x | _ => True end.
(** Formats that are not larger than double, and whose max_digits10 is large enough. *)
Definition supported (fmt : format) : Prop :=
  2 <= prec fmt <= 53 /\ -1074 <= emin fmt /\ 0 <= emax fmt <= 1024 /\ emin fmt + prec fmt <= emax fmt /\
  2 ^ prec fmt < 10 ^ Z.of_nat (max_digits10 fmt) /\ (max_digits10 fmt <= 50)%nat.
