(** What C96 talks about. *)
From Flocq Require Import Core.
From Coq Require Import Reals.
From Verif Require Import Base Bytes Duration_Spec FloatIO_Model FloatIO_Spec.
Local Open Scope Z_scope.

(** The nearest number of the format to a nonnegative a (ties to even). *)
Definition nearest (fmt : format) (a : R) : R := Generic_fmt.round radix2 (FLT_exp (emin fmt) (prec fmt)) ZnearestE a.
(** The half-way point between the largest number of the format and 2^emax, and half the smallest one. *)
Definition largest (fmt : format) : R := (powerRZ 2 (emax fmt) - powerRZ 2 (emax fmt - prec fmt - 1))%R.
Definition smallest (fmt : format) : R := powerRZ 2 (emin fmt - 1).
(** [reads_as fmt s v rest]: a number of the format, at the start of s. *)
Inductive reads_as (fmt : format) : list Z -> fp -> list Z -> Prop :=
| ReadsNumber neg s m e rest :
    unsigned_at s m e rest -> (neg = false -> ~ starts_with (eq 45) s) ->
    (IZR m * powerRZ 10 e < largest fmt)%R -> m = 0 \/ (smallest fmt < IZR m * powerRZ 10 e)%R ->
    reads_as fmt (if neg : bool then 45 :: s else s) (Fin neg (nearest fmt (IZR m * powerRZ 10 e))) rest
| ReadsInfinity (neg : bool) word s rest :
    (word = bytes "infinity" \/ (word = bytes "inf" /\ ~ exists r, spelled (bytes "infinity") s r)) ->
    spelled word s rest -> reads_as fmt (if neg then 45 :: s else s) (Infty neg) rest
| ReadsNan (neg : bool) s tail rest :
    spelled (bytes "nan") s tail ->
    in_parentheses tail rest \/ (rest = tail /\ ~ exists r, in_parentheses tail r) ->
    reads_as fmt (if neg then 45 :: s else s) (Nan neg) rest.
