(** What a user is told about a malformed duration (C110). *)
From Verif Require Import Base Bytes Duration_Model Duration_Spec DurationReport_Model.
Local Open Scope Z_scope.

(** A decimal number, of any size, starts the string; [rest] follows it. *)
Definition numeral_at (s : list Z) (m e : Z) (rest : list Z) : Prop :=
  exists (neg : bool) u, s = (if neg then 45 :: u else u) /\ (neg = false -> ~ starts_with (eq 45) u) /\ unsigned_at u m e rest.

(** [describes typename message bad rep]: [bad] is the part of the argument from the first
    term that cannot be read, and [rep] is the exception about it. *)
Inductive describes (typename : list Z) (message : errc -> list Z) : list Z -> report -> Prop :=
| no_number blanks s :
    Forall blank blanks -> s <> [] -> ~ starts_with blank s ->
    (~ exists x rest, number_at s x rest) -> (~ exists m e rest, numeral_at s m e rest) ->
    describes typename message (blanks ++ s)
      (ValueError (bytes "Invalid value '" ++ s ++ bytes "' for type '" ++ typename ++ bytes "': " ++ message InvalidArgument) (length s) InvalidArgument)
| too_big blanks s m e rest :
    Forall blank blanks -> ~ starts_with blank s -> numeral_at s m e rest -> ~ in_range m e ->
    describes typename message (blanks ++ s)
      (ValueError (bytes "Invalid value '" ++ rest ++ bytes "' for type '" ++ typename ++ bytes "': " ++ message OutOfRange) (length rest) OutOfRange)
| bad_units s x units rest :
    first_term s x units rest -> (~ exists un ud, unit_period units un ud) ->
    describes typename message s
      (UnitsError (bytes "Invalid units '" ++ units ++ bytes "' for duration") (length units + length rest) (length units)).
