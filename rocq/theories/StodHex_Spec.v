(** Hexadecimal floating-point texts of the C library: 0x1.8p3 is 12. *)
From Verif Require Import Base Duration_Spec Stod_Spec.
Local Open Scope Z_scope.
(** Hexadecimal digits and the number they denote *)
Inductive hex_text : list Z -> Z -> Prop :=
| ht_none : hex_text [] 0
| ht_more ds v c d : hex_text ds v -> hex_digit c d -> hex_text (ds ++ [c]) (16 * v + d).
(** The exponent: p or P, perhaps a sign, decimal digits; or nothing, then it is zero. *)
Inductive binary_exponent : list Z -> Z -> Prop :=
| be_none : binary_exponent [] 0
| be_some p sign ds : p = 112 \/ p = 80 -> sign = [] \/ sign = [43] \/ sign = [45] -> ds <> [] -> Forall Duration_Spec.digit ds ->
    binary_exponent (p :: sign ++ ds) (if match sign with [45] => true | _ => false end then - Duration_Spec.value ds else Duration_Spec.value ds).
(** Text that does not continue the number: *)
Definition ends_number (has_point has_exponent : bool) (rest : list Z) : Prop :=
  if has_exponent then ~ starts_with Duration_Spec.digit rest
  else ~ starts_with is_hex rest /\ ~ starts_with (fun c => c = 112 \/ c = 80) rest /\ (has_point = false -> ~ starts_with (eq 46) rest).
