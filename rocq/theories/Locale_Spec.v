(** Decimal points of locales. *)
From Verif Require Import Base Csv_Numbers FromChars_Model.
Local Open Scope Z_scope.
(** A point that cannot be mistaken for another part of a number, nor for white space: the point of the C
    locale, a comma, ... *)
Definition decimal_point (dp : Z) : Prop := dp = 46 \/ (number_char dp = false /\ isspace dp = false).
(** The same text for another locale: the two points exchanged. *)
Definition exchange (dp c : Z) : Z := if c =? dp then 46 else if c =? 46 then dp else c.
