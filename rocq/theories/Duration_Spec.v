(** Specification side of C16-C18: what a duration string means, by grammar. *)
From Flocq Require Import Core.
From Coq Require Import Reals.
From Verif Require Import Base Bytes.
From Verif Require Import Duration_Model. (* only for the types number, target *)
Local Open Scope Z_scope.

Definition digit (c : Z) : Prop := 48 <= c <= 57.
Definition starts_with (P : Z -> Prop) (s : list Z) : Prop := exists c r, s = c :: r /\ P c.

(** A maximal run of digits: all digits, and no digit follows. *)
Definition run_of_digits (d rest : list Z) : Prop := Forall digit d /\ ~ starts_with digit rest.

(** Positional value. *)
Fixpoint value (d : list Z) : Z :=
  match d with [] => 0 | c :: d => (c - 48) * 10 ^ Z.of_nat (length d) + value d end.

(** An exponent: e or E, optional sign, digits. *)
Inductive exponent : list Z -> Z -> list Z -> Prop :=
| Exponent c sign d rest :
    c = 101 \/ c = 69 -> sign = [] \/ sign = [43] \/ sign = [45] -> d <> [] -> run_of_digits d rest ->
    exponent (c :: sign ++ d ++ rest) (if list_eq_dec Z.eq_dec sign [45] then - value d else value d) rest.

(** An unsigned decimal: digits, optionally a point and digits, at least one
    digit in all, optionally an exponent; everything as long as possible. It
    stands for m * 10^e. *)
Inductive unsigned_at : list Z -> Z -> Z -> list Z -> Prop :=
| Unsigned ip fp tail tail' e rest :
    run_of_digits ip tail ->
    (fp = [] /\ tail' = tail /\ ~ starts_with (eq 46) tail) \/ (tail = 46 :: fp ++ tail' /\ run_of_digits fp tail') ->
    ip ++ fp <> [] ->
    exponent tail' e rest \/ (e = 0 /\ rest = tail' /\ ~ exists e' r, exponent tail' e' r) ->
    unsigned_at (ip ++ tail) (value (ip ++ fp)) (e - Z.of_nat (length fp)) rest.

(** Case-insensitive prefix. *)
Definition same_letter (a b : Z) : Prop := b = a \/ (65 <= b <= 90 /\ b + 32 = a).
Definition spelled (word s rest : list Z) : Prop := exists p, s = p ++ rest /\ Forall2 same_letter word p.

(** The range of binary64: below 2^1024 - 2^970 after rounding, above 2^-1075 unless zero. *)
Definition in_range (m e : Z) : Prop :=
  (IZR m * powerRZ 10 e < bpow radix2 1024 - bpow radix2 970)%R /\
  (m = 0 \/ (bpow radix2 (-1075) < IZR m * powerRZ 10 e)%R).

(** What may follow nan: letters, digits and underscores in parentheses. *)
Definition word (c : Z) : Prop := digit c \/ 65 <= c <= 90 \/ 97 <= c <= 122 \/ c = 95.
Definition in_parentheses (tail rest : list Z) : Prop := exists w, tail = 40 :: w ++ 41 :: rest /\ Forall word w.

(** What is read as a number at the start of a string, and what is left. *)
Inductive number_at : list Z -> number -> list Z -> Prop :=
| Number neg s m e rest :
    unsigned_at s m e rest -> in_range m e -> (neg = false -> ~ starts_with (eq 45) s) ->
    number_at (if neg : bool then 45 :: s else s) (Dec neg m e) rest
| Infinity (neg : bool) word s rest :
    (word = bytes "infinity" \/ (word = bytes "inf" /\ ~ exists r, spelled (bytes "infinity") s r)) ->
    spelled word s rest ->
    number_at (if neg then 45 :: s else s) Inf rest
| Nan (neg : bool) s tail rest :
    spelled (bytes "nan") s tail ->
    in_parentheses tail rest \/ (rest = tail /\ ~ exists r, in_parentheses tail r) ->
    number_at (if neg then 45 :: s else s) NaN rest.

(** Separators between terms (a zero that starts a term is skipped with them). *)
Definition blank (c : Z) : Prop := In c (bytes "+0 ").
(** Characters that end the units. *)
Definition stop (c : Z) : Prop := In c (bytes "+-0123456789. ").

(** Units, as a fraction of seconds. *)
Inductive unit_period : list Z -> Z -> Z -> Prop :=
| u_none : unit_period [] 1 1
| u_s : unit_period (bytes "s") 1 1
| u_ms : unit_period (bytes "ms") 1 1000
| u_us : unit_period (bytes "us") 1 1000000
| u_mus : unit_period [194; 181; 115] 1 1000000 (* µs in UTF-8 *)
| u_ns : unit_period (bytes "ns") 1 1000000000
| u_min : unit_period (bytes "min") 60 1
| u_h : unit_period (bytes "h") 3600 1.

(** [first_term s x units rest]: after blanks, s has the number x, the units
    [units] and then [rest]. *)
Inductive first_term : list Z -> number -> list Z -> list Z -> Prop :=
| FirstTerm blanks s x units rest :
    Forall blank blanks -> ~ starts_with blank s -> number_at s x (units ++ rest) ->
    Forall (fun c => ~ stop c) units -> (rest = [] \/ starts_with stop rest) ->
    first_term (blanks ++ s) x units rest.

Section Sums.
(** [conv un ud x k]: x units of un/ud seconds are k ticks of the target. *)
Context (conv : Z -> Z -> number -> Z -> Prop).

(** The string is a sequence of terms with sum [total]. *)
Inductive sums : list Z -> Z -> Prop :=
| sums_blank s : Forall blank s -> sums s 0
| sums_term s x units un ud k rest total :
    first_term s x units rest -> unit_period units un ud -> conv un ud x k ->
    sums rest total -> sums s (k + total).

(** The string is a sequence of terms with sum [total] followed by a term
    without number, or with a number and unknown units. *)
Inductive bad_at : list Z -> Z -> exn -> Prop :=
| bad_value blanks s :
    Forall blank blanks -> s <> [] -> ~ starts_with blank s -> (~ exists x rest, number_at s x rest) ->
    bad_at (blanks ++ s) 0 invalid_duration_value
| bad_units s x units rest :
    first_term s x units rest -> (~ exists un ud, unit_period units un ud) ->
    bad_at s 0 invalid_duration_units
| bad_later s x units un ud k rest total e :
    first_term s x units rest -> unit_period units un ud -> conv un ud x k ->
    bad_at rest total e -> bad_at s (k + total) e.
End Sums.

(** Strings somebody would write: terms with separators (C18). A numeral is an
    optional minus sign, digits, and optionally a point and digits. *)
Record term := Term { seps : list Z; minus : bool; int_part : list Z; frac_part : option (list Z); units_ : list Z }.
Definition numeral (t : term) : list Z :=
  (if minus t then [45] else []) ++ int_part t ++ match frac_part t with Some f => 46 :: f | None => [] end.
Definition show (t : term) : list Z := seps t ++ numeral t ++ units_ t.
Definition sep (c : Z) : Prop := In c (bytes "+ ").
Definition term_ok (t : term) : Prop :=
  Forall sep (seps t) /\ int_part t <> [] /\ Forall digit (int_part t) /\
  (forall f, frac_part t = Some f -> Forall digit f) /\
  (exists un ud, unit_period (units_ t) un ud).
Definition term_number (t : term) : number :=
  let f := match frac_part t with Some f => f | None => [] end in
  Dec (minus t) (value (int_part t ++ f)) (- Z.of_nat (length f)).

(** A term without units needs a separator (or a minus sign) after it. *)
Fixpoint well_formed (ts : list term) : Prop :=
  match ts with
  | [] => True
  | t :: ts => term_ok t /\
      (units_ t = [] -> match ts with t' :: _ => seps t' <> [] \/ minus t' = true | [] => True end) /\
      well_formed ts
  end.
