(** Model of float_to_str_vw (src/src/print.cpp:15-50, 76-79), float_to_str and
    print_elem for floating-point and complex numbers (implementation/print.tpp:13-34)
    and of what std::from_chars gives csv_read for them.

    Numbers are real numbers of the format, with a sign (there are two zeros), infinities
    and nans. std::to_chars is the standard library's: the correctly rounded decimal (ties
    to even) in scientific notation. Not modelled: the snprintf fallbacks (52-72), which
    are only compiled if std::to_chars is missing, and payloads of nans. *)
From Flocq Require Import Core.
From Coq Require Import Reals.
From Verif Require Import Base Bytes Duration_Model Csv_Numbers Print_Model.
Local Open Scope Z_scope.

(** A binary format: precision, exponent of the smallest positive number, 2^emax is the
    first power of two that is too large; std::numeric_limits<F>::max_digits10. *)
Record format := Format { prec : Z; emin : Z; emax : Z; max_digits10 : nat }.
(** A floating-point type F of print.cpp:76-79 (the instantiations are at 84-110) *)
Definition binary64 : format := Format 53 (-1074) 1024 17. (* double, std::float64_t *)
Definition binary32 : format := Format 24 (-149) 128 9.    (* float, std::float32_t *)
Definition binary16 : format := Format 11 (-24) 16 5.      (* std::float16_t *)
Definition bfloat16 : format := Format 8 (-133) 128 4.     (* std::bfloat16_t *)

Inductive fp := Fin (neg : bool) (x : R) | Infty (neg : bool) | Nan (neg : bool).
(** print.cpp:31 *)
Definition signbit (v : fp) : bool := match v with Fin s _ | Infty s | Nan s => s end.
(** print.cpp:31 *)
Definition isnan (v : fp) : bool := match v with Nan _ => true | _ => false end.

(** ** std::to_chars(first, last, value, std::chars_format::scientific, precision) called at print.cpp:39. *)
Definition radix10 : radix := Build_radix 10 eq_refl.
(** The nearest decimal with p digits behind the first one. part of std::to_chars, print.cpp:39. *)
Definition decimal_round (p : nat) (x : R) : R := round radix10 (FLX_exp (Z.of_nat p + 1)) ZnearestE x.
(** d == sci_digits p d * 10^(sci_exponent d - p) *)
Definition sci_exponent (d : R) : Z := if Req_EM_T d 0 then 0 else mag radix10 d - 1.
(** part of std::to_chars, print.cpp:39 *)
Definition sci_digits (p : nat) (d : R) : Z := Ztrunc (d * bpow radix10 (Z.of_nat p - sci_exponent d)).
(** The last k decimal digits. part of std::to_chars, print.cpp:39. *)
Fixpoint fixed (k : nat) (n : Z) : list Z :=
  match k with O => [] | S k => fixed k (n / 10) ++ [48 + n mod 10] end.
(** At least two digits. part of std::to_chars, print.cpp:39. *)
Definition exponent_text (e : Z) : list Z :=
  101 :: (if e <? 0 then 45 else 43) :: fixed (Nat.max 2 (length (show_nat (Z.abs e)))) (Z.abs e).
(** std::to_chars with std::chars_format::scientific, print.cpp:33-39 *)
Definition scientific (p : nat) (x : R) : list Z :=
  let d := decimal_round p x in
  match fixed (S p) (sci_digits p d) with
  | c :: more => c :: match more with [] => [] | _ => 46 :: more end ++ exponent_text (sci_exponent d)
  | [] => []
  end.
(** std::to_chars, print.cpp:39 *)
Definition to_chars (v : fp) (p : nat) : list Z :=
  (if signbit v then [45] else []) ++
  match v with Fin _ x => scientific p x | Infty _ => bytes "inf" | Nan _ => bytes "nan" end.

(** float_to_str_vw, print.cpp:29-50 and 76-79: [buf] is the buffer (not empty). A
    negative precision means 6. If the text does not fit, to_chars reports an error, which
    is ignored, and end == buf_end; the characters are then unspecified (here: what is in
    the buffer). *)
Definition effective_precision (precision : Z) : nat := if precision <? 0 then 6 else Z.to_nat precision.
(** print.cpp:28-46, 76-79 *)
Definition float_to_str_vw (buf : list Z) (v : fp) (precision : Z) : list Z :=
  let sign := if negb (signbit v) && negb (isnan v) then [43] else [] in
  let text := to_chars v (effective_precision precision) in
  if (length sign + length text <=? length buf)%nat then sign ++ text else sign ++ skipn (length sign) buf.
(** float_to_str, print.tpp:13-17: an uninitialised array of 64 characters. *)
Definition float_to_str (junk : list Z) (v : fp) (precision : Z) : list Z := float_to_str_vw (firstn 64 junk) v precision.
(** print_elem, print.tpp:19-22, with the buffers of print.tpp:41 (64 characters). *)
Definition show_fp (fmt : format) (junk : list Z) (v : fp) : list Z := float_to_str_vw (firstn 64 junk) v (Z.of_nat (max_digits10 fmt)).
(** print_elem for complex numbers, print.tpp:29-33. *)
Definition show_complex (fmt : format) (junk : list Z) (z : fp * fp) : list Z :=
  show_fp fmt junk (fst z) ++ bytes " + " ++ show_fp fmt junk (snd z) ++ bytes "j".

(** ** std::from_chars(first, last, F) (from_chars-wrapper.hpp:46-49)

    The grammar is that of Csv_Numbers.floating (whose range is the one of double, so this
    is for formats that are not larger); a number that rounds to infinity or to zero is
    out of range. *)
Definition fexp (fmt : format) : Z -> Z := FLT_exp (emin fmt) (prec fmt).
(** std::from_chars as called at implementation/io/csv.tpp:90 and from_chars-wrapper.hpp:48 *)
Definition from_chars_fp (fmt : format) (s : list Z) : option (fp * nat) :=
  match floating s with
  | None => None
  | Some (x, k) =>
    let neg := match s with c :: _ => c =? 45 | [] => false end in
    match x with
    | Inf => Some (Infty neg, k)
    | NaN => Some (Nan neg, k)
    | Dec _ m e =>
      let a := (IZR m * powerRZ 10 e)%R in
      if Rle_dec (bpow radix2 (emax fmt) - bpow radix2 (emax fmt - prec fmt - 1)) a then None
      else if m =? 0 then Some (Fin neg 0, k)
      else if Rle_dec a (bpow radix2 (emin fmt - 1)) then None
      else Some (Fin neg (round radix2 (fexp fmt) ZnearestE a), k)
    end
  end.
