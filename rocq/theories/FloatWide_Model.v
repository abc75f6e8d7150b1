(** std::from_chars for every floating-point format (csv.tpp:86-97, from_chars-wrapper.hpp:46-49),
    also for those that are larger than double: long double and __float128 (csv.cpp:19-24, 38-43),
    and the detour by long double that std::float128_t takes where the standard library has no
    std::to_chars for it (src/src/print.cpp:41-45). As in FloatIO_Model, numbers are real numbers with
    a sign, infinities and nans. *)
From Flocq Require Import Core.
From Coq Require Import Reals.
From Verif Require Import Base Bytes Duration_Model FloatIO_Model FloatStr_Model Stod_Model.
Local Open Scope Z_scope.

(** A decimal m * 10^e as a number of the format: out of range if it rounds to infinity or (not being
    zero) to zero. part of std::from_chars, csv.tpp:90 *)
Definition convert (fmt : format) (neg : bool) (m e : Z) : option fp :=
  let a := (IZR m * powerRZ 10 e)%R in
  if Rle_dec (bpow radix2 (emax fmt) - bpow radix2 (emax fmt - prec fmt - 1)) a then None
  else if m =? 0 then Some (Fin neg 0)
  else if Rle_dec a (bpow radix2 (emin fmt - 1)) then None
  else Some (Fin neg (round radix2 (fexp fmt) ZnearestE a)).
(** std::from_chars(first, last, F), csv.tpp:90: the value and the number of characters; the
    grammar is that of Duration_Model.from_chars. *)
Definition from_chars_wide (fmt : format) (s : list Z) : option (fp * nat) :=
  let '(neg, u) := match eat 45 s with Some t => (true, t) | None => (false, s) end in
  match strip_prefix (bytes "infinity") u, strip_prefix (bytes "inf") u, strip_prefix (bytes "nan") u with
  | Some r, _, _ => Some (Infty neg, length s - length r)%nat
  | _, Some r, _ => Some (Infty neg, length s - length r)%nat
  | _, _, Some r => Some (Nan neg, length s - length (nan_tail r))%nat
  | None, None, None =>
    match scan_decimal u with
    | Some (MDec m e, r) => match convert fmt neg m e with Some v => Some (v, length s - length r)%nat | None => None end
    | _ => None
    end
  end.

(** static_cast<long double>(value), print.cpp:42; [fmt]: the format of long double. Round to nearest;
    too large numbers become infinite. *)
Definition cast_fp (fmt : format) (v : fp) : fp :=
  match v with
  | Fin neg x =>
    let y := round radix2 (fexp fmt) ZnearestE x in
    if Rle_dec (bpow radix2 (emax fmt)) y then Infty neg else Fin neg y
  | _ => v
  end.
(** float_to_str_vw_impl, print.cpp:28-45, by long double; the sign in front is that of [v], 31-32. *)
Definition float_to_str_vw_ld (ld : format) (buf : list Z) (v : fp) (precision : Z) : list Z :=
  let sign := if negb (signbit v) && negb (isnan v) then [43] else [] in
  let text := to_chars (cast_fp ld v) (effective_precision precision) in
  if (length sign + length text <=? length buf)%nat then sign ++ text else sign ++ skipn (length sign) buf.
(** print_elem, print.tpp:19-22, with the buffers of print.tpp:41 *)
Definition show_fp_ld (ld fmt : format) (junk : list Z) (v : fp) : list Z :=
  float_to_str_vw_ld ld (firstn 64 junk) v (Z.of_nat (max_digits10 fmt)).
(** What print_elem writes for __float128 (print.cpp:67-73): the text of quadmath_snprintf; the
    assertion and the size of the buffer are in FloatStr_Model. *)
Definition show_fp_quad (fmt : format) (v : fp) : list Z := printf_e v (effective_precision (Z.of_nat (max_digits10 fmt))).
