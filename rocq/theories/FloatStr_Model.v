(** Model of the snprintf versions of float_to_str_vw (src/src/print.cpp:16-22,
    48-72): builds without std::to_chars for floating-point numbers, and
    __float128 (quadmath_snprintf) in all builds. The C library's printf is
    modelled by its description: "%+-#.*e" writes a sign, a digit, a point (also if
    no digits follow, because of the #), the digits, and an exponent of at least two
    digits; the decimal is the nearest one (ties to even); infinities and nans are
    "inf" and "nan" behind a sign. A negative precision counts as omitted, i.e. 6.
    The minus flag only matters with a width, and there is none. *)
From Flocq Require Import Core.
From Coq Require Import Reals.
From Verif Require Import Base Bytes Print_Model FloatIO_Model.
Local Open Scope Z_scope.

(** The types that FloatIO_Model leaves out: x87 long double and __float128
    (print.cpp:86, 100-102), std::numeric_limits<F>::max_digits10 being 21 and 36. *)
Definition x87 : format := Format 64 (-16445) 16384 21.
(** print.cpp:107-109 *)
Definition binary128 : format := Format 113 (-16494) 16384 36.

(** The text of snprintf with "%+-#.*e" (print.cpp:55), "%+-#.*Le" (63), "%+-#.*Qe" (71) *)
Definition printf_e (v : fp) (p : nat) : list Z :=
  (if signbit v then 45 else 43) ::
  match v with
  | Fin _ x =>
    let d := decimal_round p x in
    match fixed (S p) (sci_digits p d) with
    | c :: more => c :: 46 :: more ++ exponent_text (sci_exponent d)
    | [] => []
    end
  | Infty _ => bytes "inf"
  | Nan _ => bytes "nan"
  end.

(** float_to_str_vw_snprintf (16-22) with a buffer of [size] > 0 characters: snprintf
    returns the length n of the whole text, but stores only size - 1 characters and a
    null character. The result is a view of n characters: copying it (print.tpp:16,
    operator<<, print.tpp:21) reads behind the buffer if n > size. [dbg]: the
    assertion is checked. A float is converted to double first (57-60), which does
    not change its value. *)
Definition float_to_str_vw_snprintf (dbg : bool) (size : nat) (v : fp) (precision : Z) : outcome (list Z) :=
  let text := printf_e v (effective_precision precision) in
  let n := length text in
  if (n <? size)%nat then Ok text
  else if dbg then Abort
  else if (n =? size)%nat then Ok (firstn (size - 1) text ++ [0]) else UB.
(** float_to_str, print.tpp:13-17 *)
Definition float_to_str_snprintf (dbg : bool) (v : fp) (precision : Z) : outcome (list Z) :=
  float_to_str_vw_snprintf dbg 64 v precision.
(** print_elem, print.tpp:19-22, with the buffers of print.tpp:41 *)
Definition show_fp_snprintf (dbg : bool) (fmt : format) (v : fp) : outcome (list Z) :=
  float_to_str_vw_snprintf dbg 64 v (Z.of_nat (max_digits10 fmt)).
