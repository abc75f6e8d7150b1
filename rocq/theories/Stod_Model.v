(** Model of the floating-point fallback of src/include/guanaqo/from_chars-wrapper.hpp
    (63-96; builds where GUANAQO_USE_FROM_CHARS_FLOAT is 0, for instance all Clang
    builds), in terms of the C library's strtof and strtod, C locale. A text is a
    list of byte values; a result's end is the offset of ptr from first.
    As in FloatIO_Model numbers are real numbers with a sign, infinities and
    nans (payloads are not modelled). long double (stold) is not modelled. *)
From Flocq Require Import Core.
From Coq Require Import Reals.
From Verif Require Import Base Bytes Duration_Model Csv_Numbers FloatIO_Model FromChars_Model.
Local Open Scope Z_scope.

(** std::from_chars_result as built at from_chars-wrapper.hpp:82-95 *)
Inductive fp_result := FpNumber (v : fp) (stop : nat) | FpInvalidArgument | FpOutOfRange (stop : nat).

(** ** strtod (C17 7.22.1.3) *)
Inductive magnitude := MDec (m e : Z) (* m * 10^e *) | MHex (m e : Z) (* m * 2^e *) | MInf | MNaN.

(** Digits, a point, digits, exponent; as std::from_chars. part of strtod (from_chars-wrapper.hpp:73-78). *)
Definition scan_decimal (s : list Z) : option (magnitude * list Z) :=
  let '(ip, r1) := digits s in
  let '(fp, r2) := match eat 46 r1 with Some t => digits t | None => ([], r1) end in
  match ip ++ fp with
  | [] => None
  | d => let '(e, r) := scan_exponent r2 in Some (MDec (digits_value d) (e - Z.of_nat (length fp)), r)
  end.

(** part of strtod (from_chars-wrapper.hpp:73-78) *)
Fixpoint hex_digits (s : list Z) : list Z * list Z :=
  match s with
  | c :: s' => if digit_of c <? 16 then let '(d, r) := hex_digits s' in (c :: d, r) else ([], s)
  | [] => ([], [])
  end.
(** part of strtod (from_chars-wrapper.hpp:73-78) *)
Definition hex_value (d : list Z) : Z := fold_left (fun v c => 16 * v + digit_of c) d 0.
(** The exponent of a hexadecimal number: p or P, sign, decimal digits. part of strtod (from_chars-wrapper.hpp:73-78). *)
Definition scan_binary_exponent (s : list Z) : Z * list Z :=
  match s with
  | c :: s' =>
    if (c =? 112) || (c =? 80) then
      let '(neg, s'') := match eat 43 s', eat 45 s' with
                         | Some t, _ => (false, t)
                         | _, Some t => (true, t)
                         | _, _ => (false, s')
                         end in
      match digits s'' with
      | ([], _) => (0, s)
      | (d, r) => ((if neg : bool then - digits_value d else digits_value d), r)
      end
    else (0, s)
  | [] => (0, s)
  end.
(** What follows 0x; [None] if there is no digit (then only the zero is read). *)
Definition scan_hex (s : list Z) : option (magnitude * list Z) :=
  let '(ip, r1) := hex_digits s in
  let '(fp, r2) := match eat 46 r1 with Some t => hex_digits t | None => ([], r1) end in
  match ip ++ fp with
  | [] => None
  | d => let '(e, r) := scan_binary_exponent r2 in Some (MHex (hex_value d) (e - 4 * Z.of_nat (length fp)), r)
  end.
(** The rest of the string behind 0x or 0X. *)
Definition after_0x (s : list Z) : option (list Z) :=
  match s with
  | z :: x :: t => if (z =? 48) && ((x =? 120) || (x =? 88)) then Some t else None
  | _ => None
  end.

(** part of strtod (from_chars-wrapper.hpp:73-78) *)
Definition scan_magnitude (s : list Z) : option (magnitude * list Z) :=
  match strip_prefix (bytes "infinity") s, strip_prefix (bytes "inf") s, strip_prefix (bytes "nan") s with
  | Some r, _, _ => Some (MInf, r)
  | _, Some r, _ => Some (MInf, r)
  | _, _, Some r => Some (MNaN, nan_tail r)
  | None, None, None =>
    match after_0x s with
    | Some t => match scan_hex t with Some x => Some x | None => scan_decimal s end
    | None => scan_decimal s
    end
  end.

(** White space, a sign, the magnitude; what is left. called through from_chars-wrapper.hpp:73-78. *)
Definition strtod (s : list Z) : option (bool * magnitude * list Z) :=
  let s1 := fst (skip_space s 0) in
  let '(neg, s2) := match eat 45 s1, eat 43 s1 with
                    | Some t, _ => (true, t)
                    | _, Some t => (false, t)
                    | _, _ => (false, s1)
                    end in
  match scan_magnitude s2 with Some (x, r) => Some (neg, x, r) | None => None end.

(** errno = ERANGE: the number rounds to infinity; or it is tiny (rounded to
    the precision of the format it is below the smallest normal number) and
    not a number of the format (glibc: underflow is reported only if inexact). std::out_of_range of from_chars-wrapper.hpp:86. *)
Definition overflows (fmt : format) (a : R) : bool :=
  if Rle_dec (bpow radix2 (emax fmt) - bpow radix2 (emax fmt - prec fmt - 1)) a then true else false.
(** std::out_of_range of from_chars-wrapper.hpp:86 *)
Definition underflows (fmt : format) (a : R) : bool :=
  if Rlt_dec (round radix2 (FLX_exp (prec fmt)) ZnearestE a) (bpow radix2 (emin fmt + prec fmt - 1))
  then if Req_EM_T (round radix2 (fexp fmt) ZnearestE a) a then false else true
  else false.

(** ** from_chars, 63-96: std::stof, std::stod. end_index is only written on
    success, hence still 0 when out_of_range is caught. *)
Definition from_chars_stod (fmt : format) (s : list Z) : fp_result :=
  let finish neg a k :=
    if overflows fmt a || underflows fmt a then FpOutOfRange 0
    else FpNumber (Fin neg (round radix2 (fexp fmt) ZnearestE a)) k in
  match strtod s with
  | None => FpInvalidArgument
  | Some (neg, x, r) =>
    let k := (length s - length r)%nat in
    match x with
    | MInf => FpNumber (Infty neg) k
    | MNaN => FpNumber (Nan neg) k
    | MDec m e => finish neg (IZR m * powerRZ 10 e)%R k
    | MHex m e => finish neg (IZR m * powerRZ 2 e)%R k
    end
  end.
(** As the reader of numbers of csv_read, which only looks at the value, the end
    and whether there is an error (csv.tpp:48-56). *)
Definition stod_reader (fmt : format) (s : list Z) : option (fp * nat) :=
  match from_chars_stod fmt s with FpNumber v k => Some (v, k) | _ => None end.
