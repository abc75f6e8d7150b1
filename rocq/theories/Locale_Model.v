(** The fallbacks for builds without std::to_chars / std::from_chars, in the locale that the
    process has set (setlocale(LC_NUMERIC, ...)): the C library's printf and strtod write
    and read the decimal point of that locale. [dp] is that character (46 in the C locale).
    Models src/src/print.cpp:16-22, 48-72 (snprintf), implementation/io/csv.tpp:98-129 (strtof,
    strtod) and from_chars-wrapper.hpp:63-96 (std::stof, std::stod). Simplifications: the point
    is one byte; no digit grouping (neither function uses it without the ' flag). The definitions are
    those of FloatStr_Model, Stod_Model and CsvStrtod_Model with [dp] in place of 46. *)
From Flocq Require Import Core.
From Coq Require Import Reals.
From Verif Require Import Base Bytes Csv_Spec Duration_Model FloatIO_Model FromChars_Model Stod_Model.
Local Open Scope Z_scope.
Section Locale.
Variable dp : Z.

(** snprintf with "%+-#.*e", print.cpp:55 *)
Definition printf_e_in (v : fp) (p : nat) : list Z :=
  (if signbit v then 45 else 43) ::
  match v with
  | Fin _ x =>
    let d := decimal_round p x in
    match fixed (S p) (sci_digits p d) with
    | c :: more => c :: dp :: more ++ exponent_text (sci_exponent d)
    | [] => []
    end
  | Infty _ => bytes "inf"
  | Nan _ => bytes "nan"
  end.
(** float_to_str_vw_snprintf, print.cpp:16-22 *)
Definition float_to_str_vw_in (dbg : bool) (size : nat) (v : fp) (precision : Z) : outcome (list Z) :=
  let text := printf_e_in v (effective_precision precision) in
  let n := length text in
  if (n <? size)%nat then Ok text
  else if dbg then Abort
  else if (n =? size)%nat then Ok (firstn (size - 1) text ++ [0]) else UB.
(** print_elem, print.tpp:19-22, with the buffers of print.tpp:41 *)
Definition show_fp_in (dbg : bool) (fmt : format) (v : fp) : outcome (list Z) :=
  float_to_str_vw_in dbg 64 v (Z.of_nat (max_digits10 fmt)).

(** part of strtod (from_chars-wrapper.hpp:73-78, csv.tpp:98-103) *)
Definition scan_decimal_in (s : list Z) : option (magnitude * list Z) :=
  let '(ip, r1) := digits s in
  let '(fp, r2) := match eat dp r1 with Some t => digits t | None => ([], r1) end in
  match ip ++ fp with
  | [] => None
  | d => let '(e, r) := scan_exponent r2 in Some (MDec (digits_value d) (e - Z.of_nat (length fp)), r)
  end.
(** part of strtod (from_chars-wrapper.hpp:73-78, csv.tpp:98-103) *)
Definition scan_hex_in (s : list Z) : option (magnitude * list Z) :=
  let '(ip, r1) := hex_digits s in
  let '(fp, r2) := match eat dp r1 with Some t => hex_digits t | None => ([], r1) end in
  match ip ++ fp with
  | [] => None
  | d => let '(e, r) := scan_binary_exponent r2 in Some (MHex (hex_value d) (e - 4 * Z.of_nat (length fp)), r)
  end.
(** part of strtod (from_chars-wrapper.hpp:73-78, csv.tpp:98-103) *)
Definition scan_magnitude_in (s : list Z) : option (magnitude * list Z) :=
  match strip_prefix (bytes "infinity") s, strip_prefix (bytes "inf") s, strip_prefix (bytes "nan") s with
  | Some r, _, _ => Some (MInf, r)
  | _, Some r, _ => Some (MInf, r)
  | _, _, Some r => Some (MNaN, nan_tail r)
  | None, None, None =>
    match after_0x s with
    | Some t => match scan_hex_in t with Some x => Some x | None => scan_decimal_in s end
    | None => scan_decimal_in s
    end
  end.
(** strtod, called at csv.tpp:99, 102 and through from_chars-wrapper.hpp:73-78 *)
Definition strtod_in (s : list Z) : option (bool * magnitude * list Z) :=
  let s1 := fst (skip_space s 0) in
  let '(neg, s2) := match eat 45 s1, eat 43 s1 with
                    | Some t, _ => (true, t)
                    | _, Some t => (false, t)
                    | _, _ => (false, s1)
                    end in
  match scan_magnitude_in s2 with Some (x, r) => Some (neg, x, r) | None => None end.
(** from_chars-wrapper.hpp:63-96 *)
Definition from_chars_stod_in (fmt : format) (s : list Z) : fp_result :=
  let finish neg a k :=
    if overflows fmt a || underflows fmt a then FpOutOfRange 0
    else FpNumber (Fin neg (round radix2 (fexp fmt) ZnearestE a)) k in
  match strtod_in s with
  | None => FpInvalidArgument
  | Some (neg, x, r) =>
    let k := (length s - length r)%nat in
    match x with
    | MInf => FpNumber (Infty neg) k
    | MNaN => FpNumber (Nan neg) k
    | MDec m e => finish neg (IZR m * powerRZ 10 e)%R k
    | MHex m e => finish neg (IZR m * powerRZ 2 e)%R k
    end
  end.
(** read_single, csv.tpp:98-103, 119-129 *)
Definition read_single_in (fmt : format) (s : list Z) : outcome (fp * nat) :=
  match from_chars_stod_in fmt s with
  | FpNumber v k => Ok (v, k)
  | _ => Throw csv_read_error
  end.
(** read, csv.tpp:26-46, with the buffer filled (the rest of a line of at most 64 characters):
    the value and what is left behind the separator. *)
Definition read_in (fmt : format) (sep : Z) (buf : list Z) : outcome (fp * list Z) :=
  match read_single_in fmt buf with
  | Ok (v, k) => match skipn k buf with
                 | [] => Ok (v, [])
                 | c :: tail => if c =? sep then Ok (v, tail) else Throw csv_read_error
                 end
  | Throw e => Throw e | Abort => Abort | UB => UB
  end.
End Locale.
