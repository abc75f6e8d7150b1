(** Model of CSVReader::read_single of src/include/guanaqo/implementation/io/csv.tpp
    in builds without std::to_chars (csv.tpp:98-129, !__cpp_lib_to_chars): the C
    library's strtod, strtof, strtol, strtoll, C locale, LP64. [s] are the
    characters of the buffer (s[bufend] = 0 terminates them, 120; the buffer has a
    character more than bufmaxsize). Result: the value and ptr - bufbegin. The
    errors are errno != 0 (out of range) or ptr == bufbegin (no number), 124-127.
    long double is not modelled. *)
From Verif Require Import Base Csv_Spec FloatIO_Model FromChars_Model Stod_Model.
Local Open Scope Z_scope.

(** float (98-100), double (101-103). from_chars_stod is strtod with the same
    two errors. *)
Definition read_single_fp (fmt : format) (s : list Z) : outcome (fp * nat) :=
  match from_chars_stod fmt s with
  | FpNumber v k => Ok (v, k)
  | _ => Throw csv_read_error
  end.

(** long long, long, int, short (107-118): strtol in base 10, then a cast. *)
Inductive csv_int := CShort | CInt | CLong | CLongLong.
(** The types of csv.tpp:107-118 (LP64) *)
Definition bits (ty : csv_int) : Z := match ty with CShort => 16 | CInt => 32 | CLong | CLongLong => 64 end.
(** csv.tpp:107-129 *)
Definition read_single_int (ty : csv_int) (s : list Z) : outcome (Z * nat) :=
  match strto 10 s with
  | None => Throw csv_read_error
  | Some (neg, v, k) =>
    let x := if neg : bool then - v else v in
    if (- 2 ^ 63 <=? x) && (x <? 2 ^ 63) then Ok (cast_signed (bits ty) x, k) else Throw csv_read_error
  end.
