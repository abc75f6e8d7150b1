(** Model of the integer fallback of src/include/guanaqo/from_chars-wrapper.hpp
    (98-150; builds where GUANAQO_USE_FROM_CHARS_INT is 0), in terms of the C
    library's strtol and strtoul for bases 2..36, LP64 (long has 64 bits).
    A text is a list of byte values; a result's end is the offset of ptr from
    first. Not modelled: base 0; the floating-point fallback (62-96). *)
From Verif Require Import Base.
Local Open Scope Z_scope.

(** The types that the fallback accepts (108-134). *)
Inductive ity := SChar | Short | Int | Long | LLong | UChar | UShort | UInt | ULong | ULLong.
(** std::from_chars_result as built at from_chars-wrapper.hpp:136-149 *)
Inductive fc_result := Number (v : Z) (stop : nat) | InvalidArgument | OutOfRange (stop : nat).

(** ** strtol, strtoul (C17 7.22.1.4), C locale *)
Definition isspace (c : Z) : bool := (c =? 32) || ((9 <=? c) && (c <=? 13)).
(** part of strtol (from_chars-wrapper.hpp:108-132) *)
Definition digit_of (c : Z) : Z :=
  if (48 <=? c) && (c <=? 57) then c - 48
  else if (97 <=? c) && (c <=? 122) then c - 97 + 10
  else if (65 <=? c) && (c <=? 90) then c - 65 + 10
  else 36.
(** part of strtol (from_chars-wrapper.hpp:108-132) *)
Fixpoint skip_space (s : list Z) (n : nat) : list Z * nat :=
  match s with
  | c :: s' => if isspace c then skip_space s' (S n) else (s, n)
  | [] => (s, n)
  end.
(** part of strtol (from_chars-wrapper.hpp:108-132) *)
Fixpoint accumulate (base : Z) (s : list Z) (acc : Z) (n : nat) : Z * nat :=
  match s with
  | c :: s' => if digit_of c <? base then accumulate base s' (acc * base + digit_of c) (S n) else (acc, n)
  | [] => (acc, n)
  end.
(** Sign, magnitude and number of characters consumed; [None]: no conversion. strtol, strtoul as called through from_chars-wrapper.hpp:108-132. *)
Definition strto (base : Z) (s : list Z) : option (bool * Z * nat) :=
  let '(s1, n1) := skip_space s 0 in
  let '(neg, s2, n2) := match s1 with
    | c :: t => if c =? 45 then (true, t, S n1) else if c =? 43 then (false, t, S n1) else (false, s1, n1)
    | [] => (false, s1, n1)
    end in
  (* optional 0x, only if a hexadecimal digit follows *)
  let '(s3, n3) := match s2 with
    | z :: x :: d :: t =>
        if (base =? 16) && (z =? 48) && ((x =? 120) || (x =? 88)) && (digit_of d <? 16)
        then (d :: t, S (S n2)) else (s2, n2)
    | _ => (s2, n2)
    end in
  match s3 with
  | c :: _ => if digit_of c <? base
              then let '(v, n) := accumulate base s3 0 n3 in Some (neg, v, n)
              else None
  | [] => None
  end.

(** ** std::stoi, stol, stoll, stoul, stoull. The result is that of the fallback:
    exceptions are caught (135-145); end_index is only written on success, hence
    still 0 when out_of_range is caught. *)
Definition sto_signed (bits : Z) (base : Z) (s : list Z) : fc_result :=
  match strto base s with
  | None => InvalidArgument
  | Some (neg, v, n) =>
      let x := if neg : bool then - v else v in
      if (- 2 ^ (bits - 1) <=? x) && (x <? 2 ^ (bits - 1)) then Number x n else OutOfRange 0
  end.
(** std::stoul and std::stoull (LP64), from_chars-wrapper.hpp:120-132 *)
Definition sto_unsigned (base : Z) (s : list Z) : fc_result :=
  match strto base s with
  | None => InvalidArgument
  | Some (neg, v, n) =>
      if v <? 2 ^ 64 then Number (if neg : bool then (- v) mod 2 ^ 64 else v) n else OutOfRange 0
  end.
(** static_cast to an integer type of [bits] bits. from_chars-wrapper.hpp:121-128. *)
Definition cast_unsigned (bits : Z) (x : Z) : Z := x mod 2 ^ bits.
(** from_chars-wrapper.hpp:109-113 *)
Definition cast_signed (bits : Z) (x : Z) : Z := (x + 2 ^ (bits - 1)) mod 2 ^ bits - 2 ^ (bits - 1).
(** value = static_cast<T>(...), from_chars-wrapper.hpp:109-128 *)
Definition map_number (f : Z -> Z) (r : fc_result) : fc_result :=
  match r with Number v n => Number (f v) n | r => r end.

(** from_chars-wrapper.hpp 98-150 *)
Definition from_chars_fallback (base : Z) (ty : ity) (s : list Z) : fc_result :=
  match ty with
  | SChar => map_number (cast_signed 8) (sto_signed 32 base s)      (* 108-110 *)
  | Short => map_number (cast_signed 16) (sto_signed 32 base s)     (* 111-113 *)
  | Int => sto_signed 32 base s                                     (* 114-115 *)
  | Long | LLong => sto_signed 64 base s                            (* 116-119 *)
  | UChar => map_number (cast_unsigned 8) (sto_unsigned base s)     (* 120-122 *)
  | UShort => map_number (cast_unsigned 16) (sto_unsigned base s)   (* 123-125 *)
  | UInt => map_number (cast_unsigned 32) (sto_unsigned base s)     (* 126-128 *)
  | ULong | ULLong => sto_unsigned base s                           (* 129-132 *)
  end.
