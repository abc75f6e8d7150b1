(** operator<< for TimingsCPU (src/src/timed-cpu.cpp:31-42) and for __float128
    (src/src/quadmath/quadmath-print.cpp:10-17). Floating-point numbers on a stream without fixed or scientific are
    written as by printf with %.*g ([alt = false]); the other one uses "%#.*Qg" ([alt = true]). The C library is
    modelled by its description. Of the stream: precision, width, fill character, left or right adjustment, and what has
    been written; its flags are the default ones otherwise. *)
From Flocq Require Import Core.
From Coq Require Import Reals.
From Verif Require Import Base Bytes Print_Model FloatIO_Model.
From Verif Require TimersFloat_Model TimersRange_Model.
Local Open Scope Z_scope.

(** The number of significant digits: 6 if the precision is negative, at least 1. For timed-cpu.cpp:36-39,
    quadmath-print.cpp:12-14. *)
Definition significant (precision : Z) : nat := if precision <? 0 then 6%nat else Nat.max 1 (Z.to_nat precision).
(** Trailing zeros are removed. For timed-cpu.cpp:37-39. *)
Fixpoint strip (l : list Z) : list Z :=
  match l with
  | [] => []
  | c :: l => match strip l with [] => if c =? 48 then [] else [c] | l' => c :: l' end
  end.
(** The point and the digits behind it; without # the point is left out with the last digit. For timed-cpu.cpp:37-39,
    quadmath-print.cpp:14. *)
Definition fraction (alt : bool) (l : list Z) : list Z :=
  if alt then 46 :: l else match strip l with [] => [] | l' => 46 :: l' end.
(** %g: the nearest decimal with P digits, in scientific notation if its exponent is below -4 or not below P.
    For timed-cpu.cpp:37-39, quadmath-print.cpp:14. *)
Definition general (alt : bool) (P : nat) (x : R) : list Z :=
  let d := decimal_round (P - 1) x in
  let X := sci_exponent d in
  let ds := fixed P (sci_digits (P - 1) d) in
  if (X <? -4) || (Z.of_nat P <=? X) then
    match ds with c :: more => c :: fraction alt more ++ exponent_text X | [] => [] end
  else if 0 <=? X then firstn (Z.to_nat X + 1) ds ++ fraction alt (skipn (Z.to_nat X + 1) ds)
  else 48 :: fraction alt (repeat 48 (Z.to_nat (- X - 1)) ++ ds).
(** printf %.*g and %#.*Qg; timed-cpu.cpp:37-39, quadmath-print.cpp:14 *)
Definition printf_g (alt : bool) (precision : Z) (v : fp) : list Z :=
  (if signbit v then [45] else []) ++
  match v with Fin _ x => general alt (significant precision) x | Infty _ => bytes "inf" | Nan _ => bytes "nan" end.

(** The stream (timed-cpu.cpp:31, quadmath-print.cpp:10) *)
Record ostream := Os { precision : Z; width : Z; fill : Z; left : bool; written : list Z }.
(** Formatted output pads to the width and resets it (timed-cpu.cpp:37-39, quadmath-print.cpp:16). *)
Definition padded (w fill : Z) (left : bool) (s : list Z) : list Z :=
  let p := repeat fill (Z.to_nat w - length s) in if left then s ++ p else p ++ s.
(** os << s (timed-cpu.cpp:37-39, quadmath-print.cpp:16) *)
Definition put (s : list Z) (o : ostream) : ostream :=
  Os (precision o) 0 (fill o) (left o) (written o ++ padded (width o) (fill o) (left o) s).
(** setw (timed-cpu.cpp:37-39) *)
Definition setw (w : Z) (o : ostream) : ostream := Os (precision o) w (fill o) (left o) (written o).
(** os.precision(p), setprecision(p) (timed-cpu.cpp:36, 39, 40) *)
Definition set_precision (p : Z) (o : ostream) : ostream := Os p (width o) (fill o) (left o) (written o).
(** os << number (timed-cpu.cpp:37-39) *)
Definition put_fp (v : fp) (o : ostream) : ostream := put (printf_g false (precision o) v) o.

(** millis_f64(t).count() (timed-cpu.cpp:33-34) *)
Definition millis (ns : Z) : fp :=
  Fin (ns <? 0) (TimersFloat_Model.conv (TimersFloat_Model.Flt 53 (-1074)) 1000000 (Z.abs ns)).
(** 100 * cpu_ms / wall_ms; the sign of 0/0 is not specified ([nan_sign]) (timed-cpu.cpp:35) *)
Definition percent (nan_sign : bool) (cpu wall : fp) : fp :=
  let rnd := TimersFloat_Model.rnd (TimersFloat_Model.Flt 53 (-1074)) in
  match cpu, wall with
  | Fin s c, Fin t w =>
    if Req_EM_T w 0 then if Req_EM_T c 0 then Nan nan_sign else Infty (xorb s t)
    else Fin (xorb s t) (rnd (rnd (100 * c) / w))%R
  | _, _ => Nan nan_sign
  end.
(** The strings of timed-cpu.cpp:37-38; the dash is U+2500. *)
Definition wall_label : list Z := bytes " ms (wall) " ++ [226; 148; 128; 32].
(** timed-cpu.cpp:38 *)
Definition cpu_label : list Z := bytes " ms (CPU) " ++ [226; 148; 128; 32].
(** One insertion: it may throw (the stream has exceptions enabled and its buffer fails); [fails] lists for the
    insertions to come whether they do. timed-cpu.cpp:37-39. *)
Definition insert (f : ostream -> ostream) (s : list bool * ostream * bool) : list bool * ostream * bool :=
  match s with
  | (fails, o, true) => (fails, o, true)
  | (fails, o, false) =>
    match fails with
    | true :: fails => (fails, o, true)
    | _ => (tl fails, f o, false)
    end
  end.
(** operator<<, timed-cpu.cpp:31-42: the stream afterwards and whether an exception left the function. *)
Definition print_timings (fails : list bool) (nan_sign : bool) (wall cpu : Z) (o : ostream) : ostream * bool :=
  let wall_ms := millis wall in
  let cpu_ms := millis cpu in
  let cpu_pct := percent nan_sign cpu_ms wall_ms in
  let prec := precision o in                                               (* 36 *)
  let o := set_precision 6 o in
  let s := insert (fun o => put_fp wall_ms (setw 8 o)) (fails, o, false) in (* 37 *)
  let s := insert (put wall_label) s in
  let s := insert (fun o => put_fp cpu_ms (setw 8 o)) s in                  (* 38 *)
  let s := insert (put cpu_label) s in
  let s := insert (fun o => put_fp cpu_pct (setw 7 o))                      (* 39 *)
             (match s with (fs, o, false) => (fs, set_precision 5 o, false) | _ => s end) in
  let s := insert (put (bytes "%")) s in
  match s with
  | (_, o, true) => (o, true)
  | (_, o, false) => (set_precision prec o, false)                         (* 40 *)
  end.

(** quadmath-print.cpp:10-17. static_cast<int>(os.precision()); snprintf stores at most 127 characters and returns the
    length of the whole text. [dbg]: assertions are checked. *)
Definition print_quad (dbg : bool) (v : fp) (o : ostream) : outcome ostream :=
  let text := printf_g true (TimersRange_Model.wrap 32 (precision o)) v in
  if (length text <? 128)%nat then Ok (put text o)
  else if dbg then Abort else Ok (put (firstn 127 text) o).
