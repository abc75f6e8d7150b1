(** duration-parse.hpp:11-74: the contents of the exceptions of parse_duration. As
    Duration_Model, but a failing call ends with the exception object.

    Simplifications: a pointer or view into the argument is given by how many characters of
    the argument are left from there; demangled_typename (C89) and error_code::message are
    arbitrary texts. *)
From Flocq Require Import Core.
From Coq Require Import Reals.
From Verif Require Import Base Bytes Duration_Model.
Local Open Scope Z_scope.

(** std::from_chars_result::ec, duration-parse.hpp:36-42. *)
Inductive errc := InvalidArgument | OutOfRange.
(** The exception objects: what(), and result (ptr and ec) or units (start and length).
    duration-parse.hpp:11-25 *)
Inductive report :=
| ValueError (what : list Z) (ptr : nat) (ec : errc)
| UnitsError (what : list Z) (start len : nat).

(** What follows the characters that have the form of a number: result.ptr if the number is
    out of range. std::from_chars, called at duration-parse.hpp:36. *)
Definition after_numeral (s : list Z) : list Z :=
  let s := match eat 45 s with Some t => t | None => s end in
  let '(ip, r1) := digits s in
  let '(fp, r2) := match eat 46 r1 with Some t => digits t | None => ([], r1) end in
  snd (scan_exponent r2).

(** What a call of parse_single_duration does: return the rest of the string, throw, or
    undefined behaviour. duration-parse.hpp:27-66 *)
Inductive single := Continue (rest : list Z) | Failed (r : report) | Undefined.

Section Report.
(** demangled_typename(typeid(Duration)) and make_error_code(ec).message(), duration-parse.hpp:40-41. *)
Context (typename : list Z) (message : errc -> list Z).

(** throw invalid_duration_value, duration-parse.hpp:37-42. [p] is what follows res.ptr. *)
Definition invalid_value (p : list Z) (ec : errc) : report :=
  ValueError (bytes "Invalid value '" ++ p ++ bytes "' for type '" ++ typename ++ bytes "': " ++ message ec) (length p) ec.
(** throw invalid_duration_units, duration-parse.hpp:61-62. *)
Definition invalid_units (units remainder : list Z) : report :=
  UnitsError (bytes "Invalid units '" ++ units ++ bytes "' for duration") (length remainder) (length units).

(** duration-parse.hpp:27-66 *)
Definition single_report (tg : target) (t : Z) (s : list Z) : Z * single :=
  match find_first_not_of (bytes "+0 ") s with
  | None => (t, Continue [])
  | Some trim =>
    let s := skipn trim s in
    match from_chars s with
    | FcInvalid => (t, Failed (invalid_value s InvalidArgument))
    | FcRange => (t, Failed (invalid_value (after_numeral s) OutOfRange))
    | FcOk value remainder =>
      let end_ := find_first_of (bytes "+-0123456789. ") remainder in
      let units := match end_ with Some i => firstn i remainder | None => remainder end in
      match unit_of units with
      | None => (t, Failed (invalid_units units remainder))
      | Some (un, ud) =>
        match bind (cast tg un ud value) (fun k => represent (lo tg) (hi tg) (t + k)) with
        | Ok t' => (t', Continue (match end_ with Some i => skipn i remainder | None => [] end))
        | _ => (t, Undefined)
        end
      end
    end
  end.

(** duration-parse.hpp:69-74: the duration after the call, and the exception, if any; None for
    undefined behaviour. [fuel] as in Duration_Model. *)
Fixpoint report_loop (fuel : nat) (tg : target) (t : Z) (s : list Z) : Z * option (option report) :=
  match s with
  | [] => (t, Some None)
  | _ =>
    match fuel with
    | O => (t, None)
    | S fuel =>
      match single_report tg t s with
      | (t, Continue s) => report_loop fuel tg t s
      | (t, Failed r) => (t, Some (Some r))
      | (t, Undefined) => (t, None)
      end
    end
  end.
(** duration-parse.hpp:69-74 *)
Definition parse_report (tg : target) (t : Z) (s : list Z) : Z * option (option report) := report_loop (length s) tg t s.
End Report.
