(** Model of duration-parse.hpp (path relative to /repo/src/include/guanaqo).
    Strings are lists of bytes. Doubles are real numbers; [rnd] rounds to IEEE
    binary64 (nearest, ties to even), without upper bound on the exponent: an
    overflow to infinity inside the conversion is a value no integer
    representation can hold either way, so the outcome (UB) is the same. *)
From Flocq Require Import Core.
From Coq Require Import Reals.
From Verif Require Import Base Bytes.
Local Open Scope outcome_scope.
Local Open Scope Z_scope.

Notation binary64 := (FLT_exp (-1074) 53).
(** double, as in duration-parse.hpp:34-59 *)
Definition rnd (x : R) : R := round radix2 binary64 ZnearestE x.

(** ** std::from_chars(first, last, double, general)

    What from_chars-wrapper.hpp:46-49 calls. [Dec neg m e] is the decimal
    (-1)^neg * m * 10^e. *)
Inductive number := Dec (neg : bool) (m e : Z) | Inf | NaN.
(** std::from_chars_result, duration-parse.hpp:36 *)
Inductive fc_result := FcOk (x : number) (rest : list Z) | FcInvalid | FcRange.

(** part of std::from_chars (from_chars-wrapper.hpp:46-49) *)
Definition is_digit (c : Z) : bool := (48 <=? c) && (c <=? 57).

(** The longest run of digits. part of std::from_chars (from_chars-wrapper.hpp:46-49). *)
Fixpoint digits (s : list Z) : list Z * list Z :=
  match s with
  | c :: s' => if is_digit c then let '(d, r) := digits s' in (c :: d, r) else ([], s)
  | [] => ([], [])
  end.

(** part of std::from_chars (from_chars-wrapper.hpp:46-49) *)
Definition digits_value (d : list Z) : Z := fold_left (fun v c => 10 * v + (c - 48)) d 0.

(** The rest of the string if it starts with character [k]. part of std::from_chars (from_chars-wrapper.hpp:46-49). *)
Definition eat (k : Z) (s : list Z) : option (list Z) :=
  match s with c :: t => if c =? k then Some t else None | [] => None end.

(** Exponent part: only consumed if it has digits. part of std::from_chars (from_chars-wrapper.hpp:46-49). *)
Definition scan_exponent (s : list Z) : Z * list Z :=
  match s with
  | c :: s' =>
    if (c =? 101) || (c =? 69) then (* e E *)
      let '(neg, s'') := match eat 43 s', eat 45 s' with
                         | Some t, _ => (false, t) (* + *)
                         | _, Some t => (true, t)  (* - *)
                         | _, _ => (false, s')
                         end in
      match digits s'' with
      | ([], _) => (0, s)
      | (d, r) => ((if neg : bool then - digits_value d else digits_value d), r)
      end
    else (0, s)
  | [] => (0, s)
  end.

(** part of std::from_chars (from_chars-wrapper.hpp:46-49) *)
Definition lower (c : Z) : Z := if (65 <=? c) && (c <=? 90) then c + 32 else c.

(** Case-insensitive prefix. part of std::from_chars (from_chars-wrapper.hpp:46-49). *)
Fixpoint strip_prefix (p s : list Z) : option (list Z) :=
  match p, s with
  | [], _ => Some s
  | a :: p, b :: s => if a =? lower b then strip_prefix p s else None
  | _ :: _, [] => None
  end.

(** The value does not fit: it rounds to infinity or to zero. part of std::from_chars (from_chars-wrapper.hpp:46-49). *)
Definition too_large (m e : Z) : bool :=
  let big := 2 ^ 1024 - 2 ^ 970 in
  if 0 <=? e then big <=? m * 10 ^ e else big * 10 ^ (- e) <=? m.
(** part of std::from_chars (from_chars-wrapper.hpp:46-49) *)
Definition too_small (m e : Z) : bool :=
  negb (m =? 0) && (if 0 <=? e then false else m * 2 ^ 1075 <=? 10 ^ (- e)).

(** part of std::from_chars (from_chars-wrapper.hpp:46-49) *)
Definition word_char (c : Z) : bool := is_digit c || ((65 <=? c) && (c <=? 90)) || ((97 <=? c) && (c <=? 122)) || (c =? 95).
(** part of std::from_chars (from_chars-wrapper.hpp:46-49) *)
Fixpoint skip_word (s : list Z) : list Z := match s with c :: t => if word_char c then skip_word t else s | [] => [] end.
(** nan may be followed by letters, digits and underscores in parentheses. part of std::from_chars (from_chars-wrapper.hpp:46-49) *)
Definition nan_tail (s : list Z) : list Z :=
  match s with
  | c :: t => if Z.eqb c 40 then match skip_word t with d :: r => if Z.eqb d 41 then r else s | [] => s end else s
  | [] => s
  end.

(** std::from_chars, called at duration-parse.hpp:36. *)
Definition from_chars (s : list Z) : fc_result :=
  let '(neg, s) := match eat 45 s with Some t => (true, t) | None => (false, s) end in
  match strip_prefix (bytes "infinity") s, strip_prefix (bytes "inf") s, strip_prefix (bytes "nan") s with
  | Some r, _, _ => FcOk Inf r
  | _, Some r, _ => FcOk Inf r
  | _, _, Some r => FcOk NaN (nan_tail r)
  | None, None, None =>
    let '(ip, r1) := digits s in
    let '(fp, r2) := match eat 46 r1 with Some t => digits t | None => ([], r1) end in
    match ip ++ fp with
    | [] => FcInvalid
    | d =>
      let '(e, r) := scan_exponent r2 in
      let m := digits_value d in
      let e := e - Z.of_nat (length fp) in
      if too_large m e || too_small m e then FcRange else FcOk (Dec neg m e) r
    end
  end.

(** The double a decimal is converted to. part of std::from_chars (from_chars-wrapper.hpp:46-49). *)
Definition dec_value (neg : bool) (m e : Z) : R :=
  ((if neg then -1 else 1) * IZR m * powerRZ 10 e)%R.

(** ** std::chrono::round<Duration>(duration<double, P>)

    The target duration has an integral representation with values lo..hi;
    [num]/[den] is P / Period in lowest terms, so the common type of both has
    period P / num == Period / den. libstdc++: duration_cast, floor, round. used by the cast of duration-parse.hpp:47. *)
Definition represent (lo hi k : Z) : outcome Z := if (lo <=? k) && (k <=? hi) then Ok k else UB.

(** std::chrono::round as in duration-parse.hpp:47 *)
Definition chrono_round (num den lo hi : Z) (v : R) : outcome Z :=
  let D := rnd (v * IZR num) in                       (* d in the common type *)
  let T := fun k => rnd (rnd (IZR k) * IZR den) in    (* k ticks in the common type *)
  to <- represent lo hi (Ztrunc (rnd (D / IZR den)));; (* duration_cast *)
  t0 <- (if Rlt_dec D (T to) then represent lo hi (to - 1) else Ok to);; (* floor *)
  t1 <- represent lo hi (t0 + 1);;
  let diff0 := rnd (D - T t0) in
  let diff1 := rnd (T t1 - D) in
  if Req_EM_T diff0 diff1 then Ok (if Z.odd t0 then t1 else t0)
  else if Rlt_dec diff0 diff1 then Ok t0 else Ok t1.

(** ** duration-parse.hpp:27-66

    The type of the duration: period pn/pd seconds and range of the
    representation. *)
Record target := Target { pn : Z; pd : Z; lo : Z; hi : Z }.

(** duration-parse.hpp:30 *)
Definition find_first_not_of (set s : list Z) : option nat :=
  (fix go s i := match s with
                 | [] => None
                 | c :: s => if existsb (Z.eqb c) set then go s (S i) else Some i
                 end) s 0%nat.
(** duration-parse.hpp:44 *)
Definition find_first_of (set s : list Z) : option nat :=
  (fix go s i := match s with
                 | [] => None
                 | c :: s => if existsb (Z.eqb c) set then Some i else go s (S i)
                 end) s 0%nat.

(** units == "s" etc., duration-parse.hpp:48-59 *)
Definition eqb_bytes (a b : list Z) : bool := if list_eq_dec Z.eq_dec a b then true else false.

(** Lines 48-62: the period of the units, as a fraction of a second. *)
Definition unit_of (units : list Z) : option (Z * Z) :=
  if eqb_bytes units (bytes "s") || eqb_bytes units [] then Some (1, 1)
  else if eqb_bytes units (bytes "ms") then Some (1, 1000)
  else if eqb_bytes units (bytes "us") || eqb_bytes units (194 :: 181 :: bytes "s") then Some (1, 1000000)
  else if eqb_bytes units (bytes "ns") then Some (1, 1000000000)
  else if eqb_bytes units (bytes "min") then Some (60, 1)
  else if eqb_bytes units (bytes "h") then Some (3600, 1)
  else None.

(** cast(duration<double, ratio<un, ud>>{value}) (lines 47-59). *)
Definition cast (tg : target) (un ud : Z) (x : number) : outcome Z :=
  match x with
  | Dec neg m e =>
    let n := un * pd tg in
    let d := ud * pn tg in
    let g := Z.gcd n d in
    chrono_round (n / g) (d / g) (lo tg) (hi tg) (rnd (dec_value neg m e))
  | _ => UB (* conversion of inf or nan to an integer *)
  end.

(** t += ticks (integral overflow is UB). The result is the duration after the
    call together with what the call returns (the rest of the string). duration-parse.hpp:27-66. *)
Definition parse_single_duration (tg : target) (t : Z) (s : list Z) : Z * outcome (list Z) :=
  match find_first_not_of (bytes "+0 ") s with
  | None => (t, Ok [])
  | Some trim =>
    let s := skipn trim s in
    match from_chars s with
    | FcInvalid | FcRange => (t, Throw invalid_duration_value)
    | FcOk value remainder =>
      let end_ := find_first_of (bytes "+-0123456789. ") remainder in
      let units := match end_ with Some i => firstn i remainder | None => remainder end in
      match unit_of units with
      | None => (t, Throw invalid_duration_units)
      | Some (un, ud) =>
        match bind (cast tg un ud value) (fun k => represent (lo tg) (hi tg) (t + k)) with
        | Ok t' => (t', Ok (match end_ with Some i => skipn i remainder | None => [] end))
        | Throw e => (t, Throw e)
        | Abort => (t, Abort)
        | UB => (t, UB)
        end
      end
    end
  end.

(** duration-parse.hpp:70-73. [fuel] bounds the number of rounds of the loop;
    running out of it is reported as [Abort] (it never happens with
    fuel = length s: C16_terminates). *)
Fixpoint parse_loop (fuel : nat) (tg : target) (t : Z) (s : list Z) : Z * outcome unit :=
  match s with
  | [] => (t, Ok tt)
  | _ =>
    match fuel with
    | O => (t, Abort)
    | S fuel =>
      match parse_single_duration tg t s with
      | (t, Ok s) => parse_loop fuel tg t s
      | (t, Throw e) => (t, Throw e)
      | (t, Abort) => (t, Abort)
      | (t, UB) => (t, UB)
      end
    end
  end.

(** duration-parse.hpp:69-74 *)
Definition parse_duration (tg : target) (t : Z) (s : list Z) : Z * outcome unit :=
  parse_loop (length s) tg t s.
