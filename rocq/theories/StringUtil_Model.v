(** Model of src/include/guanaqo/string-util.hpp. Strings are lists of bytes
    (integers); a string_view is the byte sequence it denotes. *)
From Verif Require Import Base.

(** std::string_view, string-util.hpp:14 *)
Definition str := list Z.

(** Does [s] start with [tok]?. Used by find, string-util.hpp:15. *)
Fixpoint prefixb (tok s : str) : bool :=
  match tok, s with
  | [], _ => true
  | _ :: _, [] => false
  | t :: tok', c :: s' => Z.eqb t c && prefixb tok' s'
  end.

(** std::string_view::find: the lowest position at which [tok] occurs, or npos. string-util.hpp:15, 31. *)
Fixpoint find (s tok : str) : option nat :=
  if prefixb tok s then Some 0
  else match s with
       | [] => None
       | _ :: s' => option_map S (find s' tok)
       end.

(** split, string-util.hpp:14-26. substr(0, p) = firstn p, substr(p) = skipn p. *)
Definition split (full tok : str) : str * str :=
  match find full tok with
  | None => (full, [])
  | Some p => (firstn p full, skipn (p + length tok) full)
  end.

(** split_second, string-util.hpp:30-42 *)
Definition split_second (full tok : str) : str * str :=
  match find full tok with
  | None => ([], full)
  | Some p => (firstn p full, skipn (p + length tok) full)
  end.

(** join, string-util.hpp:53-66: std::accumulate over the tail. *)
Definition join (strings : list str) (sep empty : str) : str :=
  match strings with
  | [] => empty
  | first :: rest => fold_left (fun acc e => (acc ++ sep) ++ e) rest first
  end.

(** join_quote, string-util.hpp:80-99 *)
Definition join_quote (strings : list str) (sep empty ql qr : str) : str :=
  match strings with
  | [] => empty
  | first :: rest =>
      fold_left (fun acc e => (((acc ++ qr) ++ sep) ++ ql) ++ e) rest (ql ++ first) ++ qr
  end.

(** The documented way to take a joined string apart: call split until the
    token does not occur any more (then key is the whole string). string-util.hpp:14-26. *)
Fixpoint split_all (fuel : nat) (s sep : str) : option (list str) :=
  match fuel with
  | 0 => None
  | S f =>
      let '(key, rem) := split s sep in
      if length key =? length s then Some [key]
      else option_map (cons key) (split_all f rem sep)
  end.

(** std::ranges::lexicographical_compare with less. string-util.hpp:105-107. *)
Fixpoint lexb (a b : str) : bool :=
  match a, b with
  | _, [] => false
  | [], _ :: _ => true
  | x :: a', y :: b' => if Z.ltb x y then true else if Z.ltb y x then false else lexb a' b'
  end.

(** The comparator of sort_case_insensitive, string-util.hpp:103-108. [up] is
    std::toupper in the current locale. *)
Definition ci_less (up : Z -> Z) (a b : str) : bool := lexb (map up a) (map up b).

(** std::ranges::sort: unspecified unless the comparator is a strict weak
    order; then the result is some sorted permutation. required by string-util.hpp:109. *)
Definition is_strict_weak_order {X} (cmp : X -> X -> bool) : Prop :=
  (forall a, cmp a a = false) /\
  (forall a b c, cmp a b = true -> cmp b c = true -> cmp a c = true) /\
  (forall a b c, cmp a b = false -> cmp b a = false -> cmp b c = false -> cmp c b = false ->
     cmp a c = false /\ cmp c a = false).
(** std::ranges::sort, string-util.hpp:109 *)
Definition sort_result {X} (cmp : X -> X -> bool) (l l' : list X) : Prop :=
  is_strict_weak_order cmp ->
  Permutation l l' /\ Sorted (fun a b => cmp b a = false) l'.

(** sort_case_insensitive, string-util.hpp:102-110, as a relation between the
    range before and after. *)
Definition sort_case_insensitive (up : Z -> Z) (l l' : list str) : Prop :=
  sort_result (ci_less up) l l'.
