(** The macros of /repo/src/include/guanaqo/preprocessor.h that count and join their
    arguments.

    Simplifications: an argument is the spelling of its tokens after macro expansion (bytes);
    it contains no top-level comma. Pasting with ## gives the concatenation of the spellings
    (that the result is one valid token is the user's business). A macro that does not exist
    or gets the wrong number of arguments is an error (None). A call without arguments is a
    call with one empty argument, as in the language. *)
From Verif Require Import Base Bytes.
Local Open Scope nat_scope.

(** The spelling of a macro argument. preprocessor.h:4-50 *)
Definition token := list Z.
(** The numbers written in preprocessor.h:10 *)
Definition counts : list token := map bytes ["10"; "9"; "8"; "7"; "6"; "5"; "4"; "3"; "2"; "1"]%string.
(** preprocessor.h:8: the eleventh argument; the macro needs at least that many. *)
Definition num_args_impl (args : list token) : option token := nth_error args 10.
(** preprocessor.h:9-10 *)
Definition num_args (xs : list token) : option token := num_args_impl (xs ++ counts).

(** Equality of spellings, for looking up macro names. preprocessor.h:13-16, 34-38 *)
Definition same (a b : token) : bool := if list_eq_dec Z.eq_dec a b then true else false.
(** The number N in the name GUANAQO_JOIN_TOKENS_ARGS_##N or GUANAQO_JOIN_STRINGS_ARGS_##N, if
    such a macro is defined. preprocessor.h:13-14, 34-35, 20-29, 41-50 *)
Definition defined_macro (n : token) : option nat :=
  find (fun k => same n (nth (10 - k) counts [])) [1; 2; 3; 4; 5; 6; 7; 8; 9; 10].

(** The underscore of preprocessor.h:21-29. *)
Definition us : token := bytes "_".
(** preprocessor.h:20-29: GUANAQO_JOIN_TOKENS_ARGS_k applied to its arguments. *)
Definition join_tokens_args (k : nat) (xs : list token) : option token :=
  match k, xs with
  | 1, [x1] => Some (x1)
  | 2, [x1; x2] => Some (x1 ++ us ++ x2)
  | 3, [x1; x2; x3] => Some (x1 ++ us ++ x2 ++ us ++ x3)
  | 4, [x1; x2; x3; x4] => Some (x1 ++ us ++ x2 ++ us ++ x3 ++ us ++ x4)
  | 5, [x1; x2; x3; x4; x5] => Some (x1 ++ us ++ x2 ++ us ++ x3 ++ us ++ x4 ++ us ++ x5)
  | 6, [x1; x2; x3; x4; x5; x6] => Some (x1 ++ us ++ x2 ++ us ++ x3 ++ us ++ x4 ++ us ++ x5 ++ us ++ x6)
  | 7, [x1; x2; x3; x4; x5; x6; x7] => Some (x1 ++ us ++ x2 ++ us ++ x3 ++ us ++ x4 ++ us ++ x5 ++ us ++ x6 ++ us ++ x7)
  | 8, [x1; x2; x3; x4; x5; x6; x7; x8] => Some (x1 ++ us ++ x2 ++ us ++ x3 ++ us ++ x4 ++ us ++ x5 ++ us ++ x6 ++ us ++ x7 ++ us ++ x8)
  | 9, [x1; x2; x3; x4; x5; x6; x7; x8; x9] => Some (x1 ++ us ++ x2 ++ us ++ x3 ++ us ++ x4 ++ us ++ x5 ++ us ++ x6 ++ us ++ x7 ++ us ++ x8 ++ us ++ x9)
  | 10, [x1; x2; x3; x4; x5; x6; x7; x8; x9; x10] => Some (x1 ++ us ++ x2 ++ us ++ x3 ++ us ++ x4 ++ us ++ x5 ++ us ++ x6 ++ us ++ x7 ++ us ++ x8 ++ us ++ x9 ++ us ++ x10)
  | _, _ => None
  end.
(** preprocessor.h:15-16 *)
Definition join_tokens (xs : list token) : option token :=
  match num_args xs with
  | None => None
  | Some n => match defined_macro n with None => None | Some k => join_tokens_args k xs end
  end.

(** preprocessor.h:41-50: GUANAQO_JOIN_STRINGS_ARGS_k applied to the separator and its
    arguments: the string literals (their contents) it expands to. The separator is a string
    literal. *)
Definition join_strings_args (k : nat) (sep : token) (xs : list token) : option (list token) :=
  match k, xs with
  | 1, [x1] => Some ([x1])
  | 2, [x1; x2] => Some ([x1] ++ [sep] ++ [x2])
  | 3, [x1; x2; x3] => Some ([x1] ++ [sep] ++ [x2] ++ [sep] ++ [x3])
  | 4, [x1; x2; x3; x4] => Some ([x1] ++ [sep] ++ [x2] ++ [sep] ++ [x3] ++ [sep] ++ [x4])
  | 5, [x1; x2; x3; x4; x5] => Some ([x1] ++ [sep] ++ [x2] ++ [sep] ++ [x3] ++ [sep] ++ [x4] ++ [sep] ++ [x5])
  | 6, [x1; x2; x3; x4; x5; x6] => Some ([x1] ++ [sep] ++ [x2] ++ [sep] ++ [x3] ++ [sep] ++ [x4] ++ [sep] ++ [x5] ++ [sep] ++ [x6])
  | 7, [x1; x2; x3; x4; x5; x6; x7] => Some ([x1] ++ [sep] ++ [x2] ++ [sep] ++ [x3] ++ [sep] ++ [x4] ++ [sep] ++ [x5] ++ [sep] ++ [x6] ++ [sep] ++ [x7])
  | 8, [x1; x2; x3; x4; x5; x6; x7; x8] => Some ([x1] ++ [sep] ++ [x2] ++ [sep] ++ [x3] ++ [sep] ++ [x4] ++ [sep] ++ [x5] ++ [sep] ++ [x6] ++ [sep] ++ [x7] ++ [sep] ++ [x8])
  | 9, [x1; x2; x3; x4; x5; x6; x7; x8; x9] => Some ([x1] ++ [sep] ++ [x2] ++ [sep] ++ [x3] ++ [sep] ++ [x4] ++ [sep] ++ [x5] ++ [sep] ++ [x6] ++ [sep] ++ [x7] ++ [sep] ++ [x8] ++ [sep] ++ [x9])
  | 10, [x1; x2; x3; x4; x5; x6; x7; x8; x9; x10] => Some ([x1] ++ [sep] ++ [x2] ++ [sep] ++ [x3] ++ [sep] ++ [x4] ++ [sep] ++ [x5] ++ [sep] ++ [x6] ++ [sep] ++ [x7] ++ [sep] ++ [x8] ++ [sep] ++ [x9] ++ [sep] ++ [x10])
  | _, _ => None
  end.
(** preprocessor.h:36-38; adjacent string literals are one. *)
Definition join_strings (sep : token) (xs : list token) : option token :=
  match num_args xs with
  | None => None
  | Some n => match defined_macro n with
              | None => None
              | Some k => match join_strings_args k sep xs with None => None | Some l => Some (List.concat l) end
              end
  end.
