(** Specification side of C75: a record of comma-separated values as RFC 4180 has it,
    independent of the code. *)
From Verif Require Import Base.
Local Open Scope Z_scope.

(** The fields of one record. A field may be enclosed in double quotes; inside, a double
    quote is written twice and commas are ordinary. No quotes in other fields. *)
Inductive where_ := Start | Plain | Quoted | AfterQuote.
Fixpoint fields (w : where_) (acc : list Z) (text : list Z) : option (list (list Z)) :=
  let next rest := match fields Start [] rest with Some fs => Some (acc :: fs) | None => None end in
  match w, text with
  | Quoted, [] => None
  | _, [] => Some [acc]
  | Start, c :: rest =>
    if c =? 34 then fields Quoted [] rest else if c =? 44 then next rest else fields Plain [c] rest
  | Plain, c :: rest =>
    if c =? 34 then None else if c =? 44 then next rest else fields Plain (acc ++ [c]) rest
  | Quoted, c :: rest => if c =? 34 then fields AfterQuote acc rest else fields Quoted (acc ++ [c]) rest
  | AfterQuote, c :: rest =>
    if c =? 34 then fields Quoted (acc ++ [34]) rest else if c =? 44 then next rest else None
  end.
Definition rfc4180 (text : list Z) : option (list (list Z)) := fields Start [] text.
