(** Byte strings written as string literals (only used in examples and for the
    fixed strings in the code). *)
From Coq Require Export Ascii String.
From Coq Require Import List ZArith.
Definition bytes (s : string) : list Z :=
  map (fun c => Z.of_nat (nat_of_ascii c)) (list_ascii_of_string s).
Notation length := List.length.
