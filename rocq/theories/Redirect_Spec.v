(** What C15 asks for, without stream objects: [target os] is the buffer chosen
    by the innermost live redirect of stream [os] (or its own). *)
From Verif Require Import Base Redirect_Model.

Definition choose (target : nat -> nat) (os sb : nat) : nat -> nat := fun i => if Nat.eqb i os then sb else target i.

Fixpoint expect1 (p : prog) (target : nat -> nat) : list (nat * event) * bool :=
  let expect := fix expect (ps : list prog) (target : nat -> nat) : list (nat * event) * bool :=
    match ps with
    | [] => ([], false)
    | p :: ps => let '(l, raised) := expect1 p target in
                 if raised then (l, true) else let '(l', raised') := expect ps target in (l ++ l', raised')
    end in
  match p with
  | Out os c => ([(target os, Char c)], false)
  | FlushOs os => ([(target os, Sync)], false)
  | Raise => ([], true)
  | Scope os sb body => let '(l, raised) := expect body (choose target os sb) in (l ++ [(sb, Sync)], raised)
  end.

Fixpoint expect (ps : list prog) (target : nat -> nat) : list (nat * event) * bool :=
  match ps with
  | [] => ([], false)
  | p :: ps => let '(l, raised) := expect1 p target in
               if raised then (l, true) else let '(l', raised') := expect ps target in (l ++ l', raised')
  end.
