(** What a program with scoped redirects is expected to do, without stream objects. *)
From Verif Require Import Base RedirectState_Model.

(** The program never redirects the stream, sets or clears its error bits. *)
Fixpoint leaves_alone (os : nat) (p : prog) : Prop :=
  match p with
  | Fail i | Clear i => i <> os
  | Seq p q => leaves_alone os p /\ leaves_alone os q
  | Scope i _ body => i <> os /\ leaves_alone os body
  | _ => True
  end.
(** The program contains no statement that sets error bits, and redirects to real buffers only. *)
Fixpoint no_errors (p : prog) : Prop :=
  match p with
  | Fail _ => False
  | Seq p q => no_errors p /\ no_errors q
  | Scope _ sb body => sb <> None /\ no_errors body
  | _ => True
  end.
(** Does the program leave with an exception? *)
Fixpoint raises (p : prog) : bool :=
  match p with
  | Raise => true
  | Seq p q => raises p || raises q
  | Scope _ _ body => raises body
  | _ => false
  end.
(** What should reach the buffers if nothing goes wrong: every character and flush the buffer chosen by the innermost
    redirect of its stream, and a flush at the end of every redirect. *)
Fixpoint delivered (p : prog) (target : nat -> option nat) : list (nat * event) :=
  match p with
  | Out os c => match target os with Some b => [(b, Char c)] | None => [] end
  | Flush os => match target os with Some b => [(b, Sync)] | None => [] end
  | Seq p q => delivered p target ++ if raises p then [] else delivered q target
  | Scope os sb body => delivered body (fun i => if Nat.eqb i os then sb else target i) ++
                        match sb with Some b => [(b, Sync)] | None => [] end
  | _ => []
  end.
(** A stream in working order *)
Definition good (s : stream) : Prop := err s = false.
(** A stream without a buffer has its error bit set (an invariant of the standard library's streams). *)
Definition sane (w : world) : Prop := forall os, rdbuf (streams w os) = None -> err (streams w os) = true.
