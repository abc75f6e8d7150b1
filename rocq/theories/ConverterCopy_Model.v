(** C67: copying and moving sparsity converters.

    A converter owns index vectors, and its sparsity pattern consists of spans that
    point into these vectors or into the index arrays of the source pattern. Its copy
    and move operations are the implicit ones of
    src/include/guanaqo/linalg/sparsity-conversions.hpp: the members
    row_indices, col_indices (263, 341, 394), inner_idx, outer_ptr, permutation
    (506-509, 615-618, 696-698) and sparsity, converter (756). *)
From Verif Require Import Base ConverterCopy_Spec.
Local Arguments Nat.eqb : simpl never.

(** A span of the pattern: sparsity.row_indices etc. (linalg/sparsity.hpp; sparsity-conversions.hpp:249-257): it points into a vector or into an array of the source *)
Inductive ptr := Own (buf : nat) | Ext (n : nat).
(** The members: the vectors (sparsity-conversions.hpp:263, 341, 394, 506-508, 615-617, 696-697) and the spans of sparsity (264, 342, 395, 509, 618, 698) *)
Record obj := Obj { vecs : list nat; spans : list ptr }.
(** The heap with the vectors of the converters, and the variables (sparsity-conversions.hpp:263, 756) *)
Record world := World { heap : nat -> option (list Z); next : nat; vars : nat -> option obj; dead : nat -> bool }.

(** resize() or copies of vectors: allocate (sparsity-conversions.hpp:235-236, 263) *)
Fixpoint alloc (h : nat -> option (list Z)) (n : nat) (bufs : list (list Z)) : (nat -> option (list Z)) * nat * list nat :=
  match bufs with
  | [] => (h, n, [])
  | b :: bs => let '(h', n', ids) := alloc (set h n (Some b)) (S n) bs in (h', n', n :: ids)
  end.
(** Destructors of the vectors (sparsity-conversions.hpp:263) *)
Fixpoint release (h : nat -> option (list Z)) (ids : list nat) : nat -> option (list Z) :=
  match ids with [] => h | i :: is => release (set h i None) is end.
(** The elements of a vector (sparsity-conversions.hpp:263) *)
Definition contents (h : nat -> option (list Z)) (i : nat) : list Z := match h i with Some l => l | None => [] end.

Section Model.
Context (ext : nat -> list Z).
(** Reading through a span of get_sparsity() (sparsity-conversions.hpp:266) *)
Definition deref (h : nat -> option (list Z)) (p : ptr) : outcome (list Z) :=
  match p with Own b => match h b with Some l => Ok l | None => UB end | Ext n => Ok (ext n) end.
(** All spans of get_sparsity() (sparsity-conversions.hpp:266) *)
Fixpoint deref_all (h : nat -> option (list Z)) (ps : list ptr) : outcome (list (list Z)) :=
  match ps with
  | [] => Ok []
  | p :: ps' => match deref h p with
                | Ok l => match deref_all h ps' with Ok ls => Ok (l :: ls) | x => x end
                | _ => UB
                end
  end.
(** [dead i]: variable i is moved from (its vectors are empty, its spans unchanged).
    sparsity-conversions.hpp:261-264 and the corresponding members of the other converters:
    the constructor, and the implicit copy constructor, move operations and destructor.
    Copy assignment is modelled in ConverterAssign_Model. *)
Definition step (w : world) (o : op) : world * option (outcome (list (list Z))) :=
  match o with
  | Make i own e => (* convert_sparsity: fill the vectors, return spans to them or to the source *)
      match vars w i with
      | None => let '(h, n, ids) := alloc (heap w) (next w) own in
                (World h n (set (vars w) i (Some (Obj ids (map Own ids ++ map Ext e)))) (set (dead w) i false), None)
      | Some _ => (w, None) end
  | CopyTo i j => (* implicit copy constructor: vectors are copied, spans keep pointing where they did *)
      match vars w i, vars w j with
      | None, Some s => if dead w j then (w, None) else
          let '(h, n, ids) := alloc (heap w) (next w) (map (contents (heap w)) (vecs s)) in
          (World h n (set (vars w) i (Some (Obj ids (spans s)))) (set (dead w) i false), None)
      | _, _ => (w, None) end
  | MoveTo i j => (* implicit move constructor: vectors are taken over, spans copied *)
      match vars w i, vars w j with
      | None, Some s => if dead w j then (w, None) else
          (World (heap w) (next w) (set (set (vars w) i (Some s)) j (Some (Obj [] (spans s)))) (set (set (dead w) i false) j true), None)
      | _, _ => (w, None) end
  | MoveAssign i j =>
      match vars w i, vars w j with
      | Some t, Some s => if dead w j then (w, None) else if Nat.eqb i j then (w, None) else
          (World (release (heap w) (vecs t)) (next w) (set (set (vars w) i (Some s)) j (Some (Obj [] (spans s)))) (set (set (dead w) i false) j true), None)
      | _, _ => (w, None) end
  | Destroy i =>
      match vars w i with
      | Some t => (World (release (heap w) (vecs t)) (next w) (set (vars w) i None) (set (dead w) i false), None)
      | None => (w, None) end
  | Read i =>
      match vars w i with
      | Some t => if dead w i then (w, None) else (w, Some (deref_all (heap w) (spans t)))
      | None => (w, None) end
  end.
End Model.
(** No converters yet (sparsity-conversions.hpp:261) *)
Definition start : world := World (fun _ => None) 0 (fun _ => None) (fun _ => false).


(** A history of uses (sparsity-conversions.hpp:261-266) *)
Fixpoint run (ext : nat -> list Z) (w : world) (ops : list op) : list (option (outcome (list (list Z)))) :=
  match ops with [] => [] | o :: os => let '(w', r) := step ext w o in r :: run ext w' os end.
