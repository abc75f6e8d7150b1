(** C67: the implicit copy assignment of sparsity converters as well. Like ConverterCopy_Model, but vectors have
    a capacity: std::vector's copy assignment keeps its storage if the new elements fit
    (src/include/guanaqo/linalg/sparsity-conversions.hpp:263-264, 341-342, 394-395, 506-509, 615-618, 696-698). *)
From Verif Require Import Base ConverterCopy_Spec ConverterAssign_Spec.
Local Arguments Nat.eqb : simpl never.

(** A span of the pattern (sparsity-conversions.hpp:249-257): storage and length, or an array of the source *)
Inductive ptr := Own (buf len : nat) | Ext (n : nat).
(** The members: the vectors (sparsity-conversions.hpp:263, 341, 394, 506-508, 615-617, 696-697), each with storage and size, and
    the spans of sparsity (264, 342, 395, 509, 618, 698) *)
Record obj := Obj { vecs : list (nat * nat); spans : list ptr }.
(** The storage of the vectors ([length]: the capacity) and the variables (sparsity-conversions.hpp:263, 756); see ConverterCopy_Model *)
Record world := World { heap : nat -> option (list Z); next : nat; vars : nat -> option obj; dead : nat -> bool }.

(** resize() or copies of vectors: allocate (sparsity-conversions.hpp:235-236, 263) *)
Fixpoint alloc (h : nat -> option (list Z)) (n : nat) (bufs : list (list Z)) : (nat -> option (list Z)) * nat * list (nat * nat) :=
  match bufs with
  | [] => (h, n, [])
  | b :: bs => let '(h', n', ids) := alloc (set h n (Some b)) (S n) bs in (h', n', (n, length b) :: ids)
  end.
(** Destructors of the vectors (sparsity-conversions.hpp:263) *)
Fixpoint release (h : nat -> option (list Z)) (ids : list (nat * nat)) : nat -> option (list Z) :=
  match ids with [] => h | i :: is => release (set h (fst i) None) is end.
(** The elements of a vector (sparsity-conversions.hpp:263) *)
Definition contents (h : nat -> option (list Z)) (v : nat * nat) : list Z := match h (fst v) with Some l => firstn (snd v) l | None => [] end.
(** vector = vector (sparsity-conversions.hpp:263): the storage is kept if it is large enough *)
Fixpoint assign_vecs (h : nat -> option (list Z)) (n : nat) (olds : list (nat * nat)) (news : list (list Z)) : (nat -> option (list Z)) * nat * list (nat * nat) :=
  match news with
  | [] => (h, n, [])
  | b :: bs =>
      let fresh h := let '(h', n', ids) := assign_vecs (set h n (Some b)) (S n) (tl olds) bs in (h', n', (n, length b) :: ids) in
      match olds with
      | [] => fresh h
      | (id, _) :: _ =>
          match h id with
          | Some st =>
              if Nat.leb (length b) (length st) then
                let '(h', n', ids) := assign_vecs (set h id (Some (b ++ skipn (length b) st))) n (tl olds) bs in (h', n', (id, length b) :: ids)
              else fresh (set h id None)
          | None => fresh h
          end
      end
  end.

Section Model.
Context (ext : nat -> list Z).
(** Reading through a span of get_sparsity() (sparsity-conversions.hpp:266) *)
Definition deref (h : nat -> option (list Z)) (p : ptr) : outcome (list Z) :=
  match p with
  | Own b n => match h b with Some l => if Nat.leb n (length l) then Ok (firstn n l) else UB | None => UB end
  | Ext n => Ok (ext n)
  end.
(** All spans of get_sparsity() (sparsity-conversions.hpp:266) *)
Fixpoint deref_all (h : nat -> option (list Z)) (ps : list ptr) : outcome (list (list Z)) :=
  match ps with
  | [] => Ok []
  | p :: ps' => match deref h p with
                | Ok l => match deref_all h ps' with Ok ls => Ok (l :: ls) | x => x end
                | _ => UB
                end
  end.
(** Spans of whole vectors (sparsity-conversions.hpp:249-257) *)
Definition whole (v : nat * nat) : ptr := Own (fst v) (snd v).
(** sparsity-conversions.hpp:261-264 and the corresponding members of the other converters: as in ConverterCopy_Model, and copy assignment.
    Moved-from converters have empty vectors. *)
Definition step (w : world) (o : aop) : world * option (outcome (list (list Z))) :=
  match o with
  | Op (Make i own e) =>
      match vars w i with
      | None => let '(h, n, ids) := alloc (heap w) (next w) own in
                (World h n (set (vars w) i (Some (Obj ids (map whole ids ++ map Ext e)))) (set (dead w) i false), None)
      | Some _ => (w, None) end
  | Op (CopyTo i j) =>
      match vars w i, vars w j with
      | None, Some s => if dead w j then (w, None) else
          let '(h, n, ids) := alloc (heap w) (next w) (map (contents (heap w)) (vecs s)) in
          (World h n (set (vars w) i (Some (Obj ids (spans s)))) (set (dead w) i false), None)
      | _, _ => (w, None) end
  | Op (MoveTo i j) =>
      match vars w i, vars w j with
      | None, Some s => if dead w j then (w, None) else
          (World (heap w) (next w) (set (set (vars w) i (Some s)) j (Some (Obj [] (spans s)))) (set (set (dead w) i false) j true), None)
      | _, _ => (w, None) end
  | Op (MoveAssign i j) =>
      match vars w i, vars w j with
      | Some t, Some s => if dead w j then (w, None) else if Nat.eqb i j then (w, None) else
          (World (release (heap w) (vecs t)) (next w) (set (set (vars w) i (Some s)) j (Some (Obj [] (spans s)))) (set (set (dead w) i false) j true), None)
      | _, _ => (w, None) end
  | Op (Destroy i) =>
      match vars w i with
      | Some t => (World (release (heap w) (vecs t)) (next w) (set (vars w) i None) (set (dead w) i false), None)
      | None => (w, None) end
  | Op (Read i) =>
      match vars w i with
      | Some t => if dead w i then (w, None) else (w, Some (deref_all (heap w) (spans t)))
      | None => (w, None) end
  | CopyAssign i j =>
      match vars w i, vars w j with
      | Some t, Some s => if dead w j then (w, None) else if Nat.eqb i j then (w, None) else
          let '(h, n, ids) := assign_vecs (heap w) (next w) (vecs t) (map (contents (heap w)) (vecs s)) in
          (World h n (set (vars w) i (Some (Obj ids (spans s)))) (set (dead w) i false), None)
      | _, _ => (w, None) end
  end.
(** A history of uses (sparsity-conversions.hpp:261-266) *)
Fixpoint run (w : world) (ops : list aop) : list (option (outcome (list (list Z)))) :=
  match ops with [] => [] | o :: os => let '(w', r) := step w o in r :: run w' os end.
End Model.
(** No converters yet (sparsity-conversions.hpp:261) *)
Definition start : world := World (fun _ => None) 0 (fun _ => None) (fun _ => false).
