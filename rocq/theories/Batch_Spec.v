(** Vocabulary of C56. *)
From Verif Require Import Base.
Local Open Scope Z_scope.

(** The infos reported, in the order of the iterations. *)
Fixpoint infos {S} (potrf : Z -> S -> S * Z) (stridea A : Z) (order : list Z) (s : S) : list Z :=
  match order with
  | [] => []
  | i :: order' => let '(s', info) := potrf (A + i * stridea) s in info :: infos potrf stridea A order' s'
  end.

(** An order of the iterations 0, ..., n - 1: each of them once. *)
Definition each_once (n : Z) (order : list Z) : Prop := NoDup order /\ forall i, In i order <-> 0 <= i < n.
