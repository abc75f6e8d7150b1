(** Specification side of C74, independent of the code: what a throwing
    operation may have accepted, and what the callback has received. *)
From Verif Require Import Base Streambuf_Model.

(** [accepts o t d]: operation [o], which threw iff [t], accepted the bytes [d]. *)
Inductive accepts : op -> bool -> list Z -> Prop :=
| acc_done o : accepts o false (written1 o)
| acc_put c : accepts (Put c) true [c]
| acc_write d1 d2 : d1 <> [] -> accepts (Write (d1 ++ d2)) true d1
| acc_flush : accepts Flush true [].

Inductive accepted : list op -> list bool -> list Z -> Prop :=
| acc_nil : accepted [] [] []
| acc_cons o t d os ts ds : accepts o t d -> accepted os ts ds -> accepted (o :: os) (t :: ts) (d ++ ds).

(** The spans of the calls that returned normally. *)
Definition returned (log : list (list Z * bool)) : list (list Z) :=
  map fst (filter (fun c => negb (snd c)) log).

(** Does a writing operation that threw await a flush that succeeds? *)
Definition dirty1 (d : bool) (c : op * bool) : bool :=
  match c with
  | (Flush, false) => false
  | (Flush, true) => d
  | (_, t) => orb d t
  end.
Definition dirty (h : list (op * bool)) : bool := fold_left dirty1 h false.

(** The caller flushes until it works after every writing operation that threw. *)
Definition careful (h : list (op * bool)) : Prop :=
  forall h1 o t h2, h = h1 ++ (o, t) :: h2 -> dirty h1 = true -> o = Flush.
