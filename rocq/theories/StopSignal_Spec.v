(** What C53 means by a stop() that took effect. *)
From Verif Require Import Base StopSignal_Model.

(** Thread [t] knows that [o] was stopped: it called stop() on it, saw
    stop_requested() return true, or synchronised with a thread that knew. *)
Inductive knows : list event -> nat -> nat -> Prop :=
| knows_stop es t o ob : knows (es ++ [(Stop t o, ob)]) t o
| knows_seen es t o k : knows (es ++ [(Query t o k, Some true)]) t o
| knows_sync es t t' o ob : knows es t o -> knows (es ++ [(Sync t t', ob)]) t' o
| knows_more es e t o : knows es t o -> knows (es ++ [e]) t o.

Definition stop_called (es : list event) (o : nat) : Prop := exists t ob, In (Stop t o, ob) es.

