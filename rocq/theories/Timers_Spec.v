(** Elapsed times read off a history of timer events, without the accumulators. *)
From Verif Require Import Base Timers_Model.
Local Open Scope Z_scope.

(** The start event of the t-th timer created in the history. *)
Definition is_start (e : event) : bool := match e with End _ _ _ => false | _ => true end.
Definition nth_timer (es : list event) (t : nat) : option event := nth_error (filter is_start es) t.

Definition Zsum (l : list Z) : Z := fold_right Z.add 0 l.

(** The elapsed wall time of an [End] event of a timer on duration [d]. *)
Definition elapsed_dur (es : list event) (d : nat) (e : event) : Z :=
  match e with
  | End t wall _ => match nth_timer es t with
                    | Some (StartDur d' now) => if Nat.eqb d' d then wall - now else 0
                    | _ => 0
                    end
  | _ => 0
  end.
Definition elapsed_cpu (es : list event) (d : nat) (e : event) : Z * Z * Z :=
  match e with
  | End t wall cpu => match nth_timer es t with
                      | Some (StartCpu d' w c) => if Nat.eqb d' d then (wall - w, cpu - c, 1) else (0, 0, 0)
                      | _ => (0, 0, 0)
                      end
  | _ => (0, 0, 0)
  end.

(** A history in which every timer is destroyed at most once and after its
    construction, on existing accumulators. *)
Fixpoint ended (es : list event) : list nat :=
  match es with
  | [] => []
  | End t _ _ :: es' => t :: ended es'
  | _ :: es' => ended es'
  end.
Definition well_formed (nd nc : nat) (es : list event) : Prop :=
  NoDup (ended es) /\
  (forall pre t w c post, es = pre ++ End t w c :: post -> (t < length (filter is_start pre))%nat) /\
  (forall d now, In (StartDur d now) es -> (d < nd)%nat) /\
  (forall d w c, In (StartCpu d w c) es -> (d < nc)%nat).
(** All scopes have ended. *)
Definition all_ended (es : list event) : Prop := forall t, (t < length (filter is_start es))%nat -> In t (ended es).
