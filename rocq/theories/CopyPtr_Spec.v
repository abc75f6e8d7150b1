(** The value semantics expected of copyable_unique_ptr: every variable is an
    optional value of its own ([None]: destroyed variable, [Some None]: empty,
    [Some (Some v)]: holds v). No heap, no pointers. *)
From Verif Require Import Base CopyPtr_Model.

Section Spec.
Context {V : Type}.
Definition vvars := list (option (option V)).

Definition vlive (s : vvars) (i : nat) : option (option V) :=
  match nth_error s i with Some (Some p) => Some p | _ => None end.

Definition vstep (o : op V) (s : vvars) : vvars :=
  match o with
  | Make v => s ++ [Some (Some v)]
  | Default => s ++ [Some None]
  | CopyCtor i f =>
      match vlive s i with
      | None => s
      | Some (Some v) => if f then s else s ++ [Some (Some v)]
      | Some None => s ++ [Some None]
      end
  | MoveCtor i =>
      match vlive s i with
      | None => s
      | Some x => upd s i (Some None) ++ [Some x]
      end
  | CopyAssign i j f =>
      match vlive s i, vlive s j with
      | Some _, Some (Some v) => if f then s else upd s i (Some (Some v))
      | Some _, Some None => upd s i (Some None)
      | _, _ => s
      end
  | MoveAssign i j =>
      match vlive s i, vlive s j with
      | Some _, Some x => upd (upd s j (Some None)) i (Some x)
      | _, _ => s
      end
  | SetVal i v =>
      match vlive s i with
      | Some (Some _) => upd s i (Some (Some v))
      | _ => s
      end
  | Destroy i => match vlive s i with None => s | Some _ => upd s i None end
  end.
Definition vrun (os : list (op V)) : vvars := fold_left (fun s o => vstep o s) os [].
End Spec.
