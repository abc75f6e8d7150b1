(** Which calls respect the documented ranges. *)
From Verif Require Import Base MatView_Model MatView_Spec MatViewRelease_Model.
Local Open Scope Z_scope.

Definition upto (n k : Z) : Prop := 0 <= k <= n.
Definition legal_part (p : part) (v : view) : Prop :=
  match p with
  | TopRows n | BottomRows n => upto (rows v) n
  | LeftCols n | RightCols n => upto (cols v) n
  | MiddleRows r n => 0 <= r /\ 0 <= n /\ r + n <= rows v
  | MiddleCols c n => 0 <= c /\ 0 <= n /\ c + n <= cols v
  | TopLeft nr nc | TopRight nr nc | BottomLeft nr nc | BottomRight nr nc => upto (rows v) nr /\ upto (cols v) nc
  | Block r c nr nc => inside v r c nr nc
  | Diagonal => True
  end.
(** Indices in range, sizes that fit, equal shapes. *)
Definition legal {V} (c : stmt V) (vw : nat -> view) : Prop :=
  match c with
  | Part _ v p => legal_part p (vw v)
  | Read v r c | Write v r c _ => in_range (vw v) r c
  | Assign v w => v = w \/ rows (vw w) = rows (vw v) /\ cols (vw w) = cols (vw v)
  | AddAssign v w => rows (vw w) = rows (vw v) /\ cols (vw w) = cols (vw v)
  | _ => True
  end.
(** A view with the same first element and strides and another shape. *)
Definition reshaped (w : view) (r c : Z) : view := View (data w) r c (inner_stride w) (outer_stride w).
