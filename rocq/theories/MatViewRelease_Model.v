(** src/include/guanaqo/mat-view.hpp in a build with NDEBUG, where the
    assertions of lines 62-63, 77, 87, 97, 107, 188, 217-218 and 257-258 are
    not there. Functions in which there is no assertion are those of
    MatView_Model. Programs: sequences of member function calls on view
    variables, in a build with or without assertions. *)
From Verif Require Import Base MatView_Model.
Local Open Scope outcome_scope.
Local Open Scope Z_scope.

(** operator(), mat-view.hpp:61-65 *)
Definition at_rel (v : view) (r c : Z) : Z := data v + (r * inner_stride v + c * outer_stride v).
(** mat-view.hpp:76-85 *)
Definition top_rows_rel (v : view) (n : Z) : view :=
  View (data v) n (cols v) (inner_stride v) (outer_stride v).
(** mat-view.hpp:86-95 *)
Definition left_cols_rel (v : view) (n : Z) : view :=
  View (data v) (rows v) n (inner_stride v) (outer_stride v).
(** mat-view.hpp:96-105 *)
Definition bottom_rows_rel (v : view) (n : Z) : view :=
  View (data v + inner_stride v * (rows v - n)) n (cols v) (inner_stride v) (outer_stride v).
(** mat-view.hpp:106-115 *)
Definition right_cols_rel (v : view) (n : Z) : view :=
  View (data v + outer_stride v * (cols v - n)) (rows v) n (inner_stride v) (outer_stride v).
(** mat-view.hpp:116-118 *)
Definition middle_rows_rel (v : view) (r n : Z) : view := top_rows_rel (bottom_rows_rel v (rows v - r)) n.
(** mat-view.hpp:119-121 *)
Definition middle_cols_rel (v : view) (c n : Z) : view := left_cols_rel (right_cols_rel v (cols v - c)) n.
(** mat-view.hpp:122-124 *)
Definition top_left_rel (v : view) (nr nc : Z) : view := left_cols_rel (top_rows_rel v nr) nc.
(** mat-view.hpp:125-127 *)
Definition top_right_rel (v : view) (nr nc : Z) : view := right_cols_rel (top_rows_rel v nr) nc.
(** mat-view.hpp:128-130 *)
Definition bottom_left_rel (v : view) (nr nc : Z) : view := left_cols_rel (bottom_rows_rel v nr) nc.
(** mat-view.hpp:131-133 *)
Definition bottom_right_rel (v : view) (nr nc : Z) : view := right_cols_rel (bottom_rows_rel v nr) nc.
(** mat-view.hpp:134-137 *)
Definition block_rel (v : view) (r c nr nc : Z) : view := middle_cols_rel (middle_rows_rel v r nr) c nc.

Section Mem.
Context {V : Type}.
Variable add : V -> V -> V.

(** set_constant, mat-view.hpp:157-165 *)
Definition set_constant_rel (v : view) (t : V) (m : mem V) : outcome (mem V) :=
  if inner_stride v =? 1 then
    for_ 0 (cols v) (fun c m => fill_n (data v + c * outer_stride v) (rows v) t m) m
  else
    for_ 0 (cols v) (fun c m => for_ 0 (rows v) (fun r m => store m (at_rel v r c) t) m) m.

(** copy_values, mat-view.hpp:216-236 *)
Definition copy_values_rel (v other : view) (m : mem V) : outcome (mem V) :=
  '(m', _, _) <- for_ 0 (cols v) (fun _ '(m, src, dst) =>
      m' <- (if (inner_stride other =? 1) && (inner_stride v =? 1)
             then copy_n src (rows v) dst m
             else
               '(m', _, _) <- for_ 0 (rows v) (fun _ '(m, src_, dst_) =>
                   x <- load m src_ ;; m' <- store m dst_ x ;;
                   Ok (m', src_ + inner_stride other, dst_ + inner_stride v)) (m, src, dst) ;;
               Ok m') ;;
      Ok (m', src + outer_stride other, dst + outer_stride v))
    (m, data other, data v) ;;
  Ok m'.

(** operator+=(MatrixView), mat-view.hpp:256-273 *)
Definition add_assign_rel (v other : view) (m : mem V) : outcome (mem V) :=
  '(m', _, _) <- for_ 0 (cols v) (fun _ '(m, src, dst) =>
      '(m', _, _) <- for_ 0 (rows v) (fun _ '(m, src_, dst_) =>
          x <- load m src_ ;; y <- load m dst_ ;; m' <- store m dst_ (add y x) ;;
          Ok (m', src_ + inner_stride other, dst_ + inner_stride v)) (m, src, dst) ;;
      Ok (m', src + outer_stride other, dst + outer_stride v))
    (m, data other, data v) ;;
  Ok m'.

(** generate, mat-view.hpp:288-293 *)
Definition generate_rel (gen : nat -> V) (v : view) (m : mem V) : outcome (mem V * nat) :=
  for_ 0 (cols v) (fun c s =>
    for_ 0 (rows v) (fun r '(m, k) =>
      m' <- store m (at_rel v r c) (gen k) ;; Ok (m', S k)) s) (m, O).

(** A member function call that makes a new view, mat-view.hpp:76-137 and 191-199 *)
Inductive part :=
| TopRows (n : Z) | LeftCols (n : Z) | BottomRows (n : Z) | RightCols (n : Z)
| MiddleRows (r n : Z) | MiddleCols (c n : Z)
| TopLeft (nr nc : Z) | TopRight (nr nc : Z) | BottomLeft (nr nc : Z) | BottomRight (nr nc : Z)
| Block (r c nr nc : Z) | Diagonal.

(** A statement of a program that uses views, mat-view.hpp:61-301. Views are in
    variables numbered by [nat]. *)
Inductive stmt :=
| Part (dst src : nat) (p : part)               (* dst.reassign(src.part) *)
| Read (v : nat) (r c : Z)                      (* output v(r, c) *)
| Write (v : nat) (r c : Z) (x : V)             (* v(r, c) = x *)
| SetConstant (v : nat) (x : V)
| SetTriangle (v : nat) (x : V) (tr : triangular)
| SetDiagonal (v : nat) (x : V)
| AddToDiagonal (v : nat) (x : V)
| Assign (v w : nat)                            (* v = w *)
| AddAssign (v w : nat)                         (* v += w *)
| AddScalar (v : nat) (x : V)                   (* v += x *)
| Generate (v : nat) (gen : nat -> V).

(** The variables of the program, the arrays the views refer to (mat-view.hpp:39-43), and
    what the program has output. *)
Record state := State { views : nat -> view; memory : mem V; output : list V }.
(** reassign, mat-view.hpp:294-301 *)
Definition set_view (s : state) (i : nat) (w : view) : state :=
  State (fun j => if Nat.eqb j i then w else views s j) (memory s) (output s).
(** The arrays change (mat-view.hpp:157-293) *)
Definition set_memory (s : state) (m : mem V) : state := State (views s) m (output s).

(** The sub-view functions with assertions, mat-view.hpp:76-137, 191-199 *)
Definition part_debug (p : part) (v : view) : outcome view :=
  match p with
  | TopRows n => top_rows v n | LeftCols n => left_cols v n
  | BottomRows n => bottom_rows v n | RightCols n => right_cols v n
  | MiddleRows r n => middle_rows v r n | MiddleCols c n => middle_cols v c n
  | TopLeft nr nc => top_left v nr nc | TopRight nr nc => top_right v nr nc
  | BottomLeft nr nc => bottom_left v nr nc | BottomRight nr nc => bottom_right v nr nc
  | Block r c nr nc => block v r c nr nc | Diagonal => Ok (diagonal v)
  end.
(** ... and without, mat-view.hpp:76-137, 191-199 *)
Definition part_release (p : part) (v : view) : view :=
  match p with
  | TopRows n => top_rows_rel v n | LeftCols n => left_cols_rel v n
  | BottomRows n => bottom_rows_rel v n | RightCols n => right_cols_rel v n
  | MiddleRows r n => middle_rows_rel v r n | MiddleCols c n => middle_cols_rel v c n
  | TopLeft nr nc => top_left_rel v nr nc | TopRight nr nc => top_right_rel v nr nc
  | BottomLeft nr nc => bottom_left_rel v nr nc | BottomRight nr nc => bottom_right_rel v nr nc
  | Block r c nr nc => block_rel v r c nr nc | Diagonal => diagonal v
  end.

(** A statement in a build with assertions (mat-view.hpp:61-301) *)
Definition exec_debug (c : stmt) (s : state) : outcome state :=
  let vw := views s in
  let set o := m <- o ;; Ok (set_memory s m) in
  match c with
  | Part d v p => w <- part_debug p (vw v) ;; Ok (set_view s d w)
  | Read v r c => a <- at_ (vw v) r c ;; x <- load (memory s) a ;; Ok (State vw (memory s) (output s ++ [x]))
  | Write v r c x => a <- at_ (vw v) r c ;; set (store (memory s) a x)
  | SetConstant v x => set (set_constant (vw v) x (memory s))
  | SetTriangle v x tr => set (set_constant_tri (vw v) x tr (memory s))
  | SetDiagonal v x => set (set_diagonal (vw v) x (memory s))
  | AddToDiagonal v x => set (add_to_diagonal add (vw v) x (memory s))
  | Assign v w => set (assign_same_type (Nat.eqb v w) (vw v) (vw w) (memory s))
  | AddAssign v w => set (add_assign add (vw v) (vw w) (memory s))
  | AddScalar v x => set (add_scalar add (vw v) x (memory s))
  | Generate v gen => '(m, _) <- generate gen (vw v) (memory s) ;; Ok (set_memory s m)
  end.
(** ... and in a build without (mat-view.hpp:61-301) *)
Definition exec_release (c : stmt) (s : state) : outcome state :=
  let vw := views s in
  let set o := m <- o ;; Ok (set_memory s m) in
  match c with
  | Part d v p => Ok (set_view s d (part_release p (vw v)))
  | Read v r c => x <- load (memory s) (at_rel (vw v) r c) ;; Ok (State vw (memory s) (output s ++ [x]))
  | Write v r c x => set (store (memory s) (at_rel (vw v) r c) x)
  | SetConstant v x => set (set_constant_rel (vw v) x (memory s))
  | SetTriangle v x tr => set (set_constant_tri (vw v) x tr (memory s))
  | SetDiagonal v x => set (set_diagonal (vw v) x (memory s))
  | AddToDiagonal v x => set (add_to_diagonal add (vw v) x (memory s))
  | Assign v w => set (if Nat.eqb v w then Ok (memory s) else copy_values_rel (vw v) (vw w) (memory s))
  | AddAssign v w => set (add_assign_rel (vw v) (vw w) (memory s))
  | AddScalar v x => set (add_scalar add (vw v) x (memory s))
  | Generate v gen => '(m, _) <- generate_rel gen (vw v) (memory s) ;; Ok (set_memory s m)
  end.
(** The statements in sequence (any user of mat-view.hpp:33-302) *)
Fixpoint run (exec : stmt -> state -> outcome state) (p : list stmt) (s : state) : outcome state :=
  match p with [] => Ok s | c :: p' => s' <- exec c s ;; run exec p' s' end.
(** A program in a debug build (mat-view.hpp:33-302) and in a release build *)
Definition run_debug := run exec_debug.
(** see mat-view.hpp:33-302 *)
Definition run_release := run exec_release.
End Mem.
Arguments stmt : clear implicits.
Arguments state : clear implicits.
