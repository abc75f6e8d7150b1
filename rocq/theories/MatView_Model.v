(** Model of src/include/guanaqo/mat-view.hpp.

    Memory maps addresses (in units of elements) to values; [None] means that
    the address is not an element of any array, and accessing it is [UB].
    Simplifications: one element type (no conversion between element types in
    assignment); the intermediate pointers that the loops compute but do not
    dereference are not checked. *)
From Verif Require Import Base.
Local Open Scope outcome_scope.
Local Open Scope Z_scope.

(** Counting loop: for (i = lo; i < hi; ++i) body(i). As in mat-view.hpp:159-291. *)
Fixpoint loop {S} (n : nat) (i : Z) (body : Z -> S -> outcome S) (s : S) : outcome S :=
  match n with
  | O => Ok s
  | Datatypes.S n' => s' <- body i s ;; loop n' (i + 1) body s'
  end.
(** As in mat-view.hpp:159-291 *)
Definition for_ {S} (lo hi : Z) (body : Z -> S -> outcome S) (s : S) : outcome S :=
  loop (Z.to_nat (hi - lo)) lo body s.

(** Data members, mat-view.hpp:39-43. [data] is the address of the first element. *)
Record view := View { data : Z; rows : Z; cols : Z; inner_stride : Z; outer_stride : Z }.

Section Mem.
Context {V : Type}.
(** What data (mat-view.hpp:39) points into *)
Definition mem := Z -> option V.
(** Reading an element (mat-view.hpp:61-72) *)
Definition load (m : mem) (a : Z) : outcome V :=
  match m a with Some x => Ok x | None => UB end.
(** Writing an element (mat-view.hpp:61-72) *)
Definition store (m : mem) (a : Z) (x : V) : outcome mem :=
  match m a with
  | Some _ => Ok (fun b => if b =? a then Some x else m b)
  | None => UB
  end.

(** std::fill_n(p, n, t), as called in mat-view.hpp:160, 173, 177, 182, 186: nothing if n <= 0. *)
Definition fill_n (p n : Z) (t : V) (m : mem) : outcome mem :=
  for_ 0 n (fun i m => store m (p + i) t) m.
(** std::copy_n(src, n, dst), as called in mat-view.hpp:223: nothing if n <= 0. *)
Definition copy_n (src n dst : Z) (m : mem) : outcome mem :=
  for_ 0 n (fun i m => x <- load m (src + i) ;; store m (dst + i) x) m.

(** PlainMatrixView with its default members, mat-view.hpp:46-53: the default
    outer stride is inner_stride * rows. *)
Definition plain (d r c is : Z) : view := View d r c is (is * r).

(** operator(), mat-view.hpp:61-65: the address of the element. *)
Definition at_ (v : view) (r c : Z) : outcome Z :=
  if (0 <=? r) && (r <? rows v) then
    if (0 <=? c) && (c <? cols v) then Ok (data v + (r * inner_stride v + c * outer_stride v))
    else Abort
  else Abort.

(** mat-view.hpp:76-85 *)
Definition top_rows (v : view) (n : Z) : outcome view :=
  if (0 <=? n) && (n <=? rows v)
  then Ok (View (data v) n (cols v) (inner_stride v) (outer_stride v)) else Abort.
(** mat-view.hpp:86-95 *)
Definition left_cols (v : view) (n : Z) : outcome view :=
  if (0 <=? n) && (n <=? cols v)
  then Ok (View (data v) (rows v) n (inner_stride v) (outer_stride v)) else Abort.
(** mat-view.hpp:96-105 *)
Definition bottom_rows (v : view) (n : Z) : outcome view :=
  if (0 <=? n) && (n <=? rows v)
  then Ok (View (data v + inner_stride v * (rows v - n)) n (cols v) (inner_stride v) (outer_stride v))
  else Abort.
(** mat-view.hpp:106-115 *)
Definition right_cols (v : view) (n : Z) : outcome view :=
  if (0 <=? n) && (n <=? cols v)
  then Ok (View (data v + outer_stride v * (cols v - n)) (rows v) n (inner_stride v) (outer_stride v))
  else Abort.
(** mat-view.hpp:116-118 *)
Definition middle_rows (v : view) (r n : Z) : outcome view :=
  w <- bottom_rows v (rows v - r) ;; top_rows w n.
(** mat-view.hpp:119-121 *)
Definition middle_cols (v : view) (c n : Z) : outcome view :=
  w <- right_cols v (cols v - c) ;; left_cols w n.
(** mat-view.hpp:122-133 *)
Definition top_left (v : view) (nr nc : Z) : outcome view := w <- top_rows v nr ;; left_cols w nc.
(** mat-view.hpp:125-127 *)
Definition top_right (v : view) (nr nc : Z) : outcome view := w <- top_rows v nr ;; right_cols w nc.
(** mat-view.hpp:128-130 *)
Definition bottom_left (v : view) (nr nc : Z) : outcome view := w <- bottom_rows v nr ;; left_cols w nc.
(** mat-view.hpp:131-133 *)
Definition bottom_right (v : view) (nr nc : Z) : outcome view := w <- bottom_rows v nr ;; right_cols w nc.
(** mat-view.hpp:134-137 *)
Definition block (v : view) (r c nr nc : Z) : outcome view :=
  w <- middle_rows v r nr ;; middle_cols w c nc.
(** as_column, mat-view.hpp:139-145, for a span at address [d] with [n] elements
    (the inner stride is the default, 1). *)
Definition as_column (d n : Z) : view := plain d n 1 1.

(** set_constant, mat-view.hpp:157-165 *)
Definition set_constant (v : view) (t : V) (m : mem) : outcome mem :=
  if inner_stride v =? 1 then
    for_ 0 (cols v) (fun c m => fill_n (data v + c * outer_stride v) (rows v) t m) m
  else
    for_ 0 (cols v) (fun c m =>
      for_ 0 (rows v) (fun r m => a <- at_ v r c ;; store m a t) m) m.

(** mat-view.hpp:12-17 *)
Inductive triangular := Lower | StrictlyLower | Upper | StrictlyUpper.

(** set_constant(t, tr), mat-view.hpp:166-190; requires inner stride 1 (167). *)
Definition set_constant_tri (v : view) (t : V) (tr : triangular) (m : mem) : outcome mem :=
  let n := Z.max (rows v) (cols v) in                                      (* 169 *)
  match tr with
  | Lower => for_ 0 n (fun c m =>
      fill_n (data v + c + c * outer_stride v) (rows v - c) t m) m         (* 172-173 *)
  | StrictlyLower => for_ 0 (n - 1) (fun c m =>
      fill_n (data v + c + 1 + c * outer_stride v) (rows v - c - 1) t m) m (* 176-178 *)
  | Upper => for_ 0 n (fun c m =>
      fill_n (data v + c * outer_stride v) (1 + c) t m) m                  (* 181-182 *)
  | StrictlyUpper => for_ 1 n (fun c m =>
      fill_n (data v + c * outer_stride v) c t m) m                        (* 185-186 *)
  end.

(** diagonal, mat-view.hpp:191-199 *)
Definition diagonal (v : view) : view :=
  let n := Z.max (rows v) (cols v) in
  plain (data v) n 1 (outer_stride v + inner_stride v).

(** set_diagonal, mat-view.hpp:200-207: the loop state is (memory, p). *)
Definition set_diagonal (v : view) (t : V) (m : mem) : outcome mem :=
  let n := Z.max (rows v) (cols v) in
  '(m', _) <- for_ 0 n (fun _ '(m, p) =>
      m' <- store m p t ;; Ok (m', p + (outer_stride v + inner_stride v))) (m, data v) ;;
  Ok m'.

(** add_to_diagonal, mat-view.hpp:208-215 *)
Definition add_to_diagonal (add : V -> V -> V) (v : view) (t : V) (m : mem) : outcome mem :=
  let n := Z.max (rows v) (cols v) in
  '(m', _) <- for_ 0 n (fun _ '(m, p) =>
      x <- load m p ;; m' <- store m p (add x t) ;;
      Ok (m', p + (outer_stride v + inner_stride v))) (m, data v) ;;
  Ok m'.

(** copy_values, mat-view.hpp:216-236 *)
Definition copy_values (v other : view) (m : mem) : outcome mem :=
  if (rows other =? rows v) && (cols other =? cols v) then              (* 217-218 *)
    '(m', _, _) <- for_ 0 (cols v) (fun _ '(m, src, dst) =>
        m' <- (if (inner_stride other =? 1) && (inner_stride v =? 1)     (* 222 *)
               then copy_n src (rows v) dst m                            (* 223 *)
               else
                 '(m', _, _) <- for_ 0 (rows v) (fun _ '(m, src_, dst_) =>  (* 225-231 *)
                     x <- load m src_ ;; m' <- store m dst_ x ;;
                     Ok (m', src_ + inner_stride other, dst_ + inner_stride v)) (m, src, dst) ;;
                 Ok m') ;;
        Ok (m', src + outer_stride other, dst + outer_stride v))         (* 233-234 *)
      (m, data other, data v) ;;
    Ok m'
  else Abort.

(** operator=(const MatrixView &), mat-view.hpp:238-242; [same] is this == &other. *)
Definition assign_same_type (same : bool) (v other : view) (m : mem) : outcome mem :=
  if same then Ok m else copy_values v other m.
(** operator=(MatrixView<U, J, R>), mat-view.hpp:247-250 *)
Definition assign (v other : view) (m : mem) : outcome mem := copy_values v other m.

(** operator+=(MatrixView), mat-view.hpp:256-273 *)
Definition add_assign (add : V -> V -> V) (v other : view) (m : mem) : outcome mem :=
  if (rows other =? rows v) && (cols other =? cols v) then
    '(m', _, _) <- for_ 0 (cols v) (fun _ '(m, src, dst) =>
        '(m', _, _) <- for_ 0 (rows v) (fun _ '(m, src_, dst_) =>
            x <- load m src_ ;; y <- load m dst_ ;; m' <- store m dst_ (add y x) ;;
            Ok (m', src_ + inner_stride other, dst_ + inner_stride v)) (m, src, dst) ;;
        Ok (m', src + outer_stride other, dst + outer_stride v))
      (m, data other, data v) ;;
    Ok m'
  else Abort.

(** operator+=(scalar), mat-view.hpp:276-287 *)
Definition add_scalar (add : V -> V -> V) (v : view) (u : V) (m : mem) : outcome mem :=
  '(m', _) <- for_ 0 (cols v) (fun _ '(m, dst) =>
      '(m', _) <- for_ 0 (rows v) (fun _ '(m, dst_) =>
          y <- load m dst_ ;; m' <- store m dst_ (add y u) ;;
          Ok (m', dst_ + inner_stride v)) (m, dst) ;;
      Ok (m', dst + outer_stride v)) (m, data v) ;;
  Ok m'.

(** generate, mat-view.hpp:288-293. The generator's k-th call returns [gen k];
    the number of calls made is part of the loop state. *)
Definition generate (gen : nat -> V) (v : view) (m : mem) : outcome (mem * nat) :=
  for_ 0 (cols v) (fun c s =>
    for_ 0 (rows v) (fun r '(m, k) =>
      a <- at_ v r c ;; m' <- store m a (gen k) ;; Ok (m', Datatypes.S k)) s) (m, O).

(** reassign, mat-view.hpp:294-301: only the view object changes. *)
Definition reassign (v other : view) : view :=
  View (data other) (rows other) (cols other) (inner_stride other) (outer_stride other).
End Mem.
Arguments mem : clear implicits.
