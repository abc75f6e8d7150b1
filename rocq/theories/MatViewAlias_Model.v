(** The operations of src/include/guanaqo/mat-view.hpp that take a scalar by
    reference, with the reference kept: [p] is the address of the scalar, which may
    be an element of the view itself, as in v += v(0, 0). MatView_Model passes the
    value instead. Also copy_values where std::copy_n is memmove.
    Simplification: as in MatView_Model there is one element type. *)
From Verif Require Import Base MatView_Model.
Local Open Scope outcome_scope.
Local Open Scope Z_scope.

Section Mem.
Context {V : Type}.

(** std::fill_n(q, n, t) with t a reference, as called in mat-view.hpp:160-186. (For
    arithmetic types libstdc++ copies t first; the value of t is read at every
    element here, which is what it does for other types.) *)
Definition fill_n_ref (q n p : Z) (m : mem V) : outcome (mem V) :=
  for_ 0 n (fun i m => t <- load m p ;; store m (q + i) t) m.

(** set_constant(const value_type &), mat-view.hpp:157-165 *)
Definition set_constant_ref (v : view) (p : Z) (m : mem V) : outcome (mem V) :=
  if inner_stride v =? 1 then
    for_ 0 (cols v) (fun c m => fill_n_ref (data v + c * outer_stride v) (rows v) p m) m
  else
    for_ 0 (cols v) (fun c m =>
      for_ 0 (rows v) (fun r m => a <- at_ v r c ;; t <- load m p ;; store m a t) m) m.

(** set_constant(const value_type &, Triangular), mat-view.hpp:166-190 *)
Definition set_constant_tri_ref (v : view) (p : Z) (tr : triangular) (m : mem V) : outcome (mem V) :=
  let n := Z.max (rows v) (cols v) in                                      (* 169 *)
  match tr with
  | Lower => for_ 0 n (fun c m =>
      fill_n_ref (data v + c + c * outer_stride v) (rows v - c) p m) m         (* 172-173 *)
  | StrictlyLower => for_ 0 (n - 1) (fun c m =>
      fill_n_ref (data v + c + 1 + c * outer_stride v) (rows v - c - 1) p m) m (* 176-178 *)
  | Upper => for_ 0 n (fun c m =>
      fill_n_ref (data v + c * outer_stride v) (1 + c) p m) m                  (* 181-182 *)
  | StrictlyUpper => for_ 1 n (fun c m =>
      fill_n_ref (data v + c * outer_stride v) c p m) m                        (* 185-186 *)
  end.

(** set_diagonal(const value_type &), mat-view.hpp:200-207: the loop state is
    (memory, pointer). *)
Definition set_diagonal_ref (v : view) (p : Z) (m : mem V) : outcome (mem V) :=
  let n := Z.max (rows v) (cols v) in
  '(m', _) <- for_ 0 n (fun _ '(m, q) =>
      t <- load m p ;; m' <- store m q t ;;
      Ok (m', q + (outer_stride v + inner_stride v))) (m, data v) ;;
  Ok m'.

(** add_to_diagonal(const value_type &), mat-view.hpp:208-215 *)
Definition add_to_diagonal_ref (add : V -> V -> V) (v : view) (p : Z) (m : mem V) : outcome (mem V) :=
  let n := Z.max (rows v) (cols v) in
  '(m', _) <- for_ 0 n (fun _ '(m, q) =>
      x <- load m q ;; t <- load m p ;; m' <- store m q (add x t) ;;
      Ok (m', q + (outer_stride v + inner_stride v))) (m, data v) ;;
  Ok m'.

(** operator+=(const U &), mat-view.hpp:276-287 *)
Definition add_scalar_ref (add : V -> V -> V) (v : view) (p : Z) (m : mem V) : outcome (mem V) :=
  '(m', _) <- for_ 0 (cols v) (fun _ '(m, dst) =>
      '(m', _) <- for_ 0 (rows v) (fun _ '(m, dst_) =>
          y <- load m dst_ ;; u <- load m p ;; m' <- store m dst_ (add y u) ;;
          Ok (m', dst_ + inner_stride v)) (m, dst) ;;
      Ok (m', dst + outer_stride v)) (m, data v) ;;
  Ok m'.

(** std::copy_n (mat-view.hpp:223) as it is for trivially copyable elements: memmove,
    which reads everything before it writes. *)
Definition memmove (src n dst : Z) (m : mem V) : outcome (mem V) :=
  for_ 0 n (fun i m' => x <- load m (src + i) ;; store m' (dst + i) x) m.

(** copy_values, mat-view.hpp:216-236, with the std::copy_n of the element type:
    MatView_Model.copy_n or [memmove]. *)
Definition copy_values_with (bulk : Z -> Z -> Z -> mem V -> outcome (mem V))
    (v other : view) (m : mem V) : outcome (mem V) :=
  if (rows other =? rows v) && (cols other =? cols v) then              (* 217-218 *)
    '(m', _, _) <- for_ 0 (cols v) (fun _ '(m, src, dst) =>
        m' <- (if (inner_stride other =? 1) && (inner_stride v =? 1)     (* 222 *)
               then bulk src (rows v) dst m                              (* 223 *)
               else
                 '(m', _, _) <- for_ 0 (rows v) (fun _ '(m, src_, dst_) =>  (* 225-231 *)
                     x <- load m src_ ;; m' <- store m dst_ x ;;
                     Ok (m', src_ + inner_stride other, dst_ + inner_stride v)) (m, src, dst) ;;
                 Ok m') ;;
        Ok (m', src + outer_stride other, dst + outer_stride v))         (* 233-234 *)
      (m, data other, data v) ;;
    Ok m'
  else Abort.
End Mem.
