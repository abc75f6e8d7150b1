(** What the exceptions of xpotrf_L, xtrtri_LN and xlauum_L carry (lapack.hpp, hl-blas-interface.hpp). *)
From Verif Require Import Base Bytes MatView_Model HlBlas_Model Lapack_Model Print_Model.
Local Open Scope Z_scope.

(** struct lapack_error: what() and the member info (lapack.hpp:22-28) *)
Record error := LapackError { e_what : list Z; e_info : Z }.
(** The constructor, lapack.hpp:23-26. std::to_string is the decimal text of the number. *)
Definition make_error (name : list Z) (info : Z) : error :=
  LapackError (bytes "LAPACK error: " ++ name ++ bytes " (info=" ++ show_int info ++ bytes ")") info.

Section Model.
Context {V : Type} (zero one : V) (add mul sub div : V -> V -> V).
Context (positive : V -> bool) (sqrt : V -> V) (is_zero : V -> bool) (chk : bool).
Local Notation mem := (@MatView_Model.mem V).

(** lapack_throw_on_err, lapack.hpp:30-34; [inr e] stands for throw e. What the memory is then is not modelled. *)
Definition throw_on_err (name : list Z) (r : mem * Z) : outcome (mem + error) :=
  if snd r =? 0 then Ok (inl (fst r)) else Ok (inr (make_error name (snd r))).
(** hl-blas-interface.hpp 326-334 *)
Definition potrf_e (A : view) (m : mem) : outcome (mem + error) :=
  assume chk (rows A =? cols A)
    (bind (potrf_L zero add mul sub div positive sqrt (rows A) (data A) (outer_stride A) m) (throw_on_err (bytes "xpotrf_L"))).
(** hl-blas-interface.hpp 338-346 *)
Definition lauum_e (A : view) (m : mem) : outcome (mem + error) :=
  assume chk (rows A =? cols A)
    (bind (lauum_L zero one add mul (rows A) (data A) (outer_stride A) m) (throw_on_err (bytes "xlauum_L"))).
(** hl-blas-interface.hpp 350-358 *)
Definition trtri_e (A : view) (m : mem) : outcome (mem + error) :=
  assume chk (rows A =? cols A)
    (bind (trtri_LN zero one add mul sub div is_zero (rows A) (data A) (outer_stride A) m) (throw_on_err (bytes "xtrtri_LN"))).
End Model.
