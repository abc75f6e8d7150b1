(** Model of linalg/sparsity-conversions.hpp in builds without std::views::zip
    (__cpp_lib_ranges_zip < 202110, i.e. C++20 or an older standard library): the
    #else branches at 142, 336, 389, 446, 470 and 550. There is nothing to sort
    with, so these definitions have no sorter. Same simplifications as in
    Sparsity_Model.v; unsupported_conversion derives from std::logic_error (19-21). *)
From Verif Require Import Base Sparsity_Spec Sparsity_Model.
Local Open Scope outcome_scope.

Section Model.
Context (dbg : bool).

(** COO to Dense (141-154) without 142-144 *)
Definition coo_dense20 (ti : ity) (from : coo) : outcome conv :=
  if sym_nonsquare (o_sym from) (o_rows from) (o_cols from) then Throw invalid_argument
  else Ok (CooDense ti from (Dense (o_rows from) (o_cols from) (o_sym from))).

(** CSC to COO (305-340) without 336-339 *)
Definition csc_coo20 (ti : ity) (first : option Z) (from : csc) : outcome conv :=
  let delta := first_or first 0 in
  n1 <- csc_nnz dbg from ;;
  n2 <- csc_nnz dbg from ;;
  '(ri, ci, _) <- for_ (c_cols from) (fun c st =>
      a <- get (c_outer from) c ;;
      b <- get (c_outer from) (c + 1) ;;
      foldm (fun i '(ri, ci, l) =>
        r <- getz dbg (c_inner from) i ;;
        x <- chk ti (cast ti r + delta) ;;
        ri' <- set ri l x ;;
        y <- chk ti (cast ti (Z.of_nat c) + delta) ;;
        ci' <- set ci l y ;;
        Ok (ri', ci', S l)) (zrange a b) st) (repeat 0%Z n1, repeat 0%Z n2, 0) ;;
  Ok (CscCoo (Coo (c_rows from) (c_cols from) (c_sym from) ri ci
                (match c_order from with SortedRows => SortedByColsAndRows | CscUnsorted => SortedByColsOnly end)
                (first_or first 0))).

(** COO to COO (361-393) without 389-392 *)
Definition coo_coo20 (tf ti : ity) (first : option Z) (from : coo) : outcome conv :=
  delta <- match first with Some f => chk ti (f - cast ti (o_first from)) | None => Ok 0%Z end ;;
  to <- (if ity_eqb tf ti && (delta =? 0)%Z then Ok from
         else
           n1 <- coo_nnz dbg from ;;
           n2 <- coo_nnz dbg from ;;
           let cvt := fun i '(v, k) => x <- chk ti (cast ti i + delta) ;; v' <- set v k x ;; Ok (v', S k) in
           '(ri, _) <- foldm cvt (o_row from) (repeat 0%Z n1, 0) ;;
           '(ci, _) <- foldm cvt (o_col from) (repeat 0%Z n2, 0) ;;
           Ok (Coo (o_rows from) (o_cols from) (o_sym from) ri ci (o_order from)
                   (match first with Some f => f | None => cast ti (o_first from) end))) ;;
  Ok (CooCoo to).

(** COO to CSC (422-505) with the #else branches 451-453 and 476-478 *)
Definition coo_csc20 (tf ti ts : ity) (req : option csc_order) (from : coo) : outcome conv :=
  order <-
    match req with
    | Some SortedRows => (* 435-456 *)
        match o_order from with
        | SortedByColsAndRows => Ok SortedRows
        | Unsorted | SortedByColsOnly | SortedByRowsAndCols | SortedByRowsOnly => Throw logic_error
        end
    | _ => (* 458-481 *)
        match o_order from with
        | SortedByColsAndRows => Ok SortedRows
        | SortedByColsOnly => Ok CscUnsorted
        | Unsorted | SortedByRowsAndCols | SortedByRowsOnly => Throw logic_error
        end
    end ;;
  _ <- assert dbg (match req with None => true | Some o => match o, order with
                 | SortedRows, SortedRows | CscUnsorted, CscUnsorted => true | _, _ => false end end) ;;
  nnz <- coo_nnz dbg from ;;
  '(inner, outer) <- convert_triplets_to_ccs dbg tf ti ts (o_row from) (o_col from) (repeat 0%Z nnz) (repeat 0%Z (o_cols from + 1)) (o_first from) ;;
  _ <- (if dbg then u <- check_uniqueness_csc outer inner ;; assert dbg u else Ok tt) ;;
  Ok (CooCsc (Csc (o_rows from) (o_cols from) (o_sym from) inner outer order) []).

(** CSC to CSC (537-614) with the #else branch 555-557: the throw is at the call of
    sort_indices (576), after the indices have been copied *)
Definition csc_csc20 (tif tsf ti ts : ity) (req : option csc_order) (from : csc) : outcome conv :=
  let '(order, need_sorting) :=
    match req with
    | Some SortedRows => (SortedRows, match c_order from with CscUnsorted => true | SortedRows => false end)
    | _ => (c_order from, false)
    end in
  if need_sorting : bool then Throw logic_error
  else
    let inner := if ity_eqb tif ti then c_inner from else map (cast ti) (c_inner from) in
    let outer := if ity_eqb tsf ts then c_outer from else map (cast ts) (c_outer from) in
    _ <- (if dbg then u <- check_uniqueness_csc outer inner ;; assert dbg u else Ok tt) ;;
    Ok (CscCsc (Csc (c_rows from) (c_cols from) (c_sym from) inner outer order) []).

(** SparsityConverter<Sparsity, To>: constructor (754-755, 824-828) *)
Definition construct20 (from : sparsity) (to : target) : outcome conv :=
  match from, to with
  | SpDense d, ToDense => dense_dense d
  | SpCsc _ _ p, ToDense => csc_dense dbg p
  | SpCoo ti p, ToDense => coo_dense20 ti p
  | SpDense d, ToCoo ti f => dense_coo ti f d
  | SpCsc _ _ p, ToCoo ti f => csc_coo20 ti f p
  | SpCoo tf p, ToCoo ti f => coo_coo20 tf ti f p
  | SpDense d, ToCsc ti ts _ => dense_csc ti ts d
  | SpCsc tif tsf p, ToCsc ti ts o => csc_csc20 tif tsf ti ts o p
  | SpCoo tf p, ToCsc ti ts o => coo_csc20 tf ti ts o p
  end.
End Model.
