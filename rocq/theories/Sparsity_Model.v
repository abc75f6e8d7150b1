(** Model of linalg/sparse-ops.hpp and linalg/sparsity-conversions.hpp
    (src/include/guanaqo/linalg/).

    Simplifications: dimensions are natural numbers (the code has signed lengths,
    negative ones fail cast_sz); products of dimensions do not overflow; spans and
    vectors are lists, out-of-bounds access is UB; the enums have only their named
    values (the "Invalid symmetry"/"Invalid order" branches are unreachable); the
    build has std::views::zip (C++23), otherwise the sorting branches throw
    unsupported_conversion. [dbg]: assertions are checked (no NDEBUG). Writes to
    freshly resized vectors are kept as writes. *)
From Verif Require Import Base Sparsity_Spec.
Local Open Scope outcome_scope.

(** ** Machine *)
(** static_cast to a signed type: modulo 2^bits (C++20). *)
Definition cast (t : ity) (z : Z) : Z :=
  ((z + 2 ^ (bits t - 1)) mod 2 ^ bits t - 2 ^ (bits t - 1))%Z.
(** The index types of sparsity.hpp and sparse-ops.hpp:13-15 *)
Definition fitsb (t : ity) (z : Z) : bool :=
  ((- 2 ^ (bits t - 1) <=? z) && (z <? 2 ^ (bits t - 1)))%Z.
(** Signed arithmetic: overflow is UB. as in sparse-ops.hpp:19-31 and sparsity-conversions.hpp:173-700. *)
Definition chk (t : ity) (z : Z) : outcome Z := if fitsb t z then Ok z else UB.
(** std::is_same_v, sparsity-conversions.hpp:365, 533-600 *)
Definition ity_eqb (a b : ity) : bool :=
  match a, b with Int, Int | Long, Long | LongLong, LongLong => true | _, _ => false end.

(** for loops. As in sparse-ops.hpp:27 and sparsity-conversions.hpp:103-700. *)
Fixpoint foldm {A S} (f : A -> S -> outcome S) (l : list A) (s : S) : outcome S :=
  match l with
  | [] => Ok s
  | x :: l' => s' <- f x s ;; foldm f l' s'
  end.
(** for (i = 0; i < n; ++i) *)
Definition for_ {S} (n : nat) (f : nat -> S -> outcome S) (s : S) : outcome S := foldm f (seq 0 n) s.
(** for (i = a; i < b; ++i), signed. As in sparsity-conversions.hpp:107, 315. *)
Definition zrange (a b : Z) : list Z := map (fun k => (a + Z.of_nat k)%Z) (seq 0 (Z.to_nat (b - a))).

Section Model.
Context (dbg : bool).
(** assert, as in sparsity-conversions.hpp:24-700; [dbg]: NDEBUG is not defined *)
Definition assert (b : bool) : outcome unit := if b then Ok tt else if dbg then Abort else Ok tt.
(** cast_sz (23-26). A negative value becomes huge; all its uses are as an index
    or size, so that is UB here. *)
Definition cast_sz (z : Z) : outcome nat :=
  if (z <? 0)%Z then (if dbg then Abort else UB) else Ok (Z.to_nat z).
(** operator[] of spans and vectors, as in sparsity-conversions.hpp:105-108 *)
Definition get {A} (l : list A) (i : nat) : outcome A := match nth_error l i with Some x => Ok x | None => UB end.
(** operator[] on the left of an assignment, as in sparse-ops.hpp:30 *)
Definition set {A} (l : list A) (i : nat) (x : A) : outcome (list A) :=
  if Nat.ltb i (length l) then Ok (upd l i x) else UB.
(** x[cast_sz(z)], as in sparsity-conversions.hpp:105-108 *)
Definition getz {A} (l : list A) (z : Z) : outcome A := i <- cast_sz z ;; get l i.
(** Iterators begin + a, begin + b as a subrange. sparse-ops.hpp:76-83. *)
Definition subrange {A} (l : list A) (a b : Z) : outcome (list A) :=
  if ((0 <=? a) && (a <=? b) && (b <=? Z.of_nat (length l)))%Z
  then Ok (slice l (Z.to_nat a) (Z.to_nat b)) else UB.
(** Writing through the iterators of sparse-ops.hpp:76-83 *)
Definition splice {A} (l : list A) (a : Z) (new : list A) : list A :=
  firstn (Z.to_nat a) l ++ new ++ skipn (Z.to_nat a + length new) l.

(** std::lower_bound(begin + pos, end, v): the range has to be partitioned. sparse-ops.hpp:28. *)
Fixpoint count_lt (l : list Z) (v : Z) : nat :=
  match l with x :: l' => if (x <? v)%Z then S (count_lt l' v) else 0 | [] => 0 end.
(** sparse-ops.hpp:28 *)
Definition lower_bound (l : list Z) (pos : nat) (v : Z) : outcome nat :=
  let k := count_lt (skipn pos l) v in
  if forallb (fun x => (v <=? x)%Z) (skipn (pos + k) l) then Ok (pos + k) else UB.
(** std::ranges::is_sorted. sparsity-conversions.hpp:484, 584. *)
Fixpoint is_sorted (l : list Z) : bool :=
  match l with
  | x :: ((y :: _) as l') => (x <=? y)%Z && is_sorted l'
  | _ => true
  end.
(** adjacent_find(...) == end. sparse-ops.hpp:89-114. *)
Fixpoint no_adjacent {A} (eqb : A -> A -> bool) (l : list A) : bool :=
  match l with
  | x :: ((y :: _) as l') => negb (eqb x y) && no_adjacent eqb l'
  | _ => true
  end.
(** sparse-ops.hpp:89-93 *)
Definition pair_eqb (a b : Z * Z) : bool := ((fst a =? fst b) && (snd a =? snd b))%Z.

(** ** sparse-ops.hpp *)

(** convert_triplets_to_ccs (10-32); [tf]: IndexFrom, [ti]: Index, [ts]: StorageIndex;
    returns (inner_idx, outer_ptr). *)
Definition convert_triplets_to_ccs (tf ti ts : ity) (rows cols : list Z) (inner outer : list Z) (idx_0 : Z)
  : outcome (list Z * list Z) :=
  _ <- assert (Nat.eqb (length rows) (length inner)) ;;
  '(inner', _) <- foldm (fun r '(v, k) =>
      x <- chk ti (cast ti r - cast ti idx_0) ;;
      v' <- set v k x ;; Ok (v', S k)) rows (inner, 0) ;;
  let num_cols := cast tf (Z.of_nat (length outer)) in
  '(outer', _) <- foldm (fun c '(o, it) =>
      v <- chk tf (c + idx_0) ;;
      it' <- lower_bound cols it v ;;
      o' <- set o (Z.to_nat c) (cast ts (Z.of_nat it')) ;; Ok (o', it')) (zrange 0 num_cols) (outer, 0) ;;
  Ok (inner', outer').

Section Sort.
Context (srt : sorter).
(** Comparators (48-51, 60-62, 73-75) on zipped tuples. *)
Definition lt_col_row (a b : Z * Z * Z) : bool :=
  let '(ra, ca, _) := a in let '(rb, cb, _) := b in ((ca <? cb) || ((ca =? cb) && (ra <? rb)))%Z.
(** cmp, sparse-ops.hpp:59-61 *)
Definition lt_col (a b : Z * Z * Z) : bool := let '(_, ca, _) := a in let '(_, cb, _) := b in (ca <? cb)%Z.
(** cmp, sparse-ops.hpp:72-74 *)
Definition lt_row (a b : Z * Z) : bool := (fst a <? fst b)%Z.
(** The spans behind the zip view, sparse-ops.hpp:39 *)
Definition unzip3 (l : list (Z * Z * Z)) : list Z * list Z * list Z :=
  (map (fun x => fst (fst x)) l, map (fun x => snd (fst x)) l, map snd l).
(** sort_triplets (44-52), sort_triplets_col (55-63), sort_triplets_impl (37-40) *)
Definition sort_triplets (rows cols perm : list Z) : list Z * list Z * list Z :=
  unzip3 (srt (Z * Z * Z)%type 0 lt_col_row (combine (combine rows cols) perm)).
(** sparse-ops.hpp:57-63 *)
Definition sort_triplets_col (rows cols perm : list Z) : list Z * list Z * list Z :=
  unzip3 (srt (Z * Z * Z)%type 0 lt_col (combine (combine rows cols) perm)).
(** sort_rows_csc (67-85) *)
Definition sort_rows_csc (outer inner perm : list Z) : outcome (list Z * list Z) :=
  if Nat.eqb (length outer) 0 then Ok (inner, perm)
  else for_ (length outer - 1) (fun c '(inn, prm) =>
    a <- get outer c ;;
    b <- get outer (c + 1) ;;
    xs <- subrange inn a b ;;
    ps <- subrange prm a b ;;
    let sorted := srt (Z * Z)%type c lt_row (combine xs ps) in
    Ok (splice inn a (map fst sorted), splice prm a (map snd sorted))) (inner, perm).
End Sort.

(** check_uniqueness_triplets (89-95) *)
Definition check_uniqueness_triplets (rows cols : list Z) : bool := no_adjacent pair_eqb (combine rows cols).
(** check_uniqueness_csc (101-116) *)
Definition check_uniqueness_csc (outer inner : list Z) : outcome bool :=
  if Nat.eqb (length outer) 0 then Ok true
  else for_ (length outer - 1) (fun c acc =>
    a <- get outer c ;;
    b <- get outer (c + 1) ;;
    xs <- subrange inner a b ;;
    Ok (acc && no_adjacent Z.eqb xs)) true.

(** ** sparsity.hpp: nnz() (52-57, 88-91) *)
Definition csc_nnz (p : csc) : outcome nat :=
  _ <- assert (Nat.eqb (length (c_outer p)) (c_cols p + 1)) ;;
  let nnz := length (c_inner p) in
  match rev (c_outer p) with
  | [] => if dbg then UB else Ok nnz
  | z :: _ => _ <- assert (z =? Z.of_nat nnz)%Z ;; Ok nnz
  end.
(** sparsity.hpp:89-92, SparseCOO::nnz() *)
Definition coo_nnz (p : coo) : outcome nat :=
  _ <- assert (Nat.eqb (length (o_row p)) (length (o_col p))) ;; Ok (length (o_row p)).

(** ** sparsity-conversions.hpp *)

(** A constructed converter: the members its functions use later. The members of the converters, e.g. sparsity-conversions.hpp:64-66, 131-134. *)
Inductive conv :=
| DenseDense (to : dense)
| CscDense (from : csc) (to : dense)
| CooDense (ti : ity) (from : coo) (to : dense)
| DenseCoo (to : coo)
| CscCoo (to : coo)
| CooCoo (to : coo)
| CooCsc (to : csc) (perm : list Z)
| CscCsc (to : csc) (perm : list Z)
| DenseCsc (to : csc).

(** e.g. sparsity-conversions.hpp:49-50 *)
Definition sym_nonsquare (sy : symmetry) (rows cols : nat) : bool :=
  match sy with Unsymmetric => false | _ => negb (Nat.eqb rows cols) end.
(** e.g. sparsity-conversions.hpp:283 *)
Definition is_unsym (sy : symmetry) : bool := match sy with Unsymmetric => true | _ => false end.
(** request.first_index ? *request.first_index : d, sparsity-conversions.hpp:214-215, 258 *)
Definition first_or (f : option Z) (d : Z) : Z := match f with Some x => x | None => d end.

(** Dense to Dense (48-51) *)
Definition dense_dense (from : dense) : outcome conv :=
  if sym_nonsquare (d_sym from) (d_rows from) (d_cols from) then Throw invalid_argument
  else Ok (DenseDense from).
(** CSC to Dense (73-84). The argument of an assert is only evaluated in debug mode. *)
Definition csc_dense (from : csc) : outcome conv :=
  _ <- (if dbg then u <- check_uniqueness_csc (c_outer from) (c_inner from) ;; assert u else Ok tt) ;;
  if sym_nonsquare (c_sym from) (c_rows from) (c_cols from) then Throw invalid_argument
  else Ok (CscDense from (Dense (c_rows from) (c_cols from) (c_sym from))).
(** COO to Dense (141-154) *)
Definition coo_dense (ti : ity) (from : coo) : outcome conv :=
  _ <- assert (check_uniqueness_triplets (o_row from) (o_col from)) ;;
  if sym_nonsquare (o_sym from) (o_rows from) (o_cols from) then Throw invalid_argument
  else Ok (CooDense ti from (Dense (o_rows from) (o_cols from) (o_sym from))).
(** Dense to COO (212-262): loops 222-228 and 238-244 *)
Definition fill_coo (ti : ity) (delta : Z) (cols : nat) (nrows : nat -> nat) (nnz : nat) : outcome (list Z * list Z) :=
  '(ri, ci, _) <- for_ cols (fun c st => for_ (nrows c) (fun r '(ri, ci, l) =>
      x <- chk ti (cast ti (Z.of_nat r) + delta) ;;
      y <- chk ti (cast ti (Z.of_nat c) + delta) ;;
      ri' <- set ri l x ;;
      ci' <- set ci l y ;;
      Ok (ri', ci', S l)) st) (repeat 0%Z nnz, repeat 0%Z nnz, 0) ;;
  Ok (ri, ci).
(** Dense to COO, sparsity-conversions.hpp:211-264 *)
Definition dense_coo (ti : ity) (first : option Z) (from : dense) : outcome conv :=
  let delta := first_or first 0 in
  '(ri, ci) <- match d_sym from with
               | Unsymmetric => fill_coo ti delta (d_cols from) (fun _ => d_rows from) (d_rows from * d_cols from)
               | Upper =>
                   if negb (Nat.eqb (d_rows from) (d_cols from)) then Throw invalid_argument
                   else fill_coo ti delta (d_cols from) (fun c => c + 1) (d_rows from * (d_rows from + 1) / 2)
               | Lower => Throw invalid_argument
               end ;;
  Ok (DenseCoo (Coo (d_rows from) (d_cols from) (d_sym from) ri ci SortedByColsAndRows (first_or first 0))).
(** CSC to COO (305-340) *)
Definition csc_coo (ti : ity) (first : option Z) (from : csc) : outcome conv :=
  let delta := first_or first 0 in
  n1 <- csc_nnz from ;;
  n2 <- csc_nnz from ;;
  '(ri, ci, _) <- for_ (c_cols from) (fun c st =>
      a <- get (c_outer from) c ;;
      b <- get (c_outer from) (c + 1) ;;
      foldm (fun i '(ri, ci, l) =>
        r <- getz (c_inner from) i ;;
        x <- chk ti (cast ti r + delta) ;;
        ri' <- set ri l x ;;
        y <- chk ti (cast ti (Z.of_nat c) + delta) ;;
        ci' <- set ci l y ;;
        Ok (ri', ci', S l)) (zrange a b) st) (repeat 0%Z n1, repeat 0%Z n2, 0) ;;
  let to := Coo (c_rows from) (c_cols from) (c_sym from) ri ci
                (match c_order from with SortedRows => SortedByColsAndRows | CscUnsorted => SortedByColsOnly end)
                (first_or first 0) in
  _ <- assert (check_uniqueness_triplets ri ci) ;;
  Ok (CscCoo to).
(** COO to COO (361-393) *)
Definition coo_coo (tf ti : ity) (first : option Z) (from : coo) : outcome conv :=
  delta <- match first with Some f => chk ti (f - cast ti (o_first from)) | None => Ok 0%Z end ;;
  to <- (if ity_eqb tf ti && (delta =? 0)%Z then Ok from
         else
           n1 <- coo_nnz from ;;
           n2 <- coo_nnz from ;;
           let cvt := fun i '(v, k) => x <- chk ti (cast ti i + delta) ;; v' <- set v k x ;; Ok (v', S k) in
           '(ri, _) <- foldm cvt (o_row from) (repeat 0%Z n1, 0) ;;
           '(ci, _) <- foldm cvt (o_col from) (repeat 0%Z n2, 0) ;;
           Ok (Coo (o_rows from) (o_cols from) (o_sym from) ri ci (o_order from)
                   (match first with Some f => f | None => cast ti (o_first from) end))) ;;
  _ <- assert (check_uniqueness_triplets (o_row to) (o_col to)) ;;
  Ok (CooCoo to).
(** COO to CSC (422-505) *)
Definition coo_csc (srt : sorter) (tf ti ts : ity) (req : option csc_order) (from : coo) : outcome conv :=
  let iota := map (fun k => cast ts (Z.of_nat k)) (seq 0 (length (o_row from))) in
  (* lines 435-482: the new order and which sort to run (true: sort_triplets, false: sort_triplets_col) *)
  let '(order, sorting) :=
    match req with
    | Some SortedRows =>
        (SortedRows, match o_order from with SortedByColsAndRows => None | _ => Some true end)
    | _ =>
        match o_order from with
        | SortedByColsAndRows => (SortedRows, None)
        | SortedByColsOnly => (CscUnsorted, None)
        | _ => (CscUnsorted, Some false)
        end
    end in
  '(ri, ci, perm) <-
    match sorting with
    | None => Ok ([], [], [])
    | Some both =>
        _ <- coo_nnz from ;;
        Ok (if both : bool then sort_triplets srt (o_row from) (o_col from) iota
            else sort_triplets_col srt (o_row from) (o_col from) iota)
    end ;;
  _ <- assert (match req with None => true | Some o => match o, order with
                 | SortedRows, SortedRows | CscUnsorted, CscUnsorted => true | _, _ => false end end) ;;
  let perm := if is_sorted perm then [] else perm in
  nnz <- coo_nnz from ;;
  let rows := match ri with [] => o_row from | _ => ri end in
  let cols := match ci with [] => o_col from | _ => ci end in
  '(inner, outer) <- convert_triplets_to_ccs tf ti ts rows cols (repeat 0%Z nnz) (repeat 0%Z (o_cols from + 1)) (o_first from) ;;
  _ <- (if dbg then u <- check_uniqueness_csc outer inner ;; assert u else Ok tt) ;;
  Ok (CooCsc (Csc (o_rows from) (o_cols from) (o_sym from) inner outer order) perm).
(** CSC to CSC (537-614) *)
Definition csc_csc (srt : sorter) (tif tsf ti ts : ity) (req : option csc_order) (from : csc) : outcome conv :=
  let inner := map (cast ti) (c_inner from) in
  let outer := map (cast ts) (c_outer from) in
  let '(order, need_sorting) :=
    match req with
    | Some SortedRows => (SortedRows, match c_order from with CscUnsorted => true | SortedRows => false end)
    | _ => (c_order from, false)
    end in
  '(inner, outer, perm) <-
    (if need_sorting then
       '(inn, prm) <- sort_rows_csc srt outer inner (map (fun k => cast ts (Z.of_nat k)) (seq 0 (length (c_inner from)))) ;;
       Ok (inn, outer, prm)
     else Ok (if ity_eqb tif ti then [] else inner, if ity_eqb tsf ts then [] else outer, [])) ;;
  let perm := if is_sorted perm then [] else perm in
  let inner := if ity_eqb tif ti then match inner with [] => c_inner from | _ => inner end else inner in
  let outer := if ity_eqb tsf ts then match outer with [] => c_outer from | _ => outer end else outer in
  _ <- (if dbg then u <- check_uniqueness_csc outer inner ;; assert u else Ok tt) ;;
  Ok (CscCsc (Csc (c_rows from) (c_cols from) (c_sym from) inner outer order) perm).
(** Dense to CSC (644-695): loops 654-661 and 671-678 *)
Definition fill_csc (ti ts : ity) (cols : nat) (nrows : nat -> nat) (nnz : nat) : outcome (list Z * list Z) :=
  '(inner, outer, l) <- for_ cols (fun c '(inner, outer, l) =>
      outer' <- set outer c (cast ts (Z.of_nat l)) ;;
      for_ (nrows c) (fun r '(inner, outer, l) =>
        inner' <- set inner l (cast ti (Z.of_nat r)) ;; Ok (inner', outer, S l)) (inner, outer', l))
      (repeat 0%Z nnz, repeat 0%Z (cols + 1), 0) ;;
  outer' <- set outer cols (cast ts (Z.of_nat l)) ;;
  Ok (inner, outer').
(** Dense to CSC, sparsity-conversions.hpp:643-700 *)
Definition dense_csc (ti ts : ity) (from : dense) : outcome conv :=
  '(inner, outer) <- match d_sym from with
    | Unsymmetric => fill_csc ti ts (d_cols from) (fun _ => d_rows from) (d_rows from * d_cols from)
    | Upper => if negb (Nat.eqb (d_rows from) (d_cols from)) then Throw invalid_argument
               else fill_csc ti ts (d_cols from) (fun c => c + 1) (d_rows from * (d_rows from + 1) / 2)
    | Lower => Throw invalid_argument
    end ;;
  Ok (DenseCsc (Csc (d_rows from) (d_cols from) (d_sym from) inner outer SortedRows)).

(** SparsityConverter<Sparsity, To>: constructor (754-755, 824-828) *)
Definition construct (srt : sorter) (from : sparsity) (to : target) : outcome conv :=
  match from, to with
  | SpDense d, ToDense => dense_dense d
  | SpCsc _ _ p, ToDense => csc_dense p
  | SpCoo ti p, ToDense => coo_dense ti p
  | SpDense d, ToCoo ti f => dense_coo ti f d
  | SpCsc _ _ p, ToCoo ti f => csc_coo ti f p
  | SpCoo tf p, ToCoo ti f => coo_coo tf ti f p
  | SpDense d, ToCsc ti ts _ => dense_csc ti ts d
  | SpCsc tif tsf p, ToCsc ti ts o => csc_csc srt tif tsf ti ts o p
  | SpCoo tf p, ToCsc ti ts o => coo_csc srt tf ti ts o p
  end.

(** get_sparsity() for sparse targets / dense ones. e.g. sparsity-conversions.hpp:511, 620. *)
Definition result_csc (c : conv) : option csc :=
  match c with CooCsc p _ | CscCsc p _ | DenseCsc p => Some p | _ => None end.
(** e.g. sparsity-conversions.hpp:266, 344, 397 *)
Definition result_coo (c : conv) : option coo :=
  match c with DenseCoo p | CscCoo p | CooCoo p => Some p | _ => None end.
(** sparsity-conversions.hpp:54, 88, 158 *)
Definition result_dense (c : conv) : option dense :=
  match c with DenseDense d | CscDense _ d | CooDense _ _ d => Some d | _ => None end.

(** work_size() (55, 89-91, 159-161, 267-271, 345, 398, 512, 621, 701-705) *)
Definition work_size (c : conv) : outcome nat :=
  match c with
  | DenseDense _ | CscCoo _ | CooCoo _ => Ok 0
  | CscDense _ d | CooDense _ _ d => Ok (d_rows d * d_cols d)
  | DenseCoo p => if is_unsym (o_sym p) then Ok 0 else coo_nnz p
  | CooCsc _ perm | CscCsc _ perm => Ok (length perm)
  | DenseCsc p => if is_unsym (c_sym p) then Ok 0 else csc_nnz p
  end.
(** nnz_from() (56-58, 92, 162, 272-274, 346, 399, 513, 622, 706-708) *)
Definition nnz_from (c : conv) : outcome nat :=
  match c with
  | DenseDense d => Ok (d_rows d * d_cols d)
  | CscDense p _ => csc_nnz p
  | CooDense _ p _ => coo_nnz p
  | DenseCoo p => Ok (o_rows p * o_cols p)
  | DenseCsc p => Ok (c_rows p * c_cols p)
  | CscCoo p | CooCoo p => coo_nnz p
  | CooCsc p _ | CscCsc p _ => csc_nnz p
  end.

Section Values.
Context {V : Type} (zero : V).
(** Which span convert_values returns. e.g. sparsity-conversions.hpp:61-66, 118. *)
Inductive ret := RFrom | RWork | REmpty.

(** W(r, c) = v (100-102, 170-172) *)
Definition put (rows : nat) (work : list V) (r c : Z) (v : V) : outcome (list V) :=
  r' <- cast_sz r ;; c' <- cast_sz c ;; set work (r' + c' * rows) v.
(** The switch in the loops (109-128, 176-195) *)
Definition place (sy : symmetry) (rows : nat) (work : list V) (r c : Z) (v : V) : outcome (list V) :=
  match sy with
  | Unsymmetric => put rows work r c v
  | Upper => if (c <? r)%Z then Throw invalid_argument
             else w <- put rows work r c v ;; put rows w c r v
  | Lower => if (r <? c)%Z then Throw invalid_argument
             else w <- put rows work r c v ;; put rows w c r v
  end.
(** Copy the part above the diagonal of each column (284-290, 718-724):
    copy_backward(f_col_above_diag(c), t += c + 1) *)
Definition copy_upper (rows cols : nat) (from work : list V) : outcome (list V) :=
  '(w, _) <- for_ cols (fun c '(w, t) =>
      let t := t + (c + 1) in
      col <- subrange from (Z.of_nat (c * rows)) (Z.of_nat (c * rows + (c + 1))) ;;
      if Nat.leb (length col) t && Nat.leb t (length w)
      then Ok (firstn (t - length col) w ++ col ++ skipn t w, t) else UB) (work, 0) ;;
  Ok w.
(** for (i...) work[i] = from_values[permutation[i]] (523-524, 632-633) *)
Definition gather (perm : list Z) (from work : list V) : outcome (list V) :=
  for_ (length perm) (fun i w => k <- get perm i ;; v <- getz from k ;; set w i v) work.

(** convert_values(from_values, work): the returned span and the contents of the
    workspace afterwards. sparsity-conversions.hpp:61-66, 95-119, 165-189, 277-293, 349-353, 402-406, 516-527, 625-636. *)
Definition convert_values (c : conv) (from work : list V) : outcome (ret * list V) :=
  let check_from := n <- nnz_from c ;; assert (Nat.eqb (length from) n) in
  let check_work := n <- work_size c ;; assert (Nat.eqb (length work) n) in
  match c with
  | DenseDense _ | CscCoo _ | CooCoo _ => (* 59-65, 347-353, 400-406 *)
      _ <- check_from ;; Ok (RFrom, work)
  | CscDense p d => (* 93-133 *)
      _ <- check_from ;; _ <- check_work ;;
      '(w, _) <- for_ (c_cols p) (fun c st =>
          a <- get (c_outer p) c ;;
          b <- get (c_outer p) (c + 1) ;;
          foldm (fun i '(w, l) =>
            r <- getz (c_inner p) i ;;
            v <- get from l ;;
            w' <- place (c_sym p) (d_rows d) w r (Z.of_nat c) v ;;
            Ok (w', S l)) (zrange a b) st) (map (fun _ => zero) work, 0) ;;
      Ok (RWork, w)
  | CooDense ti p d => (* 163-198 *)
      _ <- check_from ;; _ <- check_work ;;
      n <- coo_nnz p ;;
      w <- for_ n (fun l w =>
          r0 <- get (o_row p) l ;; r <- chk ti (r0 - o_first p) ;;
          c0 <- get (o_col p) l ;; c <- chk ti (c0 - o_first p) ;;
          v <- get from l ;;
          place (o_sym p) (d_rows d) w r c v) (map (fun _ => zero) work) ;;
      Ok (RWork, w)
  | DenseCoo p => (* 275-296 *)
      _ <- check_from ;; _ <- check_work ;;
      match o_sym p with
      | Unsymmetric => Ok (RFrom, work)
      | Upper => w <- copy_upper (o_rows p) (o_cols p) from work ;; Ok (RWork, w)
      | Lower => Throw logic_error
      end
  | DenseCsc p => (* 709-730 *)
      _ <- check_from ;; _ <- check_work ;;
      match c_sym p with
      | Unsymmetric => Ok (RFrom, work)
      | Upper => w <- copy_upper (c_rows p) (c_cols p) from work ;; Ok (RWork, w)
      | Lower => _ <- assert false ;; Ok (REmpty, work)
      end
  | CooCsc _ perm | CscCsc _ perm => (* 514-527, 623-636 *)
      _ <- check_from ;; _ <- check_work ;;
      match perm with
      | [] => Ok (RFrom, work)
      | _ => w <- gather perm from work ;; Ok (RWork, w)
      end
  end.

(** The contents of the span returned by convert_values. e.g. sparsity-conversions.hpp:61-66, 118. *)
Definition values_out (r : ret) (from work : list V) : list V :=
  match r with RFrom => from | RWork => work | REmpty => [] end.

(** convert_values_copy (813-821) *)
Definition convert_values_copy (c : conv) (from : list V) : outcome (list V) :=
  n <- work_size c ;;
  '(r, w) <- convert_values c from (repeat zero n) ;;
  Ok (match r with RFrom => from | RWork => w | REmpty => [] end).

(** convert_values_into (785-812). [eval n] is what the evaluator writes into the
    span of n elements it is given. [rnull]: result.data() is null (then it is
    empty). Returns the new contents of result, the span sizes the evaluator was
    called with, and the returned workspace. An in-place conversion gets the
    result span as from_values, so writes to the workspace go to [work]. *)
Definition store_first (l : list V) (new : list V) : list V := new ++ skipn (length new) l.
(** std::vector::resize (sparsity-conversions.hpp:803) *)
Definition resize (l : list V) (n : nat) : list V := firstn n l ++ repeat zero (n - length l).
(** sparsity-conversions.hpp:786-811 *)
Definition convert_values_into (c : conv) (rnull : bool) (result : list V) (eval : nat -> list V) (work : list V)
  : outcome (list V * list nat * list V) :=
  eval_size <- nnz_from c ;;
  ws <- work_size c ;;
  if Nat.eqb ws 0 && Nat.leb eval_size (length result) then
    let result := store_first result (eval eval_size) in
    '(r, w) <- convert_values c result work ;;
    _ <- assert (match r with RFrom => true | RWork => rnull && Nat.eqb (length work) 0 | REmpty => rnull end) ;;
    Ok (result, [eval_size], w)
  else
    let work := store_first (resize work eval_size) (eval eval_size) in
    '(r, res) <- convert_values c work result ;;
    _ <- assert (match r with RFrom => rnull && Nat.eqb (length work) 0 | RWork => true | REmpty => rnull end) ;;
    Ok (res, [eval_size], work).
End Values.
End Model.
