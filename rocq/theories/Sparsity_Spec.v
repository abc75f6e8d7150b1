(** What C32-C43 talk about: sparsity patterns, the entries they stand for, when
    they are valid and when their order flag is truthful. Nothing here refers to
    the model of the conversion code. *)
From Verif Require Import Base.

Inductive symmetry := Unsymmetric | Upper | Lower.
Inductive csc_order := CscUnsorted | SortedRows.
Inductive coo_order := Unsorted | SortedByColsAndRows | SortedByColsOnly | SortedByRowsAndCols | SortedByRowsOnly.

(** The three kinds of patterns (public members of the structs in sparsity.hpp). *)
Record dense := Dense { d_rows : nat; d_cols : nat; d_sym : symmetry }.
Record csc := Csc { c_rows : nat; c_cols : nat; c_sym : symmetry;
                    c_inner : list Z; c_outer : list Z; c_order : csc_order }.
Record coo := Coo { o_rows : nat; o_cols : nat; o_sym : symmetry;
                    o_row : list Z; o_col : list Z; o_order : coo_order; o_first : Z }.

(** Index types of the platform (LP64). *)
Inductive ity := Int | Long | LongLong.
Definition bits (t : ity) : Z := match t with Int => 32 | _ => 64 end.
Definition fits (t : ity) (z : Z) : Prop := (- 2 ^ (bits t - 1) <= z < 2 ^ (bits t - 1))%Z.

(** ** Entries: the (row, column) pairs, from zero, in storage order *)
Definition coo_entries (p : coo) : list (Z * Z) :=
  combine (map (fun r => (r - o_first p)%Z) (o_row p)) (map (fun c => (c - o_first p)%Z) (o_col p)).
Definition slice {A} (l : list A) (a b : nat) : list A := firstn (b - a) (skipn a l).
Definition at_ (l : list Z) (i : nat) : nat := Z.to_nat (nth i l 0%Z).
(** Row indices stored for column [c]. *)
Definition csc_column (p : csc) (c : nat) : list Z := slice (c_inner p) (at_ (c_outer p) c) (at_ (c_outer p) (S c)).
Definition csc_entries (p : csc) : list (Z * Z) :=
  flat_map (fun c => map (fun r => (r, Z.of_nat c)) (csc_column p c)) (seq 0 (c_cols p)).
(** All elements in column-major order; for [Upper] only those with row <= column. *)
Definition dense_entries (d : dense) : list (Z * Z) :=
  flat_map (fun c => map (fun r => (Z.of_nat r, Z.of_nat c))
                         (seq 0 (match d_sym d with Upper => S c | _ => d_rows d end)))
           (seq 0 (d_cols d)).

(** ** Valid patterns *)
Definition in_bounds (n : nat) (z : Z) : Prop := (0 <= z < Z.of_nat n)%Z.
Definition valid_coo (p : coo) : Prop :=
  length (o_row p) = length (o_col p) /\
  Forall (fun e => in_bounds (o_rows p) (fst e) /\ in_bounds (o_cols p) (snd e)) (coo_entries p).
Definition valid_csc (p : csc) : Prop :=
  length (c_outer p) = S (c_cols p) /\
  nth 0 (c_outer p) 0%Z = 0%Z /\
  (forall c, c < c_cols p -> (nth c (c_outer p) 0 <= nth (S c) (c_outer p) 0)%Z) /\
  nth (c_cols p) (c_outer p) 0%Z = Z.of_nat (length (c_inner p)) /\
  Forall (in_bounds (c_rows p)) (c_inner p).

(** ** Truthful order flags *)
Definition col_major (a b : Z * Z) : Prop := (snd a < snd b \/ (snd a = snd b /\ fst a <= fst b))%Z.
Definition row_major (a b : Z * Z) : Prop := (fst a < fst b \/ (fst a = fst b /\ snd a <= snd b))%Z.
Definition coo_truthful (p : coo) : Prop :=
  match o_order p with
  | Unsorted => True
  | SortedByColsAndRows => StronglySorted col_major (coo_entries p)
  | SortedByColsOnly => StronglySorted (fun a b => (snd a <= snd b)%Z) (coo_entries p)
  | SortedByRowsAndCols => StronglySorted row_major (coo_entries p)
  | SortedByRowsOnly => StronglySorted (fun a b => (fst a <= fst b)%Z) (coo_entries p)
  end.
Definition csc_truthful (p : csc) : Prop :=
  match c_order p with
  | CscUnsorted => True
  | SortedRows => forall c, c < c_cols p -> StronglySorted Z.le (csc_column p c)
  end.

(** ** What std::ranges::sort does: some sorted permutation. [id] distinguishes
    calls, so equal ranges may be sorted differently by different calls. *)
Definition sorter := forall A : Type, nat -> (A -> A -> bool) -> list A -> list A.
Definition strict_weak {A} (lt : A -> A -> bool) : Prop :=
  (forall a, lt a a = false) /\
  (forall a b c, lt a b = true -> lt b c = true -> lt a c = true) /\
  (forall a b c, lt a b = false -> lt b c = false -> lt a c = false).
Definition good_sorter (srt : sorter) : Prop :=
  forall A id (lt : A -> A -> bool) l, strict_weak lt ->
    Permutation (srt A id lt l) l /\ StronglySorted (fun a b => lt b a = false) (srt A id lt l).

(** ** Requests *)
Inductive target := ToDense | ToCoo (ti : ity) (first : option Z) | ToCsc (ti ts : ity) (order : option csc_order).
Inductive sparsity := SpDense (d : dense) | SpCsc (ti ts : ity) (p : csc) | SpCoo (ti : ity) (p : coo).

(** Element (r, c) of a full column-major array with [rows] rows. *)
Definition element {V} (rows : nat) (vals : list V) (r c : nat) : option V := nth_error vals (r + c * rows).

(** ** Index types are large enough for a pattern (dimensions, number of entries,
    index base and the largest shifted index) *)
Definition coo_fits (t : ity) (p : coo) : Prop :=
  fits t (o_first p) /\ fits t (o_first p + Z.of_nat (o_rows p)) /\ fits t (o_first p + Z.of_nat (o_cols p)) /\
  fits t (Z.of_nat (o_rows p)) /\ fits t (Z.of_nat (o_cols p) + 1) /\ fits t (Z.of_nat (length (o_row p))).
Definition dims_fit (t : ity) (rows cols : nat) (base : Z) : Prop :=
  fits t base /\ fits t (Z.of_nat rows) /\ fits t (Z.of_nat cols) /\
  fits t (base + Z.of_nat rows) /\ fits t (base + Z.of_nat cols).

(** ** Dense results *)
(** An entry that symmetric storage does not allow. *)
Definition wrong_side (sy : symmetry) (e : Z * Z) : Prop :=
  match sy with Unsymmetric => False | Upper => (snd e < fst e)%Z | Lower => (fst e < snd e)%Z end.
(** Value [v] is stored for element (r, c), or, with symmetric storage, for (c, r). *)
Definition stored {V} (sy : symmetry) (es : list (Z * Z)) (vals : list V) (r c : nat) (v : V) : Prop :=
  exists i, nth_error vals i = Some v /\
    (nth_error es i = Some (Z.of_nat r, Z.of_nat c) \/
     (sy <> Unsymmetric /\ nth_error es i = Some (Z.of_nat c, Z.of_nat r))).
(** The full column-major array of the matrix with these entries and values. *)
Definition is_dense_of {V} (zero : V) (rows cols : nat) (sy : symmetry) (es : list (Z * Z)) (vals : list V) (w : list V) : Prop :=
  length w = rows * cols /\
  forall r c, r < rows -> c < cols ->
    (forall v, stored sy es vals r c v -> element rows w r c = Some v) /\
    ((forall v, ~ stored sy es vals r c v) -> element rows w r c = Some zero).
(** Symmetric matrices are square. *)
Definition shape_ok (sy : symmetry) (rows cols : nat) : Prop := sy <> Unsymmetric -> rows = cols.

(** ** Any source *)
Definition source_ok (s : sparsity) : Prop :=
  match s with
  | SpDense _ => True
  | SpCsc _ _ p => valid_csc p /\ csc_truthful p
  | SpCoo _ p => valid_coo p /\ coo_truthful p
  end.
Definition source_rows (s : sparsity) : nat := match s with SpDense d => d_rows d | SpCsc _ _ p => c_rows p | SpCoo _ p => o_rows p end.
Definition source_cols (s : sparsity) : nat := match s with SpDense d => d_cols d | SpCsc _ _ p => c_cols p | SpCoo _ p => o_cols p end.
Definition source_sym (s : sparsity) : symmetry := match s with SpDense d => d_sym d | SpCsc _ _ p => c_sym p | SpCoo _ p => o_sym p end.
Definition source_entries (s : sparsity) : list (Z * Z) :=
  match s with SpDense d => dense_entries d | SpCsc _ _ p => csc_entries p | SpCoo _ p => coo_entries p end.
(** Number of values that go with the source. *)
Definition source_size (s : sparsity) : nat :=
  match s with SpDense d => d_rows d * d_cols d | SpCsc _ _ p => length (c_inner p) | SpCoo _ p => length (o_row p) end.
(** Entries of the source with their values. *)
Definition triples {V} (s : sparsity) (vals : list V) : list ((Z * Z) * option V) :=
  match s with
  | SpDense d => map (fun e => (e, element (d_rows d) vals (Z.to_nat (fst e)) (Z.to_nat (snd e)))) (dense_entries d)
  | _ => combine (source_entries s) (map Some vals)
  end.
(** A dense source that can be converted to a sparse format. *)
Definition dense_supported (s : sparsity) : Prop :=
  match s with
  | SpDense d => match d_sym d with Unsymmetric => True | Upper => d_rows d = d_cols d | Lower => False end
  | _ => True
  end.
(** The requested index base; without request CSC and dense sources get 0, COO sources keep theirs. *)
Definition base_of (s : sparsity) (first : option Z) : Z :=
  match first with Some f => f | None => match s with SpCoo _ p => o_first p | _ => 0%Z end end.
(** The index types can represent everything they have to. *)
Definition indices_fit (s : sparsity) (to : target) : Prop :=
  match s, to with
  | SpCoo tf p, ToDense => fits tf (Z.of_nat (o_rows p)) /\ fits tf (Z.of_nat (o_cols p))
  | _, ToDense => True
  | SpCoo tf p, ToCoo ti f => coo_fits ti p /\ fits ti (base_of s f - o_first p) /\ dims_fit ti (o_rows p) (o_cols p) (base_of s f)
  | _, ToCoo ti f => dims_fit ti (source_rows s) (source_cols s) (base_of s f)
  | SpCoo tf p, ToCsc ti ts _ => coo_fits tf p /\ coo_fits ti p /\ fits ts (Z.of_nat (length (o_row p)))
  | _, ToCsc ti ts _ => fits ti (Z.of_nat (source_rows s)) /\ fits ts (Z.of_nat (length (source_entries s)))
  end.

(** ** What a conversion needs. [dbg]: the build checks assertions. *)
(** Symmetric matrices are square; dense ones are stored full or as upper triangle. *)
Definition supported (s : sparsity) (to : target) : Prop :=
  match to with
  | ToDense => shape_ok (source_sym s) (source_rows s) (source_cols s)
  | _ => dense_supported s
  end.
(** Duplicates are only asserted against, except that a dense result needs uniqueness. *)
Definition no_duplicates (dbg : bool) (s : sparsity) (to : target) : Prop :=
  match to, s with
  | ToDense, SpDense _ => True
  | ToDense, _ => NoDup (source_entries s)
  | _, _ => dbg = true -> NoDup (source_entries s)
  end.
(** Asking for unsorted CSC from sorted COO fails an assertion (C65). *)
Definition request_ok (dbg : bool) (s : sparsity) (to : target) : Prop :=
  match to, s with
  | ToCsc _ _ (Some CscUnsorted), SpCoo _ p => dbg = true -> o_order p <> SortedByColsAndRows
  | _, _ => True
  end.
