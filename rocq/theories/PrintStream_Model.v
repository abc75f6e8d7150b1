(** The printing functions of implementation/print.tpp and the insertion of a log
    (trace.hpp:108-112) on a stream in an arbitrary state (paths relative to
    /repo/src/include/guanaqo): format flags, width, fill, a locale with digit grouping,
    a sink that takes only so many characters, and the bad bit.

    operator<< itself is libstdc++'s. Simplifications: no exceptions mask, no tie, no
    boolalpha (bool elements), one character per byte. *)
From Verif Require Import Base Bytes MatView_Model Print_Model TraceLine_Model.
Local Open Scope outcome_scope.
Local Open Scope Z_scope.

(** ios_base::adjustfield and basefield, used by every operator<< of print.tpp:21, 26, 31, 46-66. *)
Inductive adjust := Left | Right | Internal.
(** as above, print.tpp:26 *)
Inductive base := Dec | Hex | Oct.
(** The formatting state of a stream: flags, width, fill and numpunct facet (grouping,
    thousands_sep). Used by print.tpp:21-66, trace.hpp:109-111. *)
Record fmt := Fmt {
  width : Z; fill : Z; adjustfield : adjust; basefield : base; showpos : bool; showbase : bool; uppercase : bool;
  grouping : list Z; thousands_sep : Z }.
(** A stream: what its sink has taken, how much more it takes (None: everything), bad(), and
    the state above. The os of print.tpp:39. *)
Record ostream := OS { text : list Z; room : option nat; bad : bool; format : fmt }.

(** os.width(0), done by every insertion that passes its sentry. print.tpp:46 *)
Definition no_width (f : fmt) : fmt :=
  Fmt 0 (fill f) (adjustfield f) (basefield f) (showpos f) (showbase f) (uppercase f) (grouping f) (thousands_sep f).

(** Digits in a base other than ten, least significant first. print.tpp:26 *)
Fixpoint radix_rev (fuel : nat) (b a n : Z) : list Z :=
  let d := n mod b in
  let c := if d <? 10 then 48 + d else a + (d - 10) in
  match fuel with
  | O => []
  | S fuel => if n <? b then [c] else c :: radix_rev fuel b a (n / b)
  end.
(** print.tpp:26 *)
Definition radix (b a n : Z) : list Z := rev (radix_rev (S (Z.to_nat (Z.log2 n))) b a n).

(** std::__add_grouping on digits in reverse: a separator after each group; the last size
    repeats; a size that is not positive (or CHAR_MAX) ends the grouping. The fuel (number
    of digits) is never used up. print.tpp:26 *)
Fixpoint group_rev (fuel : nat) (sizes : list Z) (sep : Z) (ds : list Z) : list Z :=
  match fuel, sizes with
  | S fuel, g :: more =>
      if (g <=? 0) || (127 <=? g) || (Z.of_nat (length ds) <=? g) then ds
      else firstn (Z.to_nat g) ds ++ sep :: group_rev fuel (match more with [] => [g] | _ => more end) sep (skipn (Z.to_nat g) ds)
  | _, _ => ds
  end.
(** print.tpp:26 *)
Definition grouped (f : fmt) (ds : list Z) : list Z := rev (group_rev (length ds) (grouping f) (thousands_sep f) (rev ds)).

(** num_put::_M_insert_int: sign or prefix, and digits. [sgn]: a signed type, [bits]: its
    size. print.tpp:26, trace.hpp:109-111 *)
Definition int_prefix (f : fmt) (sgn : bool) (bits z : Z) : list Z :=
  match basefield f with
  | Dec => if z <? 0 then [45] else if showpos f && sgn then [43] else []
  | Hex => if showbase f && negb (z mod 2 ^ bits =? 0) then [48; if uppercase f then 88 else 120] else []
  | Oct => if showbase f && negb (z mod 2 ^ bits =? 0) then [48] else []
  end.
(** as above, print.tpp:26 *)
Definition int_digits (f : fmt) (bits z : Z) : list Z :=
  grouped f (match basefield f with
             | Dec => show_nat (Z.abs z)
             | Hex => radix 16 (if uppercase f then 65 else 97) (z mod 2 ^ bits)
             | Oct => radix 8 97 (z mod 2 ^ bits)
             end).

(** What is inserted: a string, string_view, char or C string, or an integer.
    print.tpp:21, 26, 31-32, 46-66. *)
Inductive item := Str (s : list Z) | Int (sgn : bool) (bits z : Z).
(** Padding: [pre] is what stays in front of the padding if it is internal (sign, 0x). print.tpp:21, 26 *)
Definition padded (f : fmt) (pre s : list Z) : list Z :=
  let p := repeat (fill f) (Z.to_nat (width f - Z.of_nat (length (pre ++ s)))) in
  match adjustfield f with Left => pre ++ s ++ p | Right => p ++ pre ++ s | Internal => pre ++ p ++ s end.
(** The characters an insertion gives to the sink. For strings internal padding is like right;
    for integers only a sign or 0x stays in front (std::__pad), not the octal 0. print.tpp:21, 26 *)
Definition rendered (f : fmt) (it : item) : list Z :=
  match it with
  | Str s => padded f [] s
  | Int sgn bits z =>
      match basefield f with
      | Oct => padded f [] (int_prefix f sgn bits z ++ int_digits f bits z)
      | _ => padded f (int_prefix f sgn bits z) (int_digits f bits z)
      end
  end.
(** sputn: the sink takes what there is room for; taking less sets the bad bit. print.tpp:21-66 *)
Definition write (s : list Z) (os : ostream) : ostream :=
  match room os with
  | None => OS (text os ++ s) None (bad os) (format os)
  | Some n => OS (text os ++ firstn n s) (Some (n - length s)%nat) (bad os || (n <? length s)%nat) (format os)
  end.
(** operator<<: nothing on a bad stream (its sentry fails). print.tpp:21-66, trace.hpp:109-111 *)
Definition insert (os : ostream) (it : item) : ostream :=
  if bad os then os
  else let o := write (rendered (format os) it) os in OS (text o) (room o) (bad o) (no_width (format o)).

(** The elements: floating point (text of float_to_str_vw), complex, integer, character. print.tpp:19-34 *)
Inductive value := Float (t : list Z) | Complex (re im : list Z) | Integer (sgn : bool) (bits z : Z) | Char (c : Z).
(** print_elem, print.tpp:19-34 *)
Definition print_elem (x : value) (os : ostream) : ostream :=
  match x with
  | Float t => insert os (Str t)
  | Complex re im => insert (insert (insert (insert os (Str re)) (Str (bytes " + "))) (Str im)) (Str (bytes "j"))
  | Integer sgn bits z => insert os (Int sgn bits z)
  | Char c => insert os (Str [c mod 256])
  end.

(** print_csv_impl, print.tpp:38-68 *)
Definition print_csv_to (v : view) (m : mem value) (o : opts) (os : ostream) : outcome ostream :=
  let ind := repeat (indent_char o) (indent o) in
  if ((cols v =? 1) && column_vector_as_1d o) || ((rows v =? 1) && row_vector_as_1d o) then
    os <- for_ 0 (rows v) (fun r os =>
            for_ 0 (cols v) (fun c os =>
              x <- element v m r c ;;
              let os := print_elem x os in
              Ok (if negb (r =? rows v - 1) || negb (c =? cols v - 1) then insert os (Str (delimiter o)) else os)) os)
          (insert (insert os (Str ind)) (Str (start o))) ;;
    Ok (insert os (Str (end_ o)))
  else
    os <- for_ 0 (rows v) (fun r os =>
            os <- for_ 0 (cols v) (fun c os =>
                    x <- element v m r c ;;
                    let os := print_elem x os in
                    Ok (if negb (c =? cols v - 1) then insert os (Str (delimiter o)) else os))
                  (insert (insert os (Str ind)) (Str (if r =? 0 then start o else line_start o))) ;;
            Ok (if negb (r =? rows v - 1) then insert os (Str (line_end o)) else os)) os ;;
    Ok (insert os (Str (end_ o))).
(** print_matlab_impl, print.tpp:70-90 *)
Definition print_matlab_to (v : view) (m : mem value) (endl : list Z) (os : ostream) : outcome ostream :=
  os <- print_csv_to v m (matlab_opts v) os ;; Ok (insert os (Str endl)).
(** print_python_impl, print.tpp:92-114 *)
Definition print_python_to (v : view) (m : mem value) (endl : list Z) (squeeze : bool) (os : ostream) : outcome ostream :=
  os <- print_csv_to v m (python_opts v squeeze) os ;; Ok (insert os (Str endl)).

(** operator<<(Log), trace.hpp:108-112. std::quoted makes one string and inserts that; the
    numbers are int64_t except thread_id, a size_t. *)
Definition log_items (l : log) : list item :=
  [Str (quoted (name l)); Str [44]; Int true 64 (instance l); Str [44]; Int true 64 (start_time l); Str [44];
   Int true 64 (duration l); Str [44]; Int false 64 (thread_id l); Str [44]; Int true 64 (flop_count l)].
(** trace.hpp:108-112 *)
Definition print_log_to (l : log) (os : ostream) : ostream := fold_left insert (log_items l) os.
(** A file of logs, one per line; trace.hpp:108-112. *)
Definition print_logs_to (ls : list log) (os : ostream) : ostream :=
  fold_left (fun os l => insert (print_log_to l os) (Str [10])) ls os.
