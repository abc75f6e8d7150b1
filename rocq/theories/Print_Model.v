(** Model of implementation/print.tpp and print.hpp (paths relative to
    /repo/src/include/guanaqo).

    The output stream is the list of characters written to it. Simplifications: the
    stream does not fail and has its default formatting (no width, base, ...);
    print_elem (19-34) is the parameter [show]. *)
From Verif Require Import Base Bytes MatView_Model.
Local Open Scope outcome_scope.
Local Open Scope Z_scope.

(** os << integer: decimal digits, most significant first. The fuel is never used up. print.tpp:26. *)
Fixpoint digits_rev (fuel : nat) (n : Z) : list Z :=
  match fuel with
  | O => []
  | S fuel => if n <? 10 then [48 + n] else (48 + n mod 10) :: digits_rev fuel (n / 10)
  end.
(** print.tpp:26 *)
Definition show_nat (n : Z) : list Z := rev (digits_rev (S (Z.to_nat (Z.log2 n))) n).
(** print_elem for integers other than character types, print.tpp:24-27 *)
Definition show_int (n : Z) : list Z := if n <? 0 then 45 :: show_nat (- n) else show_nat n.
(** print_elem for char, signed char and unsigned char, print.tpp:24-27: operator<<
    writes the character. *)
Definition show_char (n : Z) : list Z := [n mod 256].

(** PrintOpts, print.hpp:19-30 (precision is not used by any function). *)
Record opts := Opts {
  delimiter : list Z; line_start : list Z; line_end : list Z; start : list Z; end_ : list Z;
  indent : nat; indent_char : Z; column_vector_as_1d : bool; row_vector_as_1d : bool }.
(** print.hpp:19-30 (PrintOpts and its defaults) *)
Definition default_opts : opts := Opts (bytes ",") [] [10] [] [10] 0 32 true true.

Section Print.
Context {V : Type} (show : V -> list Z).
(** M(r, c) as used at print.tpp:50, 60. *)
Definition element (v : view) (m : mem V) (r c : Z) : outcome V := a <- at_ v r c ;; load m a.
(** print_csv_impl, print.tpp:38-68 *)
Definition print_csv_impl (v : view) (m : mem V) (o : opts) (os : list Z) : outcome (list Z) :=
  let ind := repeat (indent_char o) (indent o) in
  if ((cols v =? 1) && column_vector_as_1d o) || ((rows v =? 1) && row_vector_as_1d o) then
    let os := os ++ ind ++ start o in
    os <- for_ 0 (rows v) (fun r os =>
            for_ 0 (cols v) (fun c os =>
              x <- element v m r c ;;
              let os := os ++ show x in
              Ok (if negb (r =? rows v - 1) || negb (c =? cols v - 1) then os ++ delimiter o else os)) os) os ;;
    Ok (os ++ end_ o)
  else
    os <- for_ 0 (rows v) (fun r os =>
            let os := os ++ ind ++ (if r =? 0 then start o else line_start o) in
            os <- for_ 0 (cols v) (fun c os =>
                    x <- element v m r c ;;
                    let os := os ++ show x in
                    Ok (if negb (c =? cols v - 1) then os ++ delimiter o else os)) os ;;
            Ok (if negb (r =? rows v - 1) then os ++ line_end o else os)) os ;;
    Ok (os ++ end_ o).
(** print_matlab_impl, print.tpp:70-90 *)
Definition matlab_opts (v : view) : opts :=
  if cols v =? 1 then Opts (bytes "; ") [] [10] (bytes "[") (bytes "]") 0 32 true true
  else Opts (bytes " ") (bytes " ") (bytes ";" ++ [10]) (bytes "[") (bytes "]") 0 32 true true.
(** print.tpp:70-90 *)
Definition print_matlab_impl (v : view) (m : mem V) (endl os : list Z) : outcome (list Z) :=
  os <- print_csv_impl v m (matlab_opts v) os ;; Ok (os ++ endl).
(** print_python_impl, print.tpp:92-114 *)
Definition python_opts (v : view) (squeeze : bool) : opts :=
  if ((cols v =? 1) && squeeze) || ((rows v =? 1) && squeeze)
  then Opts (bytes ", ") [] [10] (bytes "[") (bytes "]") 0 32 true true
  else Opts (bytes ", ") (bytes " [") (bytes "]," ++ [10]) (bytes "[[") (bytes "]]") 0 32 false false.
(** print.tpp:92-114 *)
Definition print_python_impl (v : view) (m : mem V) (endl : list Z) (squeeze : bool) (os : list Z) : outcome (list Z) :=
  os <- print_csv_impl v m (python_opts v squeeze) os ;; Ok (os ++ endl).

(** print_csv(os, span), print.hpp:62-72: the view of a span (49: cols = 1, 50-52:
    strides). The overloads for print_matlab (90-99) and print_python (118-127) use the
    same view; those for MatrixView (74-88, 101-115, 129-143) copy its members. *)
Definition span_view (data size : Z) : view := plain data size 1 1.
End Print.
