(** C49: the overloads of print_csv, print_matlab and print_python for spans. *)
From Verif Require Import Base Bytes MatView_Model MatView_Spec Print_Model Print_Spec Print_Props.
Local Open Scope Z_scope.
(** The elements of a span: consecutive in memory *)
Definition span_holds {V} (m : mem V) (data : Z) (xs : list V) : Prop := forall i x, nth_error xs i = Some x -> m (data + Z.of_nat i) = Some x.
Lemma span_column {V} (m : mem V) d xs : span_holds m d xs -> holds (span_view d (Z.of_nat (length xs))) m (map (fun x => [x]) xs).
Proof.
  intros H. unfold holds, span_view, plain, elem. cbn [rows cols MatView_Model.data inner_stride outer_stride]. split; [now rewrite map_length|]. split.
  - apply Forall_map, Forall_forall. reflexivity.
  - intros r row c x R C. rewrite nth_error_map in R. destruct (nth_error xs r) as [y|] eqn:E; [|discriminate]. injection R as <-.
    destruct c as [|c]; [|destruct c; discriminate]. injection C as <-. rewrite <- (H r y E). f_equal. lia.
Qed.
Lemma concat_singletons {A} (l : list A) : List.concat (map (fun x => [x]) l) = l.
Proof. induction l; cbn; congruence. Qed.
(** One line of CSV; Matlab: a column; Python: a list, or (squeeze = false) a list of
    lists of one number each. Also if the span is empty, except for the last one. *)
Theorem C49_span_csv : forall V (show : V -> list Z) m data xs os, span_holds m data xs ->
  print_csv_impl show (span_view data (Z.of_nat (length xs))) m default_opts os = Ok (os ++ joined (bytes ",") (map show xs) ++ [10]).
Proof.
  intros V show m d xs os H. rewrite (proj1 (C49_csv_layout V show _ m _ default_opts os (span_column m d xs H))) by (left; split; reflexivity).
  unfold one_line. cbn [default_opts indent indent_char start delimiter end_ repeat app]. rewrite map_map. cbn [map]. f_equal. f_equal. f_equal. f_equal.
  rewrite <- (concat_singletons (map show xs)), map_map. reflexivity.
Qed.
Print Assumptions C49_span_csv.
Theorem C49_span_matlab : forall V (show : V -> list Z) m data xs endl os, span_holds m data xs ->
  print_matlab_impl show (span_view data (Z.of_nat (length xs))) m endl os = Ok (os ++ matlab_column (map show xs) ++ endl).
Proof.
  intros V show m d xs endl os H. rewrite (C49_matlab_column V show _ m _ endl os (span_column m d xs H)) by reflexivity. now rewrite concat_singletons.
Qed.
Print Assumptions C49_span_matlab.
Theorem C49_span_python : forall V (show : V -> list Z) m data xs endl os, span_holds m data xs ->
  print_python_impl show (span_view data (Z.of_nat (length xs))) m endl true os = Ok (os ++ py_list (map show xs) ++ endl) /\
  (xs <> [] -> print_python_impl show (span_view data (Z.of_nat (length xs))) m endl false os = Ok (os ++ py_matrix (map (fun x => [show x]) xs) ++ endl)) /\
  (xs = [] -> print_python_impl show (span_view data 0) m endl false os = Ok (os ++ bytes "]]" ++ endl)).
Proof.
  intros V show m d xs endl os H. pose proof (span_column m d xs H) as HM. split; [|split].
  - rewrite (C49_python_vector V show _ m _ endl os HM) by (left; reflexivity). now rewrite concat_singletons.
  - intros N. rewrite (C49_python_matrix_partial V show _ m _ endl false os HM); [now rewrite map_map|discriminate|]. cbn. destruct xs; [congruence|cbn [length]; lia].
  - intros _. unfold print_python_impl. unfold python_opts. cbn [andb]. rewrite !andb_false_r. cbn [orb]. cbn. now rewrite <- app_assoc.
Qed.
Print Assumptions C49_span_python.
Example C49_span_nonvacuous : span_holds (fun a => if a =? 8 then Some 3 else if a =? 9 then Some (-4) else None) 8 [3; -4] /\
  print_csv_impl show_int (span_view 8 2) (fun a => if a =? 8 then Some 3 else if a =? 9 then Some (-4) else None) default_opts [] = Ok (bytes "3,-4" ++ [10]).
Proof. split; [|reflexivity]. intros [|[|i]] x K; cbn in K; try (injection K as <-; reflexivity). destruct i; discriminate. Qed.

(** Indentation with the other options at their defaults: spaces before the line of a vector and before every row. *)
Definition indented (n : nat) : opts :=
  Opts (delimiter default_opts) (line_start default_opts) (line_end default_opts) (start default_opts) (end_ default_opts)
       n (indent_char default_opts) (column_vector_as_1d default_opts) (row_vector_as_1d default_opts).
Theorem C49_default_indentation : forall V (show : V -> list Z) v m M n os, holds v m M ->
  (cols v = 1 \/ rows v = 1 ->
     print_csv_impl show v m (indented n) os = Ok (os ++ repeat 32%Z n ++ joined (bytes ",") (List.concat (map (map show) M)) ++ [10])) /\
  (cols v <> 1 -> rows v <> 1 ->
     print_csv_impl show v m (indented n) os =
       Ok (os ++ line_per_row (repeat 32%Z n) [] [] (bytes ",") [10] [10] (map (map show) M))).
Proof.
  intros V show v m M n os H. destruct (C49_csv_layout V show v m M (indented n) os H) as [A B].
  split.
  - intros C. rewrite A by (destruct C; [left|right]; split; auto). reflexivity.
  - intros C D. rewrite B; [reflexivity|]. intros [[E _]|[E _]]; contradiction.
Qed.
Print Assumptions C49_default_indentation.
