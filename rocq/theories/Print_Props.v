(** C48, C49: printing matrices. *)
From Verif Require Import Base Bytes MatView_Model MatView_Spec Csv_Spec Csv_Model Csv_Proofs Csv_Numbers Csv_Props.
From Verif Require Import Print_Spec Print_Model Print_Proofs Print_Ints.
Local Notation concat := List.concat.
Local Open Scope outcome_scope.
Local Open Scope Z_scope.

(** ** C49: layouts *)
Theorem C49_csv_layout : forall V (show : V -> list Z) v m M o os, holds v m M ->
  let tokens := map (map show) M in
  let indentation := repeat (indent_char o) (indent o) in
  ((cols v = 1 /\ column_vector_as_1d o = true) \/ (rows v = 1 /\ row_vector_as_1d o = true) ->
     print_csv_impl show v m o os = Ok (os ++ one_line indentation (start o) (delimiter o) (end_ o) (concat tokens))) /\
  (~ ((cols v = 1 /\ column_vector_as_1d o = true) \/ (rows v = 1 /\ row_vector_as_1d o = true)) ->
     print_csv_impl show v m o os =
       Ok (os ++ line_per_row indentation (start o) (line_start o) (delimiter o) (line_end o) (end_ o) tokens)).
Proof.
  intros V show v m M o os HM tokens indentation. split; intros H.
  - apply (print_csv_one_line show v m M HM o os). unfold one_dim. destruct H as [[-> ->]|[-> ->]]; cbn [andb orb]; [reflexivity|]. apply orb_true_r.
  - apply (print_csv_lines show v m M HM o os). unfold one_dim. destruct (Z.eqb_spec (cols v) 1), (Z.eqb_spec (rows v) 1), (column_vector_as_1d o), (row_vector_as_1d o); cbn; auto; exfalso; apply H; auto.
Qed.
Print Assumptions C49_csv_layout.

Lemma joined_more d t u ts : joined d (t :: u :: ts) = t ++ d ++ joined d (u :: ts). Proof. reflexivity. Qed.
Lemma joined_prefix d p t ts : joined d ((p ++ t) :: ts) = p ++ joined d (t :: ts).
Proof. destruct ts; cbn [joined]; [reflexivity|]. now rewrite <- app_assoc. Qed.
Lemma joined_wrap {A} (f : A -> list Z) a b d p more : forall x,
  joined (b ++ d) ((a ++ f x) :: map (fun y => p ++ a ++ f y) more) ++ b = joined (d ++ p) (map (fun y => a ++ f y ++ b) (x :: more)).
Proof.
  induction more as [|y more IH]; intros x.
  - cbn [map joined]. now rewrite <- app_assoc.
  - cbn [map]. rewrite !joined_more, joined_prefix. cbn [map] in IH. rewrite <- (IH y). now rewrite <- !app_assoc.
Qed.
(** Python. Vectors with squeeze: a list. *)
Theorem C49_python_vector : forall V (show : V -> list Z) v m M endl os, holds v m M -> cols v = 1 \/ rows v = 1 ->
  print_python_impl show v m endl true os = Ok (os ++ py_list (map show (concat M)) ++ endl).
Proof.
  intros V show v m M endl os HM H. unfold print_python_impl.
  replace (python_opts v true) with (Opts (bytes ", ") [] [10] (bytes "[") (bytes "]") 0 32 true true).
  2: { unfold python_opts. destruct H as [-> | ->]; cbn [andb orb Z.eqb]; [reflexivity|]. now rewrite orb_true_r. }
  rewrite (proj1 (C49_csv_layout V show v m M _ os HM)) by (destruct H; cbn; auto). cbn [bind]. unfold one_line. cbn [indent indent_char start delimiter end_ repeat app].
  rewrite concat_map. unfold py_list. now rewrite <- !app_assoc.
Qed.
Print Assumptions C49_python_vector.
(** Everything else: a list of lists, provided there is a row. *)
Theorem C49_python_matrix_partial : forall V (show : V -> list Z) v m M endl squeeze os, holds v m M ->
  (squeeze = true -> cols v <> 1 /\ rows v <> 1) -> rows v <> 0 ->
  print_python_impl show v m endl squeeze os = Ok (os ++ py_matrix (map (map show) M) ++ endl).
Proof.
  intros V show v m M endl squeeze os HM H Hr. unfold print_python_impl.
  replace (python_opts v squeeze) with (Opts (bytes ", ") (bytes " [") (bytes "]," ++ [10]) (bytes "[[") (bytes "]]") 0 32 false false).
  2: { unfold python_opts. destruct squeeze; [|now rewrite !andb_false_r]. destruct (H eq_refl) as [H1 H2]. rewrite (proj2 (Z.eqb_neq _ _) H1), (proj2 (Z.eqb_neq _ _) H2). reflexivity. }
  rewrite (proj2 (C49_csv_layout V show v m M _ os HM)) by (cbn; intuition discriminate). cbn [bind]. cbn [indent indent_char start line_start delimiter line_end end_ repeat].
  rewrite <- app_assoc. f_equal. f_equal. f_equal. destruct M as [|first more]; [destruct HM as (L & _); cbn in L; lia|]. cbn [map line_per_row app].
  pose proof (joined_wrap (joined (bytes ", ")) (bytes "[") (bytes "]") (bytes "," ++ [10]) (bytes " ") (map (map show) more) (map show first)) as J.
  unfold py_matrix. change (map py_list (map show first :: map (map show) more)) with (map (fun y => bytes "[" ++ joined (bytes ", ") y ++ bytes "]") (map show first :: map (map show) more)).
  change (bytes "," ++ [10] ++ bytes " ") with ((bytes "," ++ [10]) ++ bytes " "). rewrite <- J.
  change (bytes "[[") with (bytes "[" ++ bytes "["). change (bytes "]]") with (bytes "]" ++ bytes "]"). rewrite <- (app_assoc (bytes "[") (bytes "[")), joined_prefix, <- !app_assoc. reflexivity.
Qed.
Print Assumptions C49_python_matrix_partial.
(** Refuted without rows: the closing brackets are printed without opening ones. *)
Theorem C49_python_no_rows_refuted : forall V (show : V -> list Z) (m : mem V),
  exists v, holds v m [] /\ print_python_impl show v m [10] true [] = Ok (bytes "]]" ++ [10]).
Proof.
  intros V show m. exists (View 0 0 2 1 0). split; [|reflexivity].
  split; [reflexivity|]. split; [constructor|]. intros r row c x H. destruct r; discriminate.
Qed.
Print Assumptions C49_python_no_rows_refuted.

(** Matlab *)
Theorem C49_matlab_column : forall V (show : V -> list Z) v m M endl os, holds v m M -> cols v = 1 ->
  print_matlab_impl show v m endl os = Ok (os ++ matlab_column (map show (concat M)) ++ endl).
Proof.
  intros V show v m M endl os HM H. unfold print_matlab_impl, matlab_opts. rewrite (proj2 (Z.eqb_eq _ _) H).
  rewrite (proj1 (C49_csv_layout V show v m M _ os HM)) by (cbn; auto). cbn [bind]. unfold one_line. cbn [indent indent_char start delimiter end_ repeat app].
  rewrite concat_map. unfold matlab_column. now rewrite <- !app_assoc.
Qed.
Print Assumptions C49_matlab_column.
Theorem C49_matlab_matrix_partial : forall V (show : V -> list Z) v m M endl os, holds v m M -> cols v <> 1 -> rows v <> 0 ->
  print_matlab_impl show v m endl os = Ok (os ++ matlab_matrix (map (map show) M) ++ endl).
Proof.
  intros V show v m M endl os HM H Hr. unfold print_matlab_impl, matlab_opts. rewrite (proj2 (Z.eqb_neq _ _) H). unfold matlab_matrix.
  destruct M as [|first more] eqn:EM; [destruct HM as (L & _); cbn in L; lia|]. rewrite <- EM in *. destruct (Z.eq_dec (rows v) 1) as [R|R].
  - rewrite (proj1 (C49_csv_layout V show v m M _ os HM)) by (cbn; auto). cbn [bind]. unfold one_line. cbn [indent indent_char start delimiter end_ repeat app].
    assert (E : M = [first]). { destruct HM as (L & _). rewrite EM in L |- *. destruct more; [reflexivity|]. cbn [length] in L. lia. }
    rewrite E. cbn [map List.concat joined]. rewrite app_nil_r. now rewrite <- !app_assoc.
  - rewrite (proj2 (C49_csv_layout V show v m M _ os HM)) by (cbn; intuition). cbn [bind]. cbn [indent indent_char start line_start delimiter line_end end_ repeat].
    rewrite <- app_assoc. f_equal. f_equal. rewrite EM. cbn [map line_per_row app]. rewrite joined_prefix.
    pose proof (joined_wrap (joined (bytes " ")) [] [] (bytes ";" ++ [10]) (bytes " ") (map (map show) more) (map show first)) as J. cbn [app] in J. rewrite app_nil_r in J.
    change (bytes ";" ++ [10] ++ bytes " ") with ((bytes ";" ++ [10]) ++ bytes " ").
    rewrite (map_ext (fun y => joined (bytes " ") y ++ []) (joined (bytes " ")) (fun a => app_nil_r _)) in J. cbn [map] in J |- *.
    rewrite J. now rewrite <- !app_assoc.
Qed.
Print Assumptions C49_matlab_matrix_partial.
Theorem C49_matlab_no_rows_refuted : forall V (show : V -> list Z) (m : mem V),
  exists v, holds v m [] /\ print_matlab_impl show v m (bytes ";" ++ [10]) [] = Ok (bytes "];" ++ [10]).
Proof.
  intros V show m. exists (View 0 0 2 1 0). split; [|reflexivity].
  split; [reflexivity|]. split; [constructor|]. intros r row c x H. destruct r; discriminate.
Qed.
Print Assumptions C49_matlab_no_rows_refuted.

(** The elements can be recovered: different tokens give different texts. *)
Lemma first_occurrence (x : Z) p q a b : ~ In x p -> ~ In x q -> p ++ x :: a = q ++ x :: b -> p = q /\ a = b.
Proof.
  revert q. induction p as [|c p IH]; intros [|d q] Hp Hq E; cbn [app] in E.
  - injection E as ->. auto.
  - injection E as -> _. elim Hq. now left.
  - injection E as <- _. elim Hp. now left.
  - injection E as <- E. destruct (IH q) as [-> ->]; auto; intros K; [apply Hp|apply Hq]; now right.
Qed.
Lemma joined_inj_rows pre x post : ~ In x pre -> forall ts us, ts <> [] -> us <> [] ->
  Forall (fun t => ~ In x t) ts -> Forall (fun t => ~ In x t) us -> joined (pre ++ x :: post) ts = joined (pre ++ x :: post) us -> ts = us.
Proof.
  intros Hp. induction ts as [|t ts IH]; intros us Ht Hu Ft Fu E; [congruence|]. destruct us as [|u us]; [congruence|].
  inversion Ft as [|? ? Nt Ft']; subst. inversion Fu as [|? ? Nu Fu']; subst.
  assert (Napp : forall a, ~ In x a -> ~ In x (a ++ pre)) by (intros a Ha K; apply in_app_or in K; destruct K; auto).
  destruct ts as [|t2 ts], us as [|u2 us].
  - cbn in E. congruence.
  - rewrite joined_more in E. cbn [joined] in E. exfalso. apply Nt. rewrite E. apply in_or_app. right. apply in_or_app. left. apply in_or_app. right. now left.
  - rewrite joined_more in E. cbn [joined] in E. exfalso. apply Nu. rewrite <- E. apply in_or_app. right. apply in_or_app. left. apply in_or_app. right. now left.
  - rewrite !joined_more in E. rewrite <- !app_assoc in E. cbn [app] in E. rewrite !(app_assoc _ pre) in E. apply first_occurrence in E; auto.
    destruct E as [E1 E2]. apply app_inv_tail in E1. apply app_inv_head in E2. subst u. f_equal. apply IH; auto; discriminate.
Qed.
Lemma joined_nonempty d ts : Forall (fun t => t <> []) ts -> ts <> [] -> joined d ts <> [].
Proof. intros H Hn E. destruct ts as [|t [|u ts]]; [congruence| |]; inversion H as [|? ? Ht _]; subst; cbn [joined] in E; [congruence|]. apply app_eq_nil in E. tauto. Qed.
Lemma joined_inj pre x post ts us : ~ In x pre ->
  Forall (fun t => t <> [] /\ ~ In x t) ts -> Forall (fun t => t <> [] /\ ~ In x t) us -> joined (pre ++ x :: post) ts = joined (pre ++ x :: post) us -> ts = us.
Proof.
  intros Hp Ft Fu E. assert (Hne : forall l, Forall (fun t => t <> [] /\ ~ In x t) l -> Forall (fun t => t <> []) l) by (intros l; apply Forall_impl; tauto).
  assert (Hin : forall l, Forall (fun t => t <> [] /\ ~ In x t) l -> Forall (fun t => ~ In x t) l) by (intros l; apply Forall_impl; tauto).
  destruct ts as [|t ts], us as [|u us]; auto.
  - exfalso. symmetry in E. apply joined_nonempty in E; auto. discriminate.
  - exfalso. apply joined_nonempty in E; auto. discriminate.
  - eapply joined_inj_rows; eauto; discriminate.
Qed.
(** Tokens: not empty, and without characters that the layout uses. *)
Definition plain_token (t : list Z) : Prop := t <> [] /\ forall c, In c (bytes "[],; " ++ [10]) -> ~ In c t.
Lemma joined_in d ts c : In c (joined d ts) -> In c d \/ Exists (In c) ts.
Proof.
  induction ts as [|t [|u ts] IH]; intros H; [destruct H| |].
  - right. now left.
  - rewrite joined_more in H. apply in_app_or in H. destruct H as [H|H]; [right; now left|]. apply in_app_or in H. destruct H as [H|H]; [now left|].
    destruct (IH H) as [K|K]; auto.
Qed.
Lemma plain_in c t : plain_token t -> In c (bytes "[],; " ++ [10]) -> ~ In c t. Proof. intros [_ H]. apply H. Qed.
Lemma plain_row d ts c : Forall plain_token ts -> In c (bytes "[],; " ++ [10]) -> ~ In c d -> ~ In c (joined d ts).
Proof. intros H Hc Hd K. apply joined_in in K. destruct K as [K|K]; [auto|]. apply Exists_exists in K. destruct K as (t & Ht & K). rewrite Forall_forall in H. exact (plain_in c t (H t Ht) Hc K). Qed.
Lemma map_inj_in {A B} (f : A -> B) : forall l1 l2, (forall a b, In a l1 -> In b l2 -> f a = f b -> a = b) -> map f l1 = map f l2 -> l1 = l2.
Proof.
  induction l1 as [|a l1 IH]; intros [|b l2] H E; try discriminate; auto. cbn in E. injection E as E1 E2. f_equal; [apply H; cbn; auto|]. apply IH; auto. intros; apply H; cbn; auto.
Qed.
Theorem C49_python_recoverable : forall rows1 rows2 : list (list (list Z)), rows1 <> [] -> rows2 <> [] ->
  Forall (Forall plain_token) rows1 -> Forall (Forall plain_token) rows2 -> py_matrix rows1 = py_matrix rows2 -> rows1 = rows2.
Proof.
  intros rows1 rows2 N1 N2 F1 F2 E. unfold py_matrix in E. apply app_inv_head in E. apply app_inv_tail in E.
  assert (Hl : forall rows : list (list (list Z)), Forall (Forall plain_token) rows -> Forall (fun t => ~ In 10 t) (map py_list rows)).
  { intros rows0 F. apply Forall_map. revert F. apply Forall_impl. intros row F K. unfold py_list in K. apply in_app_or in K. destruct K as [K|K]; [vm_compute in K; intuition discriminate|].
    apply in_app_or in K. destruct K as [K|K]; [|vm_compute in K; intuition discriminate]. revert K. apply plain_row; [exact F|vm_compute; auto 20|vm_compute; intuition discriminate]. }
  apply (joined_inj_rows (bytes ",") 10 (bytes " ")) in E; auto.
  - apply map_inj_in in E; auto. intros a b Ha Hb H. unfold py_list in H. apply app_inv_head in H. apply app_inv_tail in H.
    rewrite Forall_forall in F1, F2. refine (joined_inj [] 44 (bytes " ") a b (fun K => K) _ _ H); [specialize (F1 a Ha)|specialize (F2 b Hb)];
    (eapply Forall_impl; [|eassumption]; intros t Ht; split; [apply Ht|apply (plain_in 44 t Ht); vm_compute; auto 20]).
  - vm_compute. intuition discriminate.
  - destruct rows1; [congruence|discriminate].
  - destruct rows2; [congruence|discriminate].
Qed.
Print Assumptions C49_python_recoverable.
Theorem C49_matlab_recoverable : forall rows1 rows2 : list (list (list Z)), rows1 <> [] -> rows2 <> [] ->
  Forall (Forall plain_token) rows1 -> Forall (Forall plain_token) rows2 -> matlab_matrix rows1 = matlab_matrix rows2 -> rows1 = rows2.
Proof.
  intros rows1 rows2 N1 N2 F1 F2 E. unfold matlab_matrix in E. apply app_inv_head in E. apply app_inv_tail in E.
  assert (Hl : forall rows : list (list (list Z)), Forall (Forall plain_token) rows -> Forall (fun t => ~ In 10 t) (map (joined (bytes " ")) rows)).
  { intros rows0 F. apply Forall_map. revert F. apply Forall_impl. intros row F. apply plain_row; [exact F|vm_compute; auto 20|vm_compute; intuition discriminate]. }
  apply (joined_inj_rows (bytes ";") 10 (bytes " ")) in E; auto.
  - apply map_inj_in in E; auto. intros a b Ha Hb H. rewrite Forall_forall in F1, F2. refine (joined_inj [] 32 [] a b (fun K => K) _ _ H); [specialize (F1 a Ha)|specialize (F2 b Hb)];
    (eapply Forall_impl; [|eassumption]; intros t Ht; split; [apply Ht|apply (plain_in 32 t Ht); vm_compute; auto 20]).
  - vm_compute. intuition discriminate.
  - destruct rows1; [congruence|discriminate].
  - destruct rows2; [congruence|discriminate].
Qed.
Print Assumptions C49_matlab_recoverable.
Theorem C49_vector_recoverable : forall ts us : list (list Z), Forall plain_token ts -> Forall plain_token us ->
  (py_list ts = py_list us -> ts = us) /\ (matlab_column ts = matlab_column us -> ts = us).
Proof.
  intros ts us F1 F2. assert (G : forall c, In c (bytes "[],; " ++ [10]) -> forall l, Forall plain_token l -> Forall (fun t => t <> [] /\ ~ In c t) l).
  { intros c Hc l. apply Forall_impl. intros t Ht. split; [apply Ht|now apply (plain_in c t)]. }
  split; intros E; [unfold py_list in E|unfold matlab_column in E]; apply app_inv_head in E; apply app_inv_tail in E.
  - apply (joined_inj [] 44 (bytes " ")) in E; auto; apply G; auto; vm_compute; auto 20.
  - apply (joined_inj [] 59 (bytes " ")) in E; auto; apply G; auto; vm_compute; auto 20.
Qed.
Print Assumptions C49_vector_recoverable.
(** The tokens of integers are their decimal notations, and these are plain. *)
Theorem C49_integer_tokens : forall n, is_decimal n (show_int n) /\ plain_token (show_int n).
Proof.
  intros n. split; [apply show_int_decimal|]. split; [apply show_int_nonempty|]. intros c Hc K. apply show_int_chars in K. vm_compute in Hc. intuition lia.
Qed.
Print Assumptions C49_integer_tokens.

(** A 2x3 row-major view into an array *)
Definition example_mem : mem Z := fun a => if (0 <=? a) && (a <? 12) then Some (a * a - 20) else None.
Definition example_view : view := View 2 2 3 4 1.
Example example_holds : holds example_view example_mem [[-16; -11; -4]; [16; 29; 44]].
Proof.
  split; [reflexivity|]. split; [repeat constructor|]. intros r row c x Hr Hc.
  destruct r as [|[|r]]; [| |destruct r; discriminate]; injection Hr as <-; destruct c as [|[|[|c]]]; try (injection Hc as <-; reflexivity); destruct c; discriminate.
Qed.
Example C49_example_python : print_python_impl show_int example_view example_mem [10] true [] = Ok (bytes "[[-16, -11, -4]," ++ [10] ++ bytes " [16, 29, 44]]" ++ [10]).
Proof. vm_compute. reflexivity. Qed.
Example C49_example_matlab : print_matlab_impl show_int example_view example_mem (bytes ";" ++ [10]) [] = Ok (bytes "[-16 -11 -4;" ++ [10] ++ bytes " 16 29 44];" ++ [10]).
Proof. vm_compute. reflexivity. Qed.

(** ** C48: print_csv, then csv_read *)
Lemma csv_document M : M <> [] -> line_per_row [] [] [] (bytes ",") [10] [10] (map (map show_int) M) = document 44 (map (fun row => (map show_int row, false)) M).
Proof.
  intros HM. destruct M as [|first more]; [congruence|]. clear HM.
  assert (J : forall ts, joined (bytes ",") ts = line_of 44 ts false).
  { unfold line_of. intros ts. rewrite app_nil_r. induction ts as [|t [|u ts] IH]; auto. rewrite joined_more, IH. reflexivity. }
  cbn [map line_per_row app]. rewrite map_map. revert first. induction more as [|row more IH]; intros first.
  - cbn [map joined document List.concat]. unfold document. cbn [map List.concat]. rewrite app_nil_r. now rewrite J.
  - cbn [map]. rewrite joined_more. rewrite <- app_assoc. rewrite <- app_assoc. unfold document. cbn [map List.concat]. fold (document 44 (map (fun row => (map show_int row, false)) (row :: more))).
    rewrite <- app_assoc. rewrite J. f_equal. f_equal. cbn [map] in IH. exact (IH row).
Qed.
Lemma int_entries lo hi row : - 10 ^ 60 < lo -> hi < 10 ^ 60 -> Forall (fun x => lo <= x <= hi) row -> entries (integer lo hi) 44 (map show_int row) row.
Proof.
  intros Hlo Hhi H. induction H as [|x row Hx Hr IH]; cbn [map]; constructor; auto. split; [now apply show_int_value|].
  split; [intros K; apply show_int_chars in K; lia|]. split; [intros K; apply show_int_chars in K; unfold newline in K; lia|]. apply show_int_length. lia.
Qed.
Lemma line_not_comment row trailing : trailing = false -> ~ is_comment (line_of 44 (map show_int row) trailing).
Proof.
  intros -> (body & E). unfold line_of in E. rewrite app_nil_r in E. destruct row as [|x row]; [discriminate|].
  pose proof (show_int_nonempty x) as Hx. pose proof (show_int_chars x hash) as Hc. cbn [map join] in E.
  destruct (show_int x) as [|c t]; [congruence|]. assert (c = hash) by (destruct (map show_int row); cbn in E; injection E as -> _; reflexivity). subst c.
  specialize (Hc (or_introl eq_refl)). unfold hash in Hc. lia.
Qed.
(** For every integer type (range lo..hi) other than a character type. Whatever is printed
    behind the matrix ([more]) remains unread. *)
Theorem C48_print_csv_read_identity : forall eager lo hi v m M o more, - 10 ^ 60 < lo -> hi < 10 ^ 60 ->
  holds v m M -> Forall (Forall (fun x => lo <= x <= hi)) M -> 1 <= rows v ->
  o = default_opts /\ cols v <> 1 \/
  o = Opts (bytes ",") [] [10] [] [10] 0 32 false false ->
  exists text st', print_csv_impl show_int v m o [] = Ok text /\
    csv_read eager (integer lo hi) 44 (Z.to_nat (rows v)) (Z.to_nat (cols v)) (open (text ++ more)) = Ok (M, st') /\ at_text st' more.
Proof.
  intros eager lo hi v m M o more Hlo Hhi HM HF Hr Ho. pose proof HM as (L1 & L2 & _).
  assert (HN : M <> []) by (intros ->; cbn in L1; lia).
  assert (Ht : print_csv_impl show_int v m o [] = Ok (document 44 (map (fun row => (map show_int row, false)) M))).
  { rewrite <- csv_document by auto. destruct Ho as [[-> Hc]| ->].
    - destruct (Z.eq_dec (rows v) 1) as [R|R].
      + rewrite (proj1 (C49_csv_layout Z show_int v m M default_opts [] HM)) by (cbn; auto). f_equal. unfold one_line. cbn [default_opts indent indent_char start delimiter end_ repeat app].
        destruct M as [|row [|row2 M']]; cbn [length] in L1; try lia. cbn [map List.concat line_per_row joined app]. now rewrite app_nil_r.
      + rewrite (proj2 (C49_csv_layout Z show_int v m M default_opts [] HM)) by (cbn; intuition). reflexivity.
    - rewrite (proj2 (C49_csv_layout Z show_int v m M _ [] HM)) by (cbn; intuition discriminate). reflexivity. }
  exists (document 44 (map (fun row => (map show_int row, false)) M)).
  destruct (C44_matrix_of_fields eager Z (integer lo hi) 44 (Z.to_nat (cols v)) (map (fun row => (map show_int row, false)) M) M more) as (st' & E & At).
  - apply integer_separates; vm_compute; congruence.
  - clear Ht HM L1 Hr HN. induction M as [|row M' IH]; cbn [map]; constructor.
    + inversion HF as [|? ? F1 F2]; subst. inversion L2 as [|? ? W1 W2]; subst. split; [now apply int_entries|]. split; [rewrite map_length; lia|]. split; [reflexivity|]. now apply line_not_comment.
    + apply IH; [now inversion HF|now inversion L2].
  - exists st'. split; [exact Ht|]. rewrite map_length in E. replace (Z.to_nat (rows v)) with (length M) by lia. auto.
Qed.
Print Assumptions C48_print_csv_read_identity.
Example C48_example : exists text st, print_csv_impl show_int example_view example_mem default_opts [] = Ok text /\
  csv_read true int32 44 2 3 (open text) = Ok ([[-16; -11; -4]; [16; 29; 44]], st).
Proof.
  exists (bytes "-16,-11,-4" ++ [10] ++ bytes "16,29,44" ++ [10]). eexists. split; [vm_compute; reflexivity|]. vm_compute. reflexivity.
Qed.
(** A column vector is printed on one line by default, so it is not read back as a column
    (the option column_vector_as_1d = false is covered above). *)
Example C48_column : exists text, print_csv_impl show_int (View 2 3 1 1 3) example_mem default_opts [] = Ok text /\ text = bytes "-16,-11,-4" ++ [10] /\
  csv_read true int32 44 3 1 (open text) = Throw csv_read_error.
Proof. exists (bytes "-16,-11,-4" ++ [10]). split; [vm_compute; reflexivity|]. split; [reflexivity|]. vm_compute. reflexivity. Qed.
(** Character types are printed as characters: the 8-bit integers 1 and 44 do not come back. *)
Example C48_char_types : exists v m text, holds v m [[1; 44]] /\ print_csv_impl show_char v m default_opts [] = Ok text /\
  forall eager, csv_read eager (integer (-128) 127) 44 1 2 (open text) = Throw csv_read_error.
Proof.
  exists (View 0 1 2 1 1), (fun a => if a =? 0 then Some 1 else if a =? 1 then Some 44 else None), [1; 44; 44; 10]. split.
  - split; [reflexivity|]. split; [repeat constructor|]. intros r row c x Hr Hc. destruct r as [|r]; [|destruct r; discriminate]. injection Hr as <-.
    destruct c as [|[|c]]; try (injection Hc as <-; reflexivity); destruct c; discriminate.
  - split; [vm_compute; reflexivity|]. intros []; vm_compute; reflexivity.
Qed.
