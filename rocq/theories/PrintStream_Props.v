(** C94: printing matrices and logs to a stream in an arbitrary state. *)
From Verif Require Import Base Bytes MatView_Model MatView_Spec MatView_Proofs Print_Model Print_Spec Print_Ints Print_Props TraceLine_Model PrintStream_Model PrintStream_Proofs.
Local Open Scope outcome_scope.
Local Open Scope Z_scope.

(** ** Specification *)
(** The text of an element on a stream with its default state; C48, C49 and C75 are about
    these texts. *)
Definition classic (x : value) : list Z :=
  match x with Float t => t | Complex re im => re ++ bytes " + " ++ im ++ bytes "j" | Integer _ _ z => show_int z | Char c => show_char c end.
(** Flags and locale that show a value the way the default state does. Nothing matters for
    floating-point numbers and characters. *)
Definition harmless (f : fmt) (x : value) : Prop :=
  match x with Integer sgn _ _ => basefield f = Dec /\ (showpos f = false \/ sgn = false) /\ grouping f = [] | _ => True end.
(** A stream with a sink that takes everything. *)
Definition unlimited (t : list Z) (f : fmt) : ostream := OS t None false f.
(** A stream with a sink that takes r more characters. *)
Definition limited (t : list Z) (r : nat) (f : fmt) : ostream := OS t (Some r) false f.
(** What an integer looks like, for any flags: sign, or the prefix of the base, and digits. *)
Definition with_integers (f : fmt) (x : value) : list Z :=
  match x with Integer sgn bits z => int_prefix f sgn bits z ++ int_digits f bits z | _ => classic x end.

Lemma group_rev_nil k sep ds : group_rev k [] sep ds = ds. Proof. destruct k; reflexivity. Qed.
Lemma shown_harmless f x : harmless f x -> shown f x = classic x.
Proof.
  destruct x as [t|re im|sgn bits z|c]; try reflexivity. cbn [harmless shown classic]. intros (B & P & G). unfold int_prefix, int_digits, grouped. rewrite B, G, group_rev_nil, rev_involutive.
  unfold show_int. destruct (Z.ltb_spec z 0) as [L|L]; [replace (Z.abs z) with (- z) by lia; reflexivity|]. replace (Z.abs z) with z by lia.
  replace (showpos f && sgn) with false; [reflexivity|]. destruct P as [-> | ->]; [reflexivity|]. now rewrite andb_false_r.
Qed.
Lemma shown_with f x : shown f x = with_integers f x. Proof. destruct x; reflexivity. Qed.

(** ** Width 0 *)
(** Floating-point matrices do not depend on flags and locale; integers do not if the
    base is ten, no '+' is asked for and digits are not grouped. The flags stay. *)
Theorem C94_default_text v m o t f : width f = 0 -> (forall a x, m a = Some x -> harmless f x) ->
  print_csv_to v m o (unlimited t f) = (t' <- print_csv_impl classic v m o t ;; Ok (unlimited t' f)).
Proof.
  intros W H. change (unlimited t f) with (mk f t). rewrite csv_mk_eq by exact W.
  rewrite (csv_show_ext (shown f) classic); [reflexivity|]. intros a x Hx. apply shown_harmless. exact (H a x Hx).
Qed.
Print Assumptions C94_default_text.
Theorem C94_default_text_matlab v m endl t f : width f = 0 -> (forall a x, m a = Some x -> harmless f x) ->
  print_matlab_to v m endl (unlimited t f) = (t' <- print_matlab_impl classic v m endl t ;; Ok (unlimited t' f)).
Proof.
  intros W H. unfold print_matlab_to, print_matlab_impl. rewrite C94_default_text by assumption. destruct (print_csv_impl classic v m (matlab_opts v) t) as [t'| | |]; cbn [bind]; try reflexivity.
  f_equal. exact (mk_str f W t' endl).
Qed.
Print Assumptions C94_default_text_matlab.
Theorem C94_default_text_python v m endl sq t f : width f = 0 -> (forall a x, m a = Some x -> harmless f x) ->
  print_python_to v m endl sq (unlimited t f) = (t' <- print_python_impl classic v m endl sq t ;; Ok (unlimited t' f)).
Proof.
  intros W H. unfold print_python_to, print_python_impl. rewrite C94_default_text by assumption. destruct (print_csv_impl classic v m (python_opts v sq) t) as [t'| | |]; cbn [bind]; try reflexivity.
  f_equal. exact (mk_str f W t' endl).
Qed.
Print Assumptions C94_default_text_python.

(** For any flags and locale: only the integers themselves look different; layout,
    delimiters and the order of the elements are those of C49. *)
Theorem C94_any_flags v m o t f : width f = 0 ->
  print_csv_to v m o (unlimited t f) = (t' <- print_csv_impl (with_integers f) v m o t ;; Ok (unlimited t' f)).
Proof.
  intros W. change (unlimited t f) with (mk f t). rewrite csv_mk_eq by exact W.
  rewrite (csv_show_ext (shown f) (with_integers f)); [reflexivity|]. intros a x _. apply shown_with.
Qed.
Print Assumptions C94_any_flags.

(** ** A width *)
(** The state afterwards: width 0, everything else as before. *)
Lemma orel_self {A} (P : A -> Prop) (x : outcome A) a : orel (fun a b => a = b /\ P a) x x -> x = Ok a -> P a.
Proof. intros H ->. exact (proj2 H). Qed.
Lemma csv_last v m o os os' : print_csv_to v m o os = Ok os' -> exists s, os' = insert s (Str (end_ o)).
Proof.
  unfold print_csv_to. cbv zeta. destruct ((cols v =? 1) && column_vector_as_1d o || (rows v =? 1) && row_vector_as_1d o); intros H.
  - match type of H with bind ?X _ = _ => destruct X as [s| | |]; cbn [bind] in H; try discriminate H end. injection H as <-. eauto.
  - match type of H with bind ?X _ = _ => destruct X as [s| | |]; cbn [bind] in H; try discriminate H end. injection H as <-. eauto.
Qed.
Theorem C94_state_afterwards v m o os os' : print_csv_to v m o os = Ok os' ->
  no_width (format os') = no_width (format os) /\ (bad os' = false -> format os' = no_width (format os)).
Proof.
  intros H. assert (E : no_width (format os') = no_width (format os)).
  { refine (orel_self (fun s => no_width (format s) = no_width (format os)) _ os' _ H). apply csv_rel; [|auto].
    intros s s' it [<- K]. split; [reflexivity|]. now rewrite insert_format. }
  split; [exact E|]. intros B. destruct (csv_last _ _ _ _ _ H) as (s & ->). pose proof (insert_width s (Str (end_ o)) B) as W. now rewrite <- E, no_width_none.
Qed.
Print Assumptions C94_state_afterwards.

(** A width pads the indentation of the first line, even an empty one, and nothing else:
    columns are not aligned. *)
Definition Rw (t P I : list Z) (f : fmt) (s s' : ostream) : Prop :=
  exists rest, s = unlimited (t ++ I ++ rest) f /\ s' = unlimited (t ++ P ++ rest) f.
Lemma Rw_insert t P I f s s' it : Rw t P I f s s' -> width f = 0 -> Rw t P I f (insert s it) (insert s' it).
Proof.
  intros (rest & -> & ->) W. unfold unlimited. exists (rest ++ rendered f it). rewrite !insert_none by exact W. unfold unlimited.
  now rewrite <- !app_assoc.
Qed.
Theorem C94_width_pads_first_indent v m o t f u :
  (cols v = 1 /\ column_vector_as_1d o = true) \/ (rows v = 1 /\ row_vector_as_1d o = true) \/ 0 < rows v ->
  let indentation := repeat (indent_char o) (indent o) in
  let padding := repeat (fill f) (Z.to_nat (width f - Z.of_nat (indent o))) in
  print_csv_to v m o (unlimited t (no_width f)) = Ok u ->
  exists rest, u = unlimited (t ++ indentation ++ rest) (no_width f) /\
    print_csv_to v m o (unlimited t f) =
      Ok (unlimited (t ++ match adjustfield f with Left => indentation ++ padding | _ => padding ++ indentation end ++ rest) (no_width f)).
Proof.
  intros C ind pad H. set (P := match adjustfield f with Left => ind ++ pad | _ => pad ++ ind end).
  assert (EP : padded f [] ind = P). { unfold padded, P, pad. cbn [app]. unfold ind. rewrite repeat_length. reflexivity. }
  set (g := no_width f) in *. assert (Wg : width g = 0) by reflexivity.
  assert (R0 : Rw t P ind g (insert (unlimited t g) (Str ind)) (insert (unlimited t f) (Str ind))).
  { exists []. rewrite !app_nil_r. split; [|]. - unfold unlimited. rewrite insert_none by exact Wg. now rewrite rendered_none. - unfold unlimited, insert, write. cbn [bad room text format rendered]. rewrite EP. reflexivity. }
  assert (G : orel (Rw t P ind g) (print_csv_to v m o (unlimited t g)) (print_csv_to v m o (unlimited t f))).
  { assert (HR : forall s s' it, Rw t P ind g s s' -> Rw t P ind g (insert s it) (insert s' it)) by (intros; now apply Rw_insert).
    unfold print_csv_to. cbv zeta. fold ind. destruct ((cols v =? 1) && column_vector_as_1d o || (rows v =? 1) && row_vector_as_1d o) eqn:E.
    - eapply orel_bind; [|intros a b K; cbn [orel]; apply HR; exact K]. apply for_rel; [|apply HR; exact R0].
      intros r a b K. apply for_rel; [|exact K]. intros c a' b' K'. now apply (body_rel _ HR).
    - eapply orel_bind; [|intros a b K; cbn [orel]; apply HR; exact K].
      assert (L : 0 < rows v). { destruct C as [[C1 C2]|[[C1 C2]|C1]]; [rewrite C1, C2 in E|rewrite C1, C2 in E|exact C1]; cbn in E; rewrite ?orb_true_r in E; discriminate E. }
      unfold for_ at 1 3. rewrite Z.sub_0_r. destruct (Z.to_nat (rows v)) as [|n] eqn:En; [lia|]. cbn [loop].
      assert (B : forall r a b, Rw t P ind g (insert a (Str ind)) (insert b (Str ind)) ->
        orel (Rw t P ind g)
          (os <- for_ 0 (cols v) (fun c os => x <- element v m r c ;; let os := print_elem x os in Ok (if negb (c =? cols v - 1) then insert os (Str (delimiter o)) else os))
                  (insert (insert a (Str ind)) (Str (if r =? 0 then start o else line_start o))) ;; Ok (if negb (r =? rows v - 1) then insert os (Str (line_end o)) else os))
          (os <- for_ 0 (cols v) (fun c os => x <- element v m r c ;; let os := print_elem x os in Ok (if negb (c =? cols v - 1) then insert os (Str (delimiter o)) else os))
                  (insert (insert b (Str ind)) (Str (if r =? 0 then start o else line_start o))) ;; Ok (if negb (r =? rows v - 1) then insert os (Str (line_end o)) else os))).
      { intros r a b K. eapply orel_bind; [|intros a' b' K'; cbn [orel]; apply (cond_rel _ HR); exact K']. apply for_rel; [|apply HR; exact K].
        intros c a' b' K'. now apply (body_rel _ HR). }
      eapply orel_bind; [apply B; exact R0|]. intros a b K. apply loop_rel; [|exact K]. intros r a' b' K'. apply B. now apply HR. }
  rewrite H in G. destruct (print_csv_to v m o (unlimited t f)) as [l| | |]; cbn in G; try contradiction. destruct G as (rest & -> & ->). exists rest. split; reflexivity.
Qed.
Print Assumptions C94_width_pads_first_indent.
(** Without rows it pads the end. *)
Theorem C94_width_pads_end v m o t f : rows v <= 0 -> ~ (cols v = 1 /\ column_vector_as_1d o = true) ->
  print_csv_to v m o (unlimited t f) =
    let padding := repeat (fill f) (Z.to_nat (width f - Z.of_nat (length (end_ o)))) in
    Ok (unlimited (t ++ match adjustfield f with Left => end_ o ++ padding | _ => padding ++ end_ o end) (no_width f)).
Proof.
  intros L C. unfold print_csv_to. cbv zeta. replace ((cols v =? 1) && column_vector_as_1d o) with false by (destruct (Z.eqb_spec (cols v) 1), (column_vector_as_1d o); cbn; try reflexivity; tauto).
  rewrite (proj2 (Z.eqb_neq (rows v) 1)) by lia. cbn [andb orb]. unfold for_. replace (Z.to_nat (rows v - 0)) with 0%nat by lia.
  cbn [loop bind]. reflexivity.
Qed.
Print Assumptions C94_width_pads_end.

(** ** A sink that fails *)
(** The sink gets a prefix of the text and the stream says whether it is all of it. *)
Theorem C94_cut_off v m o t r f u : print_csv_to v m o (unlimited t f) = Ok u ->
  exists d l, text u = t ++ d /\ print_csv_to v m o (limited t r f) = Ok l /\
    text l = t ++ firstn r d /\ (bad l = true <-> (r < length d)%nat).
Proof.
  intros H. assert (G : orel (Rroom t r) (print_csv_to v m o (unlimited t f)) (print_csv_to v m o (limited t r f))).
  { apply csv_rel; [intros; now apply Rroom_insert|]. exists []. cbn [text unlimited limited room bad format length app firstn].
    rewrite firstn_nil, !app_nil_r, Nat.sub_0_r. repeat split. }
  rewrite H in G. destruct (print_csv_to v m o (limited t r f)) as [l| | |]; cbn in G; try contradiction. destruct G as (d & E1 & E2 & _ & E3 & _).
  exists d, l. split; [exact E1|]. split; [reflexivity|]. split; [exact E2|]. rewrite E3. apply Nat.ltb_lt.
Qed.
Print Assumptions C94_cut_off.
Theorem C94_bad_stream v m o os os' : bad os = true -> print_csv_to v m o os = Ok os' -> os' = os.
Proof.
  intros B H. refine (orel_self (fun s => s = os) _ os' _ H). apply csv_rel; [|auto]. intros s s' it [<- ->]. split; [reflexivity|]. now apply insert_bad.
Qed.
Print Assumptions C94_bad_stream.

(** ** Logs *)
Lemma items_mk f (W : width f = 0) its : forall t, fold_left insert its (unlimited t f) = unlimited (t ++ List.concat (map (rendered f) its)) f.
Proof.
  induction its as [|it its IH]; intros t; cbn [fold_left map List.concat]; [now rewrite app_nil_r|]. unfold unlimited at 1. rewrite insert_none by exact W.
  fold (unlimited (t ++ rendered f it) f). rewrite IH. now rewrite <- app_assoc.
Qed.
Lemma int_classic f sgn bits z : width f = 0 -> harmless f (Integer sgn bits z) -> rendered f (Int sgn bits z) = show_int z.
Proof. intros W H. rewrite rendered_none by exact W. exact (shown_harmless f (Integer sgn bits z) H). Qed.
Lemma fold_texts {A S0} (g : list Z -> S0) (F : S0 -> A -> S0) (h : A -> list Z) ls :
  (forall l t, F (g t) l = g (t ++ h l)) -> forall t, fold_left F ls (g t) = g (t ++ flat_map h ls).
Proof.
  intros H. induction ls as [|l ls IH]; intros t; cbn [fold_left flat_map]; [now rewrite app_nil_r|].
  rewrite H, IH. now rewrite <- app_assoc.
Qed.
Theorem C94_logs_default ls t f : width f = 0 -> basefield f = Dec -> showpos f = false -> grouping f = [] ->
  print_logs_to ls (unlimited t f) = unlimited (t ++ print_logs ls) f.
Proof.
  intros W B P G.
  assert (L : forall l t, print_log_to l (unlimited t f) = unlimited (t ++ print_log l) f).
  { intros l t'. unfold print_log_to. rewrite items_mk by exact W. unfold log_items, print_log. cbn [map List.concat].
    rewrite !int_classic by (auto; cbn; auto). rewrite !rendered_none by exact W. now rewrite app_nil_r. }
  unfold print_logs_to, print_logs. apply (fold_texts (fun t => unlimited t f)). intros l t'. rewrite L.
  rewrite app_assoc. exact (mk_str f W (t' ++ print_log l) [10]).
Qed.
Print Assumptions C94_logs_default.
Theorem C94_logs_cut_off ls t r f :
  exists d, text (print_logs_to ls (unlimited t f)) = t ++ d /\
    text (print_logs_to ls (limited t r f)) = t ++ firstn r d /\ (bad (print_logs_to ls (limited t r f)) = true <-> (r < length d)%nat).
Proof.
  assert (G : Rroom t r (print_logs_to ls (unlimited t f)) (print_logs_to ls (limited t r f))).
  { apply logs_rel; [intros; now apply Rroom_insert|]. exists []. cbn [text unlimited limited room bad format length app firstn].
    rewrite firstn_nil, !app_nil_r, Nat.sub_0_r. repeat split. }
  destruct G as (d & E1 & E2 & _ & E3 & _). exists d. split; [exact E1|]. split; [exact E2|]. rewrite E3. apply Nat.ltb_lt.
Qed.
Print Assumptions C94_logs_cut_off.

(** ** Where printing relies on the state of the stream *)
Definition us_locale : fmt := Fmt 0 32 Right Dec false false false [3] 44.
Definition hexadecimal : fmt := Fmt 0 32 Right Hex false false false [] 44.
Definition default_fmt : fmt := Fmt 0 32 Right Dec false false false [] 44.
Lemma grouped_thousands n : 1000 <= n < 1000000 -> 100 <= n mod 1000 -> int_digits us_locale 32 n = show_nat (n / 1000) ++ [44] ++ show_nat (n mod 1000).
Proof.
  intros H K. unfold int_digits, grouped. cbn [basefield grouping thousands_sep us_locale]. replace (Z.abs n) with n by lia.
  destruct (show_nat_thousands n ltac:(lia) K) as [E L]. rewrite E, rev_app_distr. set (a := show_nat (n / 1000)) in *. set (b := show_nat (n mod 1000)) in *.
  assert (La : (1 <= length a <= 3)%nat).
  { assert (Q : 1 <= n / 1000 < 1000) by (split; [apply Z.div_le_lower_bound; lia|apply Z.div_lt_upper_bound; lia]).
    destruct (show_nat_ok (n / 1000) ltac:(lia)) as (N1 & _ & _ & N2 & _). specialize (N2 3%nat ltac:(lia) ltac:(cbn; lia)). fold a in N1, N2. destruct a; [congruence|]. cbn [length] in *. lia. }
  rewrite app_length, L. destruct (length a + 3)%nat as [|[|k]] eqn:Ek; [lia|lia|]. cbn [group_rev].
  rewrite app_length, !rev_length, L. change (3 <=? 0) with false. change (127 <=? 3) with false. cbn [orb]. rewrite (proj2 (Z.leb_gt _ _)) by lia.
  change (Z.to_nat 3) with 3%nat. rewrite firstn_app, skipn_app, rev_length, L, firstn_all2, skipn_all2 by (rewrite rev_length; lia). cbn [Nat.sub firstn skipn app]. rewrite app_nil_r.
  rewrite rev_length, (proj2 (Z.leb_le _ _)) by lia. rewrite rev_app_distr. cbn [rev]. rewrite !rev_involutive. now rewrite <- app_assoc.
Qed.
(** In a locale with digit grouping (std::locale::global(std::locale("")) is enough) a number
    becomes two fields of a CSV file, without any sign of it. *)
Theorem C94_grouping_refuted : forall n, 1000 <= n < 1000000 -> 100 <= n mod 1000 ->
  let one := fun a : Z => if a =? 0 then Some (Integer true 32 n) else None in
  let two := fun a : Z => if a =? 0 then Some (Integer true 32 (n / 1000)) else if a =? 1 then Some (Integer true 32 (n mod 1000)) else None in
  exists text, print_csv_to (View 0 1 1 1 1) one default_opts (unlimited [] us_locale) = Ok (unlimited text us_locale) /\
               print_csv_to (View 0 1 2 1 1) two default_opts (unlimited [] default_fmt) = Ok (unlimited text default_fmt).
Proof.
  intros n H K one two. assert (Q : 1 <= n / 1000) by (apply Z.div_le_lower_bound; lia). exists (show_nat (n / 1000) ++ [44] ++ show_nat (n mod 1000) ++ [10]). split.
  - rewrite C94_any_flags by reflexivity. assert (E : print_csv_impl (with_integers us_locale) (View 0 1 1 1 1) one default_opts [] = Ok (with_integers us_locale (Integer true 32 n) ++ [10])) by reflexivity.
    rewrite E. cbn [bind]. f_equal. f_equal. cbn [with_integers]. rewrite (grouped_thousands n H K). unfold int_prefix. cbn [basefield us_locale showpos andb]. rewrite (proj2 (Z.ltb_ge n 0)) by lia. cbn [app]. now rewrite <- app_assoc.
  - rewrite C94_default_text; [|reflexivity|intros a x Hx; unfold two in Hx; destruct (a =? 0); [injection Hx as <-; cbn; auto|destruct (a =? 1); [injection Hx as <-; cbn; auto|discriminate Hx]]].
    assert (E : print_csv_impl classic (View 0 1 2 1 1) two default_opts [] = Ok ((((show_int (n / 1000)) ++ [44]) ++ show_int (n mod 1000)) ++ [10])) by reflexivity.
    rewrite E. cbn [bind]. f_equal. f_equal. unfold show_int. rewrite !(proj2 (Z.ltb_ge _ _)) by lia. now rewrite <- !app_assoc.
Qed.
Print Assumptions C94_grouping_refuted.
(** A stream left in hexadecimal mode by earlier output: other numbers. *)
Theorem C94_hexadecimal_refuted : forall n, 16 <= n <= 25 ->
  let mat := fun (n : Z) (a : Z) => if a =? 0 then Some (Integer true 32 n) else None in
  exists text, print_csv_to (View 0 1 1 1 1) (mat n) default_opts (unlimited [] hexadecimal) = Ok (unlimited text hexadecimal) /\
               print_csv_to (View 0 1 1 1 1) (mat (n - 6)) default_opts (unlimited [] default_fmt) = Ok (unlimited text default_fmt).
Proof.
  intros n H mat. exists (show_int (n - 6) ++ [10]). split.
  - assert (n = 16 \/ n = 17 \/ n = 18 \/ n = 19 \/ n = 20 \/ n = 21 \/ n = 22 \/ n = 23 \/ n = 24 \/ n = 25) as D by lia.
    decompose [or] D; subst; reflexivity.
  - rewrite C94_default_text; [|reflexivity|intros a x Hx; unfold mat in Hx; destruct (a =? 0); [injection Hx as <-; cbn; auto|discriminate Hx]]. reflexivity.
Qed.
Print Assumptions C94_hexadecimal_refuted.
(** Logs get a seventh column. *)
Theorem C94_log_grouping_refuted : forall nm n, 1000 <= n < 1000000 -> 100 <= n mod 1000 ->
  print_log_to (Log nm 0 0 0 0 n) (unlimited [] us_locale) =
    unlimited (print_log (Log nm 0 0 0 0 (n / 1000)) ++ [44] ++ show_int (n mod 1000)) us_locale.
Proof.
  intros nm n H K. assert (Q : 1 <= n / 1000) by (apply Z.div_le_lower_bound; lia). unfold print_log_to. rewrite items_mk by reflexivity. unfold unlimited. f_equal. unfold log_items, print_log.
  cbn [map List.concat name instance start_time duration thread_id flop_count]. rewrite !rendered_none by reflexivity.
  replace (int_digits us_locale 64 n) with (int_digits us_locale 32 n) by reflexivity. rewrite (grouped_thousands n H K).
  unfold int_prefix. cbn [basefield us_locale showpos andb]. rewrite (proj2 (Z.ltb_ge n 0)) by lia. unfold show_int. rewrite !(proj2 (Z.ltb_ge _ _)) by (lia || (apply Z.mod_pos_bound; lia)).
  rewrite <- !app_assoc. cbn [app]. rewrite app_nil_r. reflexivity.
Qed.
Print Assumptions C94_log_grouping_refuted.

(** ** Non-vacuity *)
Definition ints : mem value := fun a => if (0 <=? a) && (a <? 4) then Some (Integer true 32 (10 * a - 5)) else None.
Example C94_flags_example :
  print_csv_to (View 0 2 2 1 2) ints default_opts (unlimited [] (Fmt 0 32 Right Dec true false false [] 44)) =
    Ok (unlimited (bytes "-5,+15" ++ [10] ++ bytes "+5,+25" ++ [10]) (Fmt 0 32 Right Dec true false false [] 44)).
Proof. reflexivity. Qed.
Example C94_width_example :
  print_csv_to (View 0 2 2 1 2) ints default_opts (unlimited [] (Fmt 6 42 Right Hex false true true [] 44)) =
    Ok (unlimited (bytes "******0XFFFFFFFB,0XF" ++ [10] ++ bytes "0X5,0X19" ++ [10]) (Fmt 0 42 Right Hex false true true [] 44)).
Proof. reflexivity. Qed.
Example C94_cut_example :
  print_csv_to (View 0 2 2 1 2) ints default_opts (limited (bytes ">") 4 default_fmt) = Ok (OS (bytes ">-5,1") (Some 0%nat) true default_fmt).
Proof. reflexivity. Qed.
Example C94_group_example : int_digits (Fmt 0 32 Right Dec false false false [3; 2] 46) 64 123456789 = bytes "12.34.56.789".
Proof. reflexivity. Qed.
Example C94_internal_example : rendered (Fmt 8 48 Internal Hex false true false [] 44) (Int true 32 (-1)) = bytes "0xffffffff" /\
  rendered (Fmt 8 48 Internal Dec false true false [] 44) (Int true 32 (-17)) = bytes "-0000017" /\
  rendered (Fmt 8 48 Left Oct false true false [] 44) (Int false 32 8) = bytes "01000000".
Proof. repeat split. Qed.
