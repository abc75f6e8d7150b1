(** Simulations between the printing functions on different streams. *)
From Verif Require Import Base Bytes MatView_Model MatView_Proofs Print_Model Print_Ints TraceLine_Model PrintStream_Model.
Local Open Scope outcome_scope.
Local Open Scope Z_scope.

Definition orel {A B} (R : A -> B -> Prop) (x : outcome A) (y : outcome B) : Prop :=
  match x, y with
  | Ok a, Ok b => R a b | Throw e, Throw e' => e = e' | Abort, Abort => True | UB, UB => True | _, _ => False
  end.
Lemma orel_bind {A B A' B'} (R : A -> B -> Prop) (R' : A' -> B' -> Prop) x y f g :
  orel R x y -> (forall a b, R a b -> orel R' (f a) (g b)) -> orel R' (bind x f) (bind y g).
Proof. destruct x, y; cbn; intros H K; try contradiction; auto. Qed.
Lemma orel_refl {A} (x : outcome A) : orel eq x x. Proof. destruct x; cbn; auto. Qed.
Lemma loop_rel {A B} (R : A -> B -> Prop) n : forall i f g s s',
  (forall i s s', R s s' -> orel R (f i s) (g i s')) -> R s s' -> orel R (loop n i f s) (loop n i g s').
Proof.
  induction n as [|n IH]; intros i f g s s' H K; cbn [loop]; [exact K|].
  eapply orel_bind; [apply H; exact K|]. intros a b Hab. apply IH; auto.
Qed.
Lemma for_rel {A B} (R : A -> B -> Prop) lo hi f g s s' :
  (forall i s s', R s s' -> orel R (f i s) (g i s')) -> R s s' -> orel R (for_ lo hi f s) (for_ lo hi g s').
Proof. apply loop_rel. Qed.

Lemma fold_rel {A B C} (R : A -> B -> Prop) (f : A -> C -> A) (g : B -> C -> B) ls :
  (forall x a b, R a b -> R (f a x) (g b x)) -> forall s s', R s s' -> R (fold_left f ls s) (fold_left g ls s').
Proof. intros H. induction ls as [|l ls IH]; intros s s' K; cbn [fold_left]; auto. Qed.

(** ** Two streams *)
Section Two.
Context (R : ostream -> ostream -> Prop) (HR : forall s s' it, R s s' -> R (insert s it) (insert s' it)).
Lemma elem_rel x s s' : R s s' -> R (print_elem x s) (print_elem x s').
Proof using HR. intros H. destruct x; cbn [print_elem]; repeat apply HR; exact H. Qed.
Lemma cond_rel (b : bool) it s s' : R s s' -> R (if b then insert s it else s) (if b then insert s' it else s').
Proof using HR. destruct b; auto. Qed.
Lemma body_rel v m r c (b : bool) it s s' : R s s' ->
  orel R (x <- element v m r c ;; let os := print_elem x s in Ok (if b then insert os it else os))
         (x <- element v m r c ;; let os := print_elem x s' in Ok (if b then insert os it else os)).
Proof using HR. intros H. eapply orel_bind; [apply orel_refl|]. intros a ? <-. cbn. apply cond_rel, elem_rel, H. Qed.
Lemma csv_rel v m o s s' : R s s' -> orel R (print_csv_to v m o s) (print_csv_to v m o s').
Proof using HR.
  intros H. unfold print_csv_to. destruct ((cols v =? 1) && column_vector_as_1d o || (rows v =? 1) && row_vector_as_1d o).
  - eapply orel_bind; [|intros a b K; cbn; apply HR; exact K]. apply for_rel; [|repeat apply HR; exact H].
    intros r a b K. apply for_rel; [|exact K]. intros c a' b' K'. now apply body_rel.
  - eapply orel_bind; [|intros a b K; cbn; apply HR; exact K]. apply for_rel; [|exact H].
    intros r a b K. eapply orel_bind; [|intros a' b' K'; cbn; apply cond_rel; exact K']. apply for_rel; [|repeat apply HR; exact K]. intros c a' b' K'. now apply body_rel.
Qed.
Lemma items_rel its : forall s s', R s s' -> R (fold_left insert its s) (fold_left insert its s').
Proof using HR. induction its as [|it its IH]; cbn [fold_left]; auto. Qed.
Lemma log_rel l s s' : R s s' -> R (print_log_to l s) (print_log_to l s').
Proof using HR. intros H. unfold print_log_to. apply items_rel. exact H. Qed.
Lemma logs_rel ls s s' : R s s' -> R (print_logs_to ls s) (print_logs_to ls s').
Proof using HR.
  intros H. unfold print_logs_to. apply fold_rel; [|exact H].
  intros l a b K. apply HR. apply log_rel. exact K.
Qed.
End Two.

(** ** A stream without width and a list of characters *)
Definition shown (f : fmt) (x : value) : list Z :=
  match x with
  | Float t => t
  | Complex re im => re ++ bytes " + " ++ im ++ bytes "j"
  | Integer sgn bits z => int_prefix f sgn bits z ++ int_digits f bits z
  | Char c => [c mod 256]
  end.
Lemma padded_none f pre s : width f = 0 -> padded f pre s = pre ++ s.
Proof. intros H. unfold padded. rewrite H. replace (Z.to_nat (0 - _)) with 0%nat by lia. cbn [repeat]. destruct (adjustfield f); cbn [app]; now rewrite ?app_nil_r. Qed.
Lemma rendered_none f it : width f = 0 -> rendered f it = match it with Str s => s | Int sgn bits z => int_prefix f sgn bits z ++ int_digits f bits z end.
Proof. intros H. destruct it; cbn [rendered]; [now rewrite padded_none|]. destruct (basefield f); rewrite padded_none; auto. Qed.
Lemma no_width_none f : width f = 0 -> no_width f = f. Proof. destruct f. cbn. now intros ->. Qed.
Lemma insert_none f t it : width f = 0 -> insert (OS t None false f) it = OS (t ++ rendered f it) None false f.
Proof. intros H. unfold insert, write. cbn [bad room text format]. now rewrite no_width_none. Qed.

Section Plain.
Context (f : fmt) (Hf : width f = 0).
Definition mk (t : list Z) : ostream := OS t None false f.
Definition Rm (t : list Z) (os : ostream) : Prop := os = mk t.
Lemma mk_str t s : insert (mk t) (Str s) = mk (t ++ s).
Proof using Hf. unfold mk. now rewrite insert_none, rendered_none. Qed.
Lemma mk_elem x t : print_elem x (mk t) = mk (t ++ shown f x).
Proof using Hf.
  destruct x; cbn [print_elem shown]; rewrite ?mk_str; auto.
  - now rewrite <- !app_assoc.
  - unfold mk. now rewrite insert_none, rendered_none.
Qed.
Lemma mk_cond (b : bool) t s : (if b then insert (mk t) (Str s) else mk t) = mk (if b then t ++ s else t).
Proof using Hf. destruct b; [apply mk_str|reflexivity]. Qed.
Lemma mk_body v m r c (b : bool) d t os : Rm t os ->
  orel Rm (x <- element v m r c ;; let os := t ++ shown f x in Ok (if b then os ++ d else os))
          (x <- element v m r c ;; let os := print_elem x os in Ok (if b then insert os (Str d) else os)).
Proof using Hf. intros ->. eapply orel_bind; [apply orel_refl|]. intros a ? <-. cbn. unfold Rm. now rewrite mk_elem, mk_cond. Qed.
Lemma csv_mk v m o t : orel Rm (print_csv_impl (shown f) v m o t) (print_csv_to v m o (mk t)).
Proof using Hf.
  unfold print_csv_impl, print_csv_to. cbv zeta. destruct ((cols v =? 1) && column_vector_as_1d o || (rows v =? 1) && row_vector_as_1d o).
  - apply (orel_bind Rm Rm); [|intros a b K; hnf in K; subst b; cbn [orel]; unfold Rm; apply mk_str]. apply for_rel; [|unfold Rm; now rewrite !mk_str, <- app_assoc].
    intros r a b K. apply for_rel; [|exact K]. intros c a' b' K'. now apply mk_body.
  - apply (orel_bind Rm Rm); [|intros a b K; hnf in K; subst b; cbn [orel]; unfold Rm; apply mk_str]. apply for_rel; [|reflexivity].
    intros r a b K; hnf in K; subst b. apply (orel_bind Rm Rm); [|intros a' b' K'; hnf in K'; subst b'; cbn [orel]; unfold Rm; apply mk_cond]. apply for_rel; [|unfold Rm; now rewrite !mk_str, <- app_assoc].
    intros c a' b' K'. now apply mk_body.
Qed.
Lemma csv_mk_eq v m o t : print_csv_to v m o (mk t) = (t <- print_csv_impl (shown f) v m o t ;; Ok (mk t)).
Proof using Hf.
  pose proof (csv_mk v m o t) as H. destruct (print_csv_impl (shown f) v m o t), (print_csv_to v m o (mk t)); cbn in H |- *; try contradiction; try congruence.
Qed.
End Plain.

(** Elements shown alike are printed alike *)
Lemma csv_show_ext (sh sh' : value -> list Z) v m o : (forall a x, m a = Some x -> sh x = sh' x) -> forall t,
  print_csv_impl sh v m o t = print_csv_impl sh' v m o t.
Proof.
  intros E t.
  assert (B : forall r c (b : bool) d (a a' : list Z), a = a' -> orel eq (x <- element v m r c ;; let os := a ++ sh x in Ok (if b then os ++ d else os))
                                       (x <- element v m r c ;; let os := a' ++ sh' x in Ok (if b then os ++ d else os))).
  { intros r c b d a a' <-. unfold element. destruct (at_ v r c) as [p| | |]; cbn; auto. unfold load. destruct (m p) as [x|] eqn:Ep; cbn; auto. now rewrite (E _ _ Ep). }
  assert (G : orel eq (print_csv_impl sh v m o t) (print_csv_impl sh' v m o t)).
  { unfold print_csv_impl. destruct ((cols v =? 1) && column_vector_as_1d o || (rows v =? 1) && row_vector_as_1d o).
    - apply (orel_bind eq eq); [|intros a b ->; reflexivity]. apply for_rel; [|reflexivity]. intros r a b ->. apply for_rel; [|reflexivity]. intros c a' b' K. now apply B.
    - apply (orel_bind eq eq); [|intros a b ->; reflexivity]. apply for_rel; [|reflexivity]. intros r a b ->. apply (orel_bind eq eq); [|intros a' b' ->; reflexivity].
      apply for_rel; [|reflexivity]. intros c a' b' K. now apply B. }
  destruct (print_csv_impl sh v m o t), (print_csv_impl sh' v m o t); cbn in G; try contradiction; congruence.
Qed.

(** ** A sink with room for r characters *)
Definition Rroom (t0 : list Z) (r : nat) (u l : ostream) : Prop :=
  exists d, text u = t0 ++ d /\ text l = t0 ++ firstn r d /\ room l = Some (r - length d)%nat /\ bad l = (r <? length d)%nat /\
    room u = None /\ bad u = false /\ (bad l = false -> format l = format u).
Lemma firstn_rest r (d s : list Z) : (length d <= r)%nat -> firstn r (d ++ s) = firstn r d ++ firstn (r - length d) s.
Proof. intros _. apply firstn_app. Qed.
Lemma Rroom_insert t0 r u l it : Rroom t0 r u l -> Rroom t0 r (insert u it) (insert l it).
Proof.
  destruct u as [tu ru bu fu], l as [tl rl bl fl]. unfold Rroom. cbn [text room bad format].
  intros (d & -> & -> & -> & -> & -> & -> & Hf). unfold insert. cbn [bad]. destruct (Nat.ltb_spec r (length d)) as [L|L].
  - cbn [write room text bad format]. exists (d ++ rendered fu it). rewrite app_assoc. rewrite app_length.
    rewrite firstn_app, (proj2 (Nat.sub_0_le r (length d))) by lia. cbn [firstn]. rewrite app_nil_r.
    repeat split; try reflexivity; [f_equal; lia|symmetry; apply Nat.ltb_lt; lia|discriminate].
  - rewrite (Hf eq_refl). unfold write. cbn [room text bad format]. exists (d ++ rendered fu it). rewrite !app_assoc, app_length, firstn_app, app_assoc.
    repeat split; try reflexivity; [f_equal; lia|]. cbn [orb]. destruct (Nat.ltb_spec (r - length d) (length (rendered fu it))), (Nat.ltb_spec r (length d + length (rendered fu it))); lia || reflexivity.
Qed.

(** ** After an insertion the width is 0 and nothing else has changed *)
Definition Rfmt (f : fmt) (u l : ostream) : Prop := no_width (format u) = no_width f.
Lemma no_width_twice f : no_width (no_width f) = no_width f. Proof. reflexivity. Qed.
Lemma insert_format s it : no_width (format (insert s it)) = no_width (format s).
Proof. unfold insert. destruct (bad s); [reflexivity|]. cbn [format]. unfold write. destruct (room s); reflexivity. Qed.
Lemma insert_width s it : bad (insert s it) = false -> width (format (insert s it)) = 0.
Proof. unfold insert. destruct (bad s) eqn:E; [intros; congruence|]. reflexivity. Qed.

(** ** What the text starts with does not matter *)
Definition Rpre (p : list Z) (s s' : ostream) : Prop := text s' = p ++ text s /\ room s = None /\ room s' = None /\ bad s = false /\ bad s' = false /\ format s = format s'.
Lemma Rpre_insert p s s' it : Rpre p s s' -> Rpre p (insert s it) (insert s' it).
Proof.
  destruct s as [t r b f], s' as [t' r' b' f']. unfold Rpre. cbn [text room bad format]. intros (-> & -> & -> & -> & -> & ->).
  unfold insert, write. cbn [text room bad format]. rewrite app_assoc. repeat split.
Qed.

(** ** A bad stream is left alone *)
Lemma insert_bad s it : bad s = true -> insert s it = s. Proof. unfold insert. now intros ->. Qed.

(** ** Decimal digits *)
Lemma digits_fuel : forall f1 f2 n, 0 <= n < 2 ^ Z.of_nat f1 -> n < 2 ^ Z.of_nat f2 -> (1 <= f1)%nat -> (1 <= f2)%nat -> digits_rev f1 n = digits_rev f2 n.
Proof.
  induction f1 as [|f1 IH]; intros f2 n H1 H2 L1 L2; [lia|]. destruct f2 as [|f2]; [lia|]. cbn [digits_rev]. destruct (Z.ltb_spec n 10) as [L|L]; [reflexivity|].
  f_equal. assert (D : forall k, n < 2 ^ Z.of_nat (S k) -> n / 10 < 2 ^ Z.of_nat k).
  { intros k K. replace (Z.of_nat (S k)) with (Z.succ (Z.of_nat k)) in K by lia. rewrite Z.pow_succ_r in K by lia. apply Z.div_lt_upper_bound; lia. }
  assert (P : 0 <= n / 10) by (apply Z.div_pos; lia).
  assert (E : forall k, n < 2 ^ Z.of_nat (S k) -> (1 <= k)%nat). { intros [|k] K; [|lia]. change (2 ^ Z.of_nat 1) with 2 in K. lia. }
  apply IH; [split; [exact P|apply D; lia]|apply D; lia|apply E; lia|apply E; lia].
Qed.
Lemma show_nat_step n : 10 <= n -> show_nat n = show_nat (n / 10) ++ [48 + n mod 10].
Proof.
  intros L. unfold show_nat. cbn [digits_rev]. rewrite (proj2 (Z.ltb_ge n 10)) by exact L. cbn [rev]. f_equal. f_equal.
  assert (P : 0 <= n / 10) by (apply Z.div_pos; lia). pose proof (log2_fuel n ltac:(lia)) as F.
  assert (F2 : n / 10 < 2 ^ Z.of_nat (Z.to_nat (Z.log2 n))).
  { replace (Z.of_nat (S (Z.to_nat (Z.log2 n)))) with (Z.succ (Z.of_nat (Z.to_nat (Z.log2 n)))) in F by lia. rewrite Z.pow_succ_r in F by lia. apply Z.div_lt_upper_bound; lia. }
  assert (1 <= Z.log2 n). { change 1 with (Z.log2 2). apply Z.log2_le_mono. lia. }
  destruct (Z.to_nat (Z.log2 n)) as [|k] eqn:Ek; [lia|]. change (digits_rev (S k) (n / 10) = digits_rev (S (Z.to_nat (Z.log2 (n / 10)))) (n / 10)).
  apply digits_fuel; [lia|apply log2_fuel; lia|lia|lia].
Qed.
Lemma show_nat_digit n : 0 <= n < 10 -> show_nat n = [48 + n].
Proof. intros H. unfold show_nat. cbn [digits_rev]. rewrite (proj2 (Z.ltb_lt n 10)) by lia. reflexivity. Qed.
Lemma show_nat_thousands n : 1000 <= n -> 100 <= n mod 1000 ->
  show_nat n = show_nat (n / 1000) ++ show_nat (n mod 1000) /\ length (show_nat (n mod 1000)) = 3%nat.
Proof.
  intros H K. pose proof (Z.mod_pos_bound n 1000 ltac:(lia)) as B. set (q := n / 1000). set (r := n mod 1000) in *.
  assert (E : n = 1000 * q + r) by (apply Z.div_mod; lia). assert (Q : 1 <= q) by lia.
  assert (A1 : n / 10 = 100 * q + r / 10) by (rewrite E; replace (1000 * q + r) with (r + 100 * q * 10) by lia; rewrite Z.div_add by lia; lia).
  assert (A2 : n mod 10 = r mod 10) by (rewrite E; replace (1000 * q + r) with (r + 100 * q * 10) by lia; rewrite Z.mod_add by lia; lia).
  assert (R1 : 10 <= r / 10 < 100) by (split; [apply Z.div_le_lower_bound; lia|apply Z.div_lt_upper_bound; lia]).
  assert (A3 : n / 10 / 10 = 10 * q + r / 10 / 10) by (rewrite A1; replace (100 * q + r / 10) with (r / 10 + 10 * q * 10) by lia; rewrite Z.div_add by lia; lia).
  assert (A4 : (n / 10) mod 10 = (r / 10) mod 10) by (rewrite A1; replace (100 * q + r / 10) with (r / 10 + 10 * q * 10) by lia; rewrite Z.mod_add by lia; lia).
  assert (R2 : 1 <= r / 10 / 10 < 10) by (split; [apply Z.div_le_lower_bound; lia|apply Z.div_lt_upper_bound; lia]).
  assert (A5 : n / 10 / 10 / 10 = q) by (rewrite A3; replace (10 * q + r / 10 / 10) with (r / 10 / 10 + q * 10) by lia; rewrite Z.div_add by lia; rewrite (Z.div_small (r / 10 / 10)) by lia; lia).
  assert (A6 : (n / 10 / 10) mod 10 = r / 10 / 10) by (rewrite A3; replace (10 * q + r / 10 / 10) with (r / 10 / 10 + q * 10) by lia; rewrite Z.mod_add by lia; apply Z.mod_small; lia).
  rewrite (show_nat_step n) by lia. rewrite (show_nat_step (n / 10)) by lia. rewrite (show_nat_step (n / 10 / 10)) by lia. rewrite A5, A6, A4, A2.
  rewrite (show_nat_step r) by lia. rewrite (show_nat_step (r / 10)) by lia. rewrite (show_nat_digit (r / 10 / 10)) by lia.
  split; [now rewrite <- !app_assoc|reflexivity].
Qed.
