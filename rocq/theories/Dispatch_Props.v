(** C91: calling methods through TypeErased wrappers. *)
From Verif Require Import Base Dispatch_Spec Dispatch_Model Dispatch_Proofs.

Section Props.
Context {St A R : Type} (classes : nat -> class St A R) (slots : nat -> slot A R) (small : nat -> bool).

(** What the compiler guarantees about the program. *)
Definition program_ok (vs : list (nat * St)) (os : list (op St A)) : Prop :=
  defaults_ok slots /\ (forall c st, In (c, st) vs -> compiles classes slots c) /\
  (forall c st, In (OVal c st) os -> compiles classes slots c).

Lemma program_ops vs os : program_ok vs os -> Forall (op_ok classes slots) os.
Proof.
  intros (_ & _ & H). apply Forall_forall. intros o Ho. destruct o; cbn; try exact I. exact (H c st Ho).
Qed.

(** Every history of wrapping, copying, moving, assigning, destroying and calling
    behaves like the semantics without vtables: each call runs the member function of
    the contained object on its current state (or the default of an optional method that
    was not offered), and undefined behaviour never happens. *)
Theorem C91_dispatch :
  forall vs os rs a, program_ok vs os -> a_run classes slots (Abs [] vs) os rs a ->
    exists s, run classes slots small (init vs) os = Some (s, rs) /\
              forall e, mem s (LVar e) = nth_error (vars a) e.
Proof.
  intros vs os rs a Hp Ha. pose proof Hp as (DO & Hv & _).
  destruct (run_ok classes slots small DO os (init vs) (Abs [] vs) rs a (init_rel classes slots vs Hv) (program_ops vs os Hp) Ha) as (s & E & H).
  exists s. split; [exact E|]. intros e. exact (r_vars _ _ _ _ H e).
Qed.

Lemma run_app os1 os2 : forall s s1 rs1, run classes slots small s os1 = Some (s1, rs1) ->
  run classes slots small s (os1 ++ os2) =
  match run classes slots small s1 os2 with Some (s2, rs2) => Some (s2, rs1 ++ rs2) | None => None end.
Proof.
  induction os1 as [|o os1 IH]; intros s s1 rs1 H; cbn in *.
  - injection H as <- <-. destruct (run classes slots small s os2) as [[? ?]|]; reflexivity.
  - destruct (step classes slots small s o) as [[s' r]|]; [|discriminate H].
    destruct (run classes slots small s' os1) as [[s'' rs]|] eqn:E; [|discriminate H]. injection H as <- <-.
    rewrite (IH s' s'' rs E). destruct (run classes slots small s'' os2) as [[? ?]|]; reflexivity.
Qed.

(** A call through an empty wrapper fails an assertion and has no effect. *)
Theorem C91_empty :
  forall vs os rs a i n x, program_ok vs os -> a_run classes slots (Abs [] vs) os rs a -> h_get a i = Some HEmpty ->
    exists s s', run classes slots small (init vs) os = Some (s, rs) /\
      run classes slots small (init vs) (os ++ [OCall i n x]) = Some (s', rs ++ [Result Abort]) /\
      forall l, mem s' l = mem s l.
Proof.
  intros vs os rs a i n x Hp Ha Hg. pose proof Hp as (DO & Hv & _).
  destruct (run_ok classes slots small DO os (init vs) (Abs [] vs) rs a (init_rel classes slots vs Hv) (program_ops vs os Hp) Ha) as (s & E & H).
  destruct (get_rel classes slots s a i HEmpty H Hg) as (w & Ew & W). cbn in W.
  exists s, (World (mem s) (next s) (ws s)). split; [exact E|]. rewrite (run_app os [OCall i n x] _ _ _ E).
  cbn. rewrite Ew. unfold call. rewrite W. destruct (v_fn (vt w) n); now split.
Qed.

(** Whether an optional method is offered is decided when the object is wrapped; the
    call itself sees the object as it is at the time of the call. *)
Theorem C91_decided_when_wrapped :
  forall c st st' cst n cs dflt x, defaults_ok slots -> compiles classes slots c ->
    slots n = Optional cs dflt -> (cst = true -> cs = true) ->
    exists s, run classes slots small (init [(c, st)]) [ORef 0 cst; OVar 0 st'; OCall 0 n x] =
      Some (s, [Done; Done; Result (snd (if offers classes c st n then apply classes c n st' x
                                         else apply_body classes c st' dflt))]).
Proof.
  intros c st st' cst n cs dflt x DO Hc Es Hk.
  set (y := if offers classes c st n then apply classes c n st' x else apply_body classes c st' dflt).
  destruct (C91_dispatch [(c, st)] [ORef 0 cst; OVar 0 st'; OCall 0 n x] [Done; Done; Result (snd y)]
    (Abs [Some (HRef 0 cst (offers classes c st))] [(c, fst y)])) as (s & E & _).
  - split; [exact DO|]. split; [intros c' s' [[= <- <-]|[]]; exact Hc|]. intros c' s' [F|[F|[F|[]]]]; discriminate F.
  - econstructor; [reflexivity|]. econstructor; [reflexivity|]. econstructor; [|constructor].
    cbn. unfold slot_const, call_object. rewrite Es.
    replace (cst && negb cs) with false by (destruct cst, cs; cbn; try reflexivity; now discriminate (Hk eq_refl)).
    fold y. now destruct y.
  - now exists s.
Qed.

Lemma apply_const c n st a : compiles classes slots c -> slot_const slots n = true -> meth (classes c) n <> None ->
  fst (apply classes c n st a) = st.
Proof.
  intros Hc Hs Hm. specialize (Hc n). unfold apply, slot_const in *. destruct (meth (classes c) n) as [[f|f]|]; [reflexivity| |congruence].
  destruct (slots n); congruence.
Qed.
Lemma body_const c b : compiles classes slots c -> body_ok slots true b -> forall st, fst (apply_body classes c st b) = st.
Proof.
  intros Hc Hb. induction Hb as [o|n a k (k' & Es & Ek) _ IH]; intros st; [reflexivity|]. cbn.
  assert (Hs : slot_const slots n = true) by (unfold slot_const; rewrite Es; now apply Ek).
  assert (Hm : meth (classes c) n <> None) by (specialize (Hc n); rewrite Es in Hc; now destruct (meth (classes c) n)).
  pose proof (apply_const c n st a Hc Hs Hm) as F. destruct (apply classes c n st a) as [st' o]. cbn in F. subst st'. apply IH.
Qed.

(** Holders only claim optional methods that exist. *)
Definition prov_ok (a : abs St) : Prop :=
  forall i h, h_get a i = Some h ->
    match h with
    | HEmpty => True
    | HOwn c _ prov => compiles classes slots c /\ forall n, prov n = true -> meth (classes c) n <> None
    | HRef e _ prov => exists c st, nth_error (vars a) e = Some (c, st) /\ compiles classes slots c /\
                                    forall n, prov n = true -> meth (classes c) n <> None
    end.
Lemma rel_prov s a : rel classes slots s a -> prov_ok a.
Proof.
  intros H i h Hg. destruct (get_rel classes slots s a i h H Hg) as (w & _ & W). destruct h as [|c st prov|e cst prov]; [exact I| |].
  - destruct W as (k & _ & _ & _ & V). split; [apply V|apply V].
  - destruct W as (_ & _ & c & st & E & V). exists c, st. rewrite (r_vars _ _ _ _ H) in E. split; [exact E|]. split; apply V.
Qed.

(** No wrapper refers to variable [e] except as const. *)
Definition only_const (a : abs St) (e : nat) : Prop :=
  forall i e' cst prov, h_get a i = Some (HRef e' cst prov) -> e' = e -> cst = true.
Lemma h_get_push (a : abs St) h i x : h_get (h_push a h) i = Some x -> h_get a i = Some x \/ x = h.
Proof.
  unfold h_get, h_push. cbn. intros E. destruct (nth_error (holders a ++ [Some h]) i) as [[y|]|] eqn:En; try discriminate E. injection E as <-.
  apply nth_snoc in En. destruct En as [[L En]|[-> [= ->]]]; [left; now rewrite En|now right].
Qed.
Lemma h_get_put (a : abs St) j h i x : h_get (h_put a j h) i = Some x -> h_get a i = Some x \/ h = Some x.
Proof.
  unfold h_get, h_put. cbn. intros E. destruct (nth_error (upd (holders a) j h) i) as [[y|]|] eqn:En; try discriminate E. injection E as <-.
  apply nth_upd in En. destruct En as [[-> [= <-]]|[N En]]; [now right|left; now rewrite En].
Qed.

(** A variable of which only pointers to const were wrapped, and which the program
    itself does not change, never changes, whatever is called. *)
Theorem C91_const_unchanged :
  forall vs os rs a e, program_ok vs os -> a_run classes slots (Abs [] vs) os rs a ->
    ~ In (ORef e false) os -> (forall st, ~ In (OVar e st) os) ->
    exists s, run classes slots small (init vs) os = Some (s, rs) /\ mem s (LVar e) = nth_error vs e.
Proof.
  intros vs os rs a e Hp Ha NR NV.
  destruct (C91_dispatch vs os rs a Hp Ha) as (s & E & Hm). exists s. split; [exact E|]. rewrite Hm.
  destruct Hp as (DO & Hv & Ho).
  assert (G : forall os s0 a0 rs a, rel classes slots s0 a0 -> Forall (op_ok classes slots) os -> a_run classes slots a0 os rs a ->
    only_const a0 e -> ~ In (ORef e false) os -> (forall st, ~ In (OVar e st) os) -> nth_error (vars a) e = nth_error (vars a0) e).
  { clear - DO small. induction os as [|o os IH]; intros s0 a0 rs a H Fo Ha OC NR NV; inversion Ha as [|? ? a1 r ? rs1 ? Hs Hr]; subst; [reflexivity|].
    inversion Fo as [|? ? Fo1 Fo2]; subst. destruct (step_ok classes slots small DO s0 a0 o a1 r H Fo1 Hs) as (s1 & _ & H1).
    assert (K : only_const a1 e /\ nth_error (vars a1) e = nth_error (vars a0) e).
    { pose proof (rel_prov s0 a0 H) as PV. destruct o as [c st|e0 cst|j|j|i j|i j|i|i n x|e0 st]; cbn in Hs.
      - injection Hs as <- <-. split; [|reflexivity]. intros i e' cst prov Hg. apply h_get_push in Hg. destruct Hg as [Hg|Hg]; [|discriminate Hg]. exact (OC _ _ _ _ Hg).
      - destruct (nth_error (vars a0) e0) as [[k st]|]; [|discriminate Hs]. injection Hs as <- <-. split; [|reflexivity].
        intros i e' c' prov Hg Ee. apply h_get_push in Hg. destruct Hg as [Hg|[= -> -> ->]]; [exact (OC _ _ _ _ Hg Ee)|]. subst e0.
        destruct cst; [reflexivity|]. elim NR. now left.
      - destruct (h_get a0 j) as [h|] eqn:G; [|discriminate Hs]. injection Hs as <- <-. split; [|reflexivity].
        intros i e' c' prov Hg. apply h_get_push in Hg. destruct Hg as [Hg|Hg]; [exact (OC _ _ _ _ Hg)|]. subst h. exact (OC _ _ _ _ G).
      - destruct (h_get a0 j) as [h|] eqn:G; [|discriminate Hs]. injection Hs as <- <-. split; [|reflexivity].
        intros i e' c' prov Hg. apply h_get_push in Hg. destruct Hg as [Hg|Hg].
        + apply h_get_put in Hg. destruct Hg as [Hg|Hg]; [exact (OC _ _ _ _ Hg)|discriminate Hg].
        + subst h. exact (OC _ _ _ _ G).
      - destruct (h_get a0 i) as [hi|]; [|discriminate Hs]. destruct (h_get a0 j) as [h|] eqn:G; [|discriminate Hs]. injection Hs as <- <-. split; [|reflexivity].
        intros i' e' c' prov Hg. apply h_get_put in Hg. destruct Hg as [Hg|[= ->]]; [exact (OC _ _ _ _ Hg)|exact (OC _ _ _ _ G)].
      - destruct (h_get a0 i) as [hi|]; [|discriminate Hs]. destruct (h_get a0 j) as [h|] eqn:G; [|discriminate Hs]. injection Hs as <- <-.
        destruct (Nat.eqb i j); [now split|]. split; [|reflexivity].
        intros i' e' c' prov Hg. apply h_get_put in Hg. destruct Hg as [Hg|[= ->]]; [|exact (OC _ _ _ _ G)].
        apply h_get_put in Hg. destruct Hg as [Hg|Hg]; [exact (OC _ _ _ _ Hg)|discriminate Hg].
      - destruct (h_get a0 i) as [hi|]; [|discriminate Hs]. injection Hs as <- <-. split; [|reflexivity].
        intros i' e' c' prov Hg. apply h_get_put in Hg. destruct Hg as [Hg|Hg]; [exact (OC _ _ _ _ Hg)|discriminate Hg].
      - destruct (h_get a0 i) as [[|c st prov|e0 cst prov]|] eqn:G; try discriminate Hs.
        + destruct (call_object classes slots prov c st n x) as [st' o]. injection Hs as <- <-. split; [|reflexivity].
          intros i' e' c' prov' Hg. apply h_get_put in Hg. destruct Hg as [Hg|Hg]; [exact (OC _ _ _ _ Hg)|discriminate Hg].
        + destruct (nth_error (vars a0) e0) as [[c st]|] eqn:E0; [|discriminate Hs].
          destruct (cst && negb (slot_const slots n)) eqn:EC; [injection Hs as <- <-; now split|].
          destruct (call_object classes slots prov c st n x) as [st' o] eqn:CO. injection Hs as <- <-. split; [exact OC|]. cbn.
          destruct (Nat.eq_dec e0 e) as [->|N]; [|now rewrite upd_other].
          pose proof (OC _ _ _ _ G eq_refl) as ->. cbn in EC. apply negb_false_iff in EC.
          destruct (PV _ _ G) as (c1 & st1 & E1 & Hc & Hpv). rewrite E0 in E1. injection E1 as <- <-.
          assert (Est : st' = st).
          { replace st' with (fst (call_object classes slots prov c st n x)) by now rewrite CO. unfold call_object.
            pose proof (Hc n) as Hcn. destruct (slots n) as [k|k d] eqn:Es.
            - apply apply_const; [exact Hc|exact EC|]. now destruct (meth (classes c) n).
            - destruct (prov n) eqn:Ep; [apply apply_const; [exact Hc|exact EC|now apply Hpv]|].
              apply body_const; [exact Hc|]. unfold slot_const in EC. rewrite Es in EC. subst k. exact (DO n true d Es). }
          subst st'. rewrite upd_id; [reflexivity|exact E0].
      - destruct (nth_error (vars a0) e0) as [[c st0]|]; [|discriminate Hs]. injection Hs as <- <-. split; [exact OC|]. cbn.
        apply upd_other. intros ->. apply (NV st). now left. }
    destruct K as [K1 K2]. rewrite <- K2. apply (IH s1 a1 rs1 a H1 Fo2 Hr K1); [intros X; apply NR; now right|intros st X; apply (NV st); now right]. }
  apply (G os (init vs) (Abs [] vs) rs a).
  - now apply init_rel.
  - apply (program_ops vs). split; [exact DO|]. now split.
  - exact Ha.
  - intros i e' cst prov Hg. unfold h_get in Hg. cbn in Hg. destruct i; discriminate Hg.
  - exact NR.
  - exact NV.
Qed.
End Props.
Print Assumptions C91_dispatch.
Print Assumptions C91_empty.
Print Assumptions C91_decided_when_wrapped.
Print Assumptions C91_const_unchanged.

(** A counter class (0) with get (0, required), add (1, required, non-const), and the
    optional method twice (2), which it offers while it is positive; class 1 has no
    method twice. The default of twice calls get and adds one. *)
Definition ex_classes (c : nat) : class Z Z Z :=
  Class (fun n => match n with
                  | 0 => Some (CMethod (fun st _ => Ok st))
                  | 1 => Some (MMethod (fun st a => ((st + a)%Z, Ok st)))
                  | 2 => if Nat.eqb c 0 then Some (CMethod (fun st _ => Ok (2 * st)%Z)) else None
                  | _ => None
                  end)
        (fun n => if Nat.eqb n 2 then Some (fun st => (0 <? st)%Z) else None).
Definition ex_slots (n : nat) : slot Z Z :=
  match n with
  | 0 => Required true
  | 1 => Required false
  | _ => Optional true (BCall 0 0%Z (fun o => BRet (bind o (fun x => Ok (x + 1)%Z))))
  end.
Example C91_nonvacuous :
  program_ok ex_classes ex_slots [(0, (-4)%Z)] [OVal 0 5%Z; OVal 1 7%Z] /\
  option_map snd (run ex_classes ex_slots (fun c => Nat.eqb c 0) (init [(0, (-4)%Z)])
    [OVal 0 5%Z; OVal 1 7%Z; ORef 0 true; OCall 0 1 (-6)%Z; OCall 0 2 0%Z; OMove 0; OCall 3 0 0%Z; OCall 0 0 0%Z;
     OCall 1 2 0%Z; OVar 0 8%Z; OCall 2 2 0%Z; OCall 2 1 1%Z; OCopyAssign 1 2; OCall 1 0 0%Z])
  = Some [Done; Done; Done; Result (Ok 5%Z); Result (Ok (-2)%Z); Done; Result (Ok (-1)%Z); Result Abort;
          Result (Ok 8%Z); Done; Result (Ok 9%Z); Result (Throw bad_type_erased_constness); Done; Result (Ok 8%Z)].
Proof.
  split; [|reflexivity].
  assert (C : forall c, compiles ex_classes ex_slots c).
  { intros c n. destruct n as [|[|[|n]]]; cbn; [reflexivity|reflexivity| |exact I].
    destruct (Nat.eqb c 0); [reflexivity|exact I]. }
  split; [|split; intros; apply C].
  intros n cst dflt E. destruct n as [|[|n]]; try discriminate E. cbn in E. injection E as <- <-.
  constructor; [exists true; auto|]. intros o. constructor.
Qed.
