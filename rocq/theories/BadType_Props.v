(** C89: the text of bad_type_erased_type. *)
From Verif Require Import Base Bytes BadType_Model.
Local Open Scope Z_scope.

(** "Type requested: R, type contained: C" *)
Definition type_text (requested contained : list Z) : list Z :=
  bytes "Type requested: " ++ requested ++ bytes ", type contained: " ++ contained.
Definition infix_of (x y : list Z) : Prop := exists p q, y = p ++ x ++ q.

Lemma whats_exact gnu demangle a r ra rr : demangled_typename gnu demangle a = Ok ra -> demangled_typename gnu demangle r = Ok rr ->
  forall n e, actual_type e = a -> requested_type e = r ->
  whats gnu demangle n e = Ok (Exn (given e) a r (bufs e ++ repeat (type_text rr ra) n)
                                 (match n with O => current e | S k => Some (length (bufs e) + k)%nat end),
                              seq (length (bufs e)) n).
Proof.
  intros Ha Hr. induction n as [|n IH]; intros e Ea Er.
  - cbn. rewrite app_nil_r. destruct e; cbn in *; subst. reflexivity.
  - cbn [whats]. unfold what. rewrite Ea, Er, Hr, Ha. cbn [bind fst snd].
    rewrite IH by reflexivity. cbn [bind fst snd given bufs current].
    rewrite app_length. cbn [length]. rewrite <- app_assoc. cbn [seq repeat app].
    replace (length (bufs e) + 1)%nat with (S (length (bufs e))) by lia.
    destruct n; [rewrite Nat.add_0_r; reflexivity|]. replace (S (length (bufs e)) + n)%nat with (length (bufs e) + S n)%nat by lia. reflexivity.
Qed.

(** However often what() is called, the pointer of the last call reads the same text: both
    types, as demangled. (The demangler must succeed, otherwise what() is undefined.) *)
Theorem C89_text_partial :
  forall gnu demangle actual requested msg da dr n,
    demangled_typename gnu demangle actual = Ok da -> demangled_typename gnu demangle requested = Ok dr ->
    exists e ps p, whats gnu demangle (S n) (construct actual requested msg) = Ok (e, ps ++ [p]) /\
      length ps = n /\ read e p = Ok (type_text dr da).
Proof.
  intros gnu demangle actual requested msg da dr n Ha Hr.
  eexists. exists (seq 0 n), n. rewrite (whats_exact gnu demangle actual requested da dr Ha Hr (S n) (construct actual requested msg) eq_refl eq_refl).
  cbn [construct bufs given length app]. rewrite seq_S. split; [reflexivity|]. split; [apply seq_length|].
  unfold read. cbn [current bufs Nat.add]. rewrite Nat.eqb_refl.
  assert (E : nth_error (repeat (type_text dr da) (S n)) n = Some (type_text dr da)).
  { rewrite nth_error_nth' with (d := type_text dr da) by (rewrite repeat_length; lia). now rewrite nth_repeat. }
  now rewrite E.
Qed.
Print Assumptions C89_text_partial.

(** The message given to the constructor never appears: the text does not depend on it. *)
Theorem C89_message_refuted :
  (forall gnu demangle actual requested msg msg' e e' p p' ,
     what gnu demangle (construct actual requested msg) = Ok (e, p) ->
     what gnu demangle (construct actual requested msg') = Ok (e', p') -> read e p = read e' p') /\
  exists actual requested msg e p s,
    what false (fun _ => None) (construct actual requested msg) = Ok (e, p) /\ read e p = Ok s /\
    msg = bytes "reading the cost" /\ ~ infix_of msg s.
Proof.
  split.
  - intros gnu demangle actual requested msg msg' e e' p p'. unfold what. cbn [construct requested_type actual_type bufs].
    destruct (demangled_typename gnu demangle requested) as [rr| | |]; cbn [bind]; try discriminate.
    destruct (demangled_typename gnu demangle actual) as [ra| | |]; cbn [bind]; try discriminate.
    intros [= <- <-] [= <- <-]. reflexivity.
  - exists (bytes "i"), (bytes "d"), (bytes "reading the cost"). do 3 eexists.
    split; [reflexivity|]. split; [reflexivity|]. split; [reflexivity|].
    intros (p & q & E).
    assert (F : forall p s q, s = p ++ bytes "reading the cost" ++ q -> (length p <= length s)%nat /\ firstn 16 (skipn (length p) s) = bytes "reading the cost").
    { clear. intros p s q ->. split; [rewrite app_length; lia|]. rewrite skipn_app, skipn_all, Nat.sub_diag. reflexivity. }
    apply F in E. destruct E as [L E]. revert L E. generalize (length p). clear. intros k L E.
    vm_compute in L. do 40 (destruct k as [|k]; [discriminate E|]). lia.
Qed.
Print Assumptions C89_message_refuted.

(** std::exception::what() promises a pointer that stays valid while only const member
    functions are called. Here every earlier pointer is dead after another what(). *)
Theorem C89_pointer_refuted :
  forall gnu demangle actual requested msg da dr,
    demangled_typename gnu demangle actual = Ok da -> demangled_typename gnu demangle requested = Ok dr ->
    exists e1 p e2 q, what gnu demangle (construct actual requested msg) = Ok (e1, p) /\ read e1 p = Ok (type_text dr da) /\
      what gnu demangle e1 = Ok (e2, q) /\ read e2 p = UB /\ read e2 q = Ok (type_text dr da).
Proof.
  intros gnu demangle actual requested msg da dr Ha Hr. unfold what. cbn [construct requested_type actual_type bufs].
  rewrite Hr, Ha. cbn [bind]. do 4 eexists. split; [reflexivity|]. split; [reflexivity|].
  cbn [requested_type actual_type]. rewrite Hr, Ha. cbn [bind]. split; [reflexivity|]. split; reflexivity.
Qed.
Print Assumptions C89_pointer_refuted.

(** With GNU compilers a name the demangler rejects is undefined behaviour. *)
Theorem C89_demangler_fails_refuted :
  forall demangle actual requested msg, demangle requested = None \/ demangle actual = None ->
    what true demangle (construct actual requested msg) = UB.
Proof.
  intros demangle actual requested msg H. unfold what, demangled_typename. cbn [construct requested_type actual_type].
  destruct (demangle requested); [|reflexivity]. destruct H as [H|H]; [discriminate H|]. now rewrite H.
Qed.
Print Assumptions C89_demangler_fails_refuted.

Example C89_nonvacuous :
  let d := fun s => if list_eq_dec Z.eq_dec s (bytes "i") then Some (bytes "int") else Some (bytes "double") in
  demangled_typename true d (bytes "i") = Ok (bytes "int") /\
  match whats true d 3 (construct (bytes "d") (bytes "i") (bytes "hello")) with
  | Ok (e, [_; _; p]) => read e p = Ok (bytes "Type requested: int, type contained: double")
  | _ => False
  end.
Proof. split; reflexivity. Qed.
