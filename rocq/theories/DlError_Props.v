(** C108: errors of the dynamic loader. *)
From Verif Require Import Base Bytes DlError_Model DlError_Spec.
Local Open Scope Z_scope.

Lemma cstr_plain s : plain s -> cstr s = s.
Proof.
  unfold plain. induction s as [|c s IH]; intros H; [reflexivity|]. cbn in *.
  destruct (Z.eqb_spec c 0) as [->|n]; [exfalso; tauto|]. now rewrite IH by tauto.
Qed.
Lemma cstr_cut a b : plain a -> cstr (a ++ 0 :: b) = a.
Proof.
  unfold plain. induction a as [|c s IH]; intros H; [reflexivity|]. cbn in *.
  destruct (Z.eqb_spec c 0) as [->|n]; [exfalso; tauto|]. now rewrite IH by tauto.
Qed.
Lemma cstr_app a b : plain a -> cstr (a ++ b) = a ++ cstr b.
Proof.
  unfold plain. induction a as [|c s IH]; intros H; [reflexivity|]. cbn in *.
  destruct (Z.eqb_spec c 0) as [->|n]; [exfalso; tauto|]. now rewrite IH by tauto.
Qed.
Lemma upd_snoc {A} (l : list A) x y : upd (l ++ [x]) (length l) y = l ++ [y].
Proof. induction l as [|z l IH]; cbn; [reflexivity|now rewrite IH]. Qed.
Lemma nth_snoc {A} (l : list A) x : nth_error (l ++ [x]) (length l) = Some x.
Proof. induction l as [|z l IH]; cbn; [reflexivity|exact IH]. Qed.
Lemma plain_bytes s : forallb (fun c => negb (c =? 0)) (bytes s) = true -> plain (bytes s).
Proof.
  intros H i. rewrite forallb_forall in H. specialize (H _ i). discriminate H.
Qed.
Lemma plain_app a b : plain a -> plain b -> plain (a ++ b).
Proof. unfold plain. intros H K i. apply in_app_or in i. tauto. Qed.

Lemma live_snoc s c p f i : live (Machine c p (heap s ++ [None]) f) i <-> live s i.
Proof.
  unfold live. cbn [heap]. split; intros [t h]; exists t.
  - destruct (Nat.lt_ge_cases i (length (heap s))) as [l|l].
    + now rewrite nth_error_app1 in h by exact l.
    + rewrite nth_error_app2 in h by exact l. destruct (i - length (heap s))%nat as [|[|n]]; discriminate h.
  - rewrite nth_error_app1; [exact h|]. apply nth_error_Some. congruence.
Qed.

(** What throw_described does, whatever happens: an exception, and every buffer it got from
    the system has been freed. *)
Lemma described E lf left s :
  (forall s, exists r c, left s = (r, Machine c (pending s) (heap s) (refs s)) /\ r <> Misuse) ->
  exists e s', throw_described E lf left s = (Exc e, s') /\ nothing_leaked s s'.
Proof.
  intros H. assert (R : nothing_leaked s s) by (split; [reflexivity|tauto]).
  unfold throw_described. destruct lf; unfold andthen.
  - destruct (H s) as (r & c & -> & n). destruct r as [l|e|]; [| |congruence].
    + unfold get_last_error_msg. cbn [code pending heap refs].
      destruct (sysmsg E c) as [t|] eqn:m.
      * destruct (fails E MessageBlock) eqn:f.
        -- unfold andthen, local_free. cbn [heap code pending refs]. rewrite nth_snoc, upd_snoc.
           do 2 eexists. split; [reflexivity|]. split; [reflexivity|]. intros i. apply live_snoc.
        -- unfold finally, andthen, read, drop, local_free, allocate. cbn [heap code pending refs]. rewrite nth_snoc.
           destruct (fails E LastConcat); [|destruct (fails E ExceptionText)];
             unfold throw, ret; cbn [heap code pending refs]; rewrite nth_snoc, upd_snoc;
             do 2 eexists; (split; [reflexivity|]); (split; [reflexivity|]); intros i; apply live_snoc.
      * unfold allocate. destruct (fails E MessageBlock); unfold throw, ret.
        -- do 2 eexists. split; [reflexivity|]. exact R.
        -- unfold finally, andthen, read, drop, allocate.
           destruct (fails E LastConcat); [|destruct (fails E ExceptionText)];
             unfold throw, ret; do 2 eexists; (split; [reflexivity|]); exact R.
    + exists e. eexists. split; [reflexivity|]. exact R.
  - unfold get_last_error_msg. destruct (sysmsg E (code s)) as [t|] eqn:m.
    + destruct (fails E MessageBlock) eqn:f.
      * unfold andthen, local_free. cbn [heap code pending refs]. rewrite nth_snoc, upd_snoc.
        do 2 eexists. split; [reflexivity|]. split; [reflexivity|]. intros i. apply live_snoc.
      * unfold finally, andthen.
        destruct (H (Machine (code s) (pending s) (heap s ++ [Some t]) (refs s))) as (r & c & -> & n).
        destruct r as [l|e|]; [| |congruence]; unfold read, drop, local_free, allocate;
          cbn [heap code pending refs]; rewrite nth_snoc.
        -- destruct (fails E LastConcat); [|destruct (fails E ExceptionText)];
             unfold throw, ret; cbn [heap code pending refs]; rewrite nth_snoc, upd_snoc;
             do 2 eexists; (split; [reflexivity|]); (split; [reflexivity|]); intros i; apply live_snoc.
        -- rewrite upd_snoc. do 2 eexists. split; [reflexivity|]. split; [reflexivity|]. intros i. apply live_snoc.
    + unfold allocate. destruct (fails E MessageBlock); unfold throw, ret.
      * do 2 eexists. split; [reflexivity|]. exact R.
      * unfold finally, andthen. destruct (H s) as (r & c & -> & n).
        destruct r as [l|e|]; [| |congruence]; unfold read, drop, allocate, ret.
        -- destruct (fails E LastConcat); [|destruct (fails E ExceptionText)];
             unfold throw, ret; do 2 eexists; (split; [reflexivity|]); exact R.
        -- do 2 eexists. split; [reflexivity|]. exact R.
Qed.
Lemma name_of_function_ok E name s : exists r c, name_of_function E name s = (r, Machine c (pending s) (heap s) (refs s)) /\ r <> Misuse.
Proof.
  unfold name_of_function, allocate. destruct s. destruct (fails E Concat); unfold throw, ret; do 2 eexists; (split; [reflexivity|discriminate]).
Qed.
Lemma name_of_library_ok E name s : exists r c, name_of_library E name s = (r, Machine c (pending s) (heap s) (refs s)) /\ r <> Misuse.
Proof.
  unfold name_of_library, allocate. destruct (narrow E name); [destruct (fails E Concat)|]; unfold throw, ret; do 2 eexists; (split; [reflexivity|discriminate]).
Qed.
Lemma own_acquired E l s : if fails E HandleBlock then exists s', own E l (acquire l s) = (Exc NoMemory, s') /\ nothing_leaked s s'
  else own E l (acquire l s) = (Val l, acquire l s).
Proof.
  unfold own. destruct (fails E HandleBlock); [|reflexivity].
  unfold andthen, release. cbn [acquire refs heap code pending]. rewrite Nat.eqb_refl. eexists. split; [reflexivity|].
  split; [|cbn; tauto]. intros k. cbn. destruct (Nat.eqb_spec k l) as [->|]; reflexivity.
Qed.
Lemma acquired l s : one_more l s (acquire l s).
Proof. split; [|cbn; tauto]. intros k. cbn. destruct (Nat.eqb k l); lia. Qed.

(** ** Windows *)

(** load_lib either returns the handle, with one more reference to that library, or throws and
    leaves no library and no message behind: for every reply of the system, every order of
    evaluation, and whichever allocation fails. *)
Theorem C108_windows_load_lib E lf dll name s :
  match load_lib_windows E lf dll name s with
  | (Val h, s') => dll (cstr name) = Found h /\ one_more h s s'
  | (Exc _, s') => nothing_leaked s s'
  | (Misuse, _) => False
  end.
Proof.
  unfold load_lib_windows. destruct (dll (cstr name)) as [h|c].
  - pose proof (own_acquired E h s) as O. destruct (fails E HandleBlock).
    + destruct O as (s' & -> & n). exact n.
    + rewrite O. split; [reflexivity|]. apply acquired.
  - destruct (described E lf (name_of_library E name) (Machine c (pending s) (heap s) (refs s)) (name_of_library_ok E name)) as (e & s' & -> & n).
    exact n.
Qed.
Print Assumptions C108_windows_load_lib.

Theorem C108_windows_load_func E lf sym name s :
  match load_func_windows E lf sym name s with
  | (Val h, s') => sym (cstr name) = Found h /\ s' = s
  | (Exc _, s') => (exists c, sym (cstr name) = Error c) /\ nothing_leaked s s'
  | (Misuse, _) => False
  end.
Proof.
  unfold load_func_windows. destruct (sym (cstr name)) as [h|c].
  - split; reflexivity.
  - destruct (described E lf (name_of_function E name) (Machine c (pending s) (heap s) (refs s)) (name_of_function_ok E name)) as (e & s' & -> & n).
    split; [now exists c|exact n].
Qed.
Print Assumptions C108_windows_load_func.

Lemma described_text E lf left s c l : enough_memory E ->
  (forall s', exists c', left s' = (Val l, Machine c' (pending s') (heap s') (refs s')) /\ (lf = true -> s' = s -> c' = c)) ->
  (lf = false -> code s = c) -> plain (explanation E c) ->
  fst (throw_described E lf left s) = Exc (LoadError (l ++ explanation E c)).
Proof.
  intros e H K P. unfold explanation in *. unfold throw_described. destruct lf; unfold andthen.
  - destruct (H s) as (c' & -> & k). rewrite (k eq_refl eq_refl) in *. unfold get_last_error_msg. cbn [code pending heap refs].
    destruct (sysmsg E c) as [t|].
    + rewrite (e MessageBlock). unfold finally, andthen, read, drop, local_free, allocate. cbn [heap code pending refs].
      rewrite nth_snoc, (e LastConcat), (e ExceptionText). unfold throw, ret. cbn [heap code pending refs].
      rewrite nth_snoc. cbn [fst]. now rewrite (cstr_plain t P).
    + unfold allocate. rewrite (e MessageBlock). unfold finally, andthen, read, drop, ret. now rewrite (e LastConcat), (e ExceptionText).
  - rewrite <- (K eq_refl) in *. unfold get_last_error_msg.
    destruct (sysmsg E (code s)) as [t|].
    + rewrite (e MessageBlock). unfold finally, andthen.
      destruct (H (Machine (code s) (pending s) (heap s ++ [Some t]) (refs s))) as (c' & -> & _).
      unfold read, drop, local_free, allocate. cbn [heap code pending refs].
      rewrite nth_snoc, (e LastConcat), (e ExceptionText). unfold throw, ret. cbn [heap code pending refs].
      rewrite nth_snoc. cbn [fst]. now rewrite (cstr_plain t P).
    + unfold allocate at 1. rewrite (e MessageBlock). unfold finally, andthen, ret at 1.
      destruct (H s) as (c' & -> & _). unfold read, drop, allocate. rewrite (e LastConcat), (e ExceptionText). reflexivity.
Qed.

(** The text of the exception for a function names it and explains the error of this lookup. *)
Theorem C108_windows_function_message E lf sym name s c : enough_memory E -> plain name -> plain (explanation E c) ->
  sym name = Error c ->
  fst (load_func_windows E lf sym name s) =
    Exc (LoadError (bytes "Unable to load function '" ++ name ++ bytes "': " ++ explanation E c)).
Proof.
  intros e p q H. unfold load_func_windows. rewrite (cstr_plain name p), H.
  rewrite (described_text E lf (name_of_function E name) _ c (bytes "Unable to load function '" ++ name ++ bytes "': ") e); [now rewrite <- !app_assoc| |reflexivity|exact q].
  intros s'. exists (code s'). unfold name_of_function, allocate. rewrite (e Concat). split; [now destruct s'|]. intros _ ->. reflexivity.
Qed.
Print Assumptions C108_windows_function_message.

(** The same for a library, if converting its name to a narrow string does not touch the last
    error of the thread, or if the compiler asks for the message first. *)
Theorem C108_windows_library_message_partial E lf dll name narrowed s c : enough_memory E -> plain name -> plain (explanation E c) ->
  narrow E name = Some narrowed -> (lf = true -> narrow_code E c = c) ->
  dll name = Error c ->
  fst (load_lib_windows E lf dll name s) =
    Exc (LoadError (bytes "Unable to load """ ++ narrowed ++ bytes """: " ++ explanation E c)).
Proof.
  intros e p q n k H. unfold load_lib_windows. rewrite (cstr_plain name p), H.
  rewrite (described_text E lf (name_of_library E name) _ c (bytes "Unable to load """ ++ narrowed ++ bytes """: ") e); [now rewrite <- !app_assoc| |reflexivity|exact q].
  intros s'. exists (narrow_code E (code s')). unfold name_of_library, allocate. rewrite n, (e Concat). split; [reflexivity|].
  intros l ->. cbn [code]. now apply k.
Qed.
Print Assumptions C108_windows_library_message_partial.

(** Otherwise the user is told the reason of another error: here error 126 ("missing") is
    reported as error 0 ("success") because the name is converted first. *)
Theorem C108_windows_library_message_refuted : exists E dll name narrowed s c text,
  enough_memory E /\ plain name /\ narrow E name = Some narrowed /\ dll name = Error c /\
  fst (load_lib_windows E true dll name s) = Exc (LoadError text) /\
  text <> bytes "Unable to load """ ++ narrowed ++ bytes """: " ++ explanation E c /\
  fst (load_lib_windows E false dll name s) = Exc (LoadError (bytes "Unable to load """ ++ narrowed ++ bytes """: " ++ explanation E c)).
Proof.
  exists (Env (fun c => Some (if c =? 126 then bytes "missing" else bytes "success")) Some (fun _ => 0) (fun _ => false)),
         (fun _ => Error 126), (bytes "a.dll"), (bytes "a.dll"), (Machine 0 None [] (fun _ => O)), 126,
         (bytes "Unable to load ""a.dll"": success").
  split; [intros p; reflexivity|]. split; [intros i; cbn in i; lia|].
  split; [reflexivity|]. split; [reflexivity|]. split; [reflexivity|]. split; [discriminate|reflexivity].
Qed.
Print Assumptions C108_windows_library_message_refuted.

(** ** POSIX *)

(** load_func: the address, or an exception that names the function and carries the loader's
    text for this lookup, whatever error was pending before; libraries are not touched, and no
    error stays pending. *)
Theorem C108_posix_load_func E sym name s : enough_memory E -> plain name ->
  let '(r, s') := load_func_posix E sym name s in
  s' = Machine (code s) None (heap s) (refs s) /\
  match sym name with
  | Opened h None => r = Val h
  | Opened _ (Some t) | Failed t =>
      r = Exc (LoadError (bytes "Unable to load function '" ++ name ++ bytes "': " ++ cstr t))
  end.
Proof.
  intros e p. unfold load_func_posix, andthen, dlerror. rewrite (cstr_plain name p). cbn [code heap refs pending].
  destruct (sym name) as [h [t|]|t]; cbn [leave code heap refs pending]; unfold name_of_function, allocate, andthen;
    rewrite ?(e Concat), ?(e LastConcat), ?(e ExceptionText); unfold ret, throw; (split; [reflexivity|]); now rewrite <- ?app_assoc.
Qed.
Print Assumptions C108_posix_load_func.

(** load_lib: the handle with one more reference, or an exception with the loader's text and
    nothing left behind, if initializers of a library that is loaded successfully leave no
    error of their own. *)
Theorem C108_posix_load_lib_partial E so name s : (forall n h t, so n <> Opened h (Some t)) ->
  let '(r, s') := load_lib_posix E so name s in
  pending s' = None /\
  match r with
  | Val h => so (cstr name) = Opened h None /\ one_more h s s'
  | Exc x => nothing_leaked s s' /\ (enough_memory E -> exists t, so (cstr name) = Failed t /\ x = LoadError (cstr t))
  | Misuse => False
  end.
Proof.
  intros q. unfold load_lib_posix, andthen at 1, dlerror at 1. cbn [code heap refs pending].
  destruct (so (cstr name)) as [h [t|]|t] eqn:r.
  - exfalso. exact (q _ _ _ r).
  - unfold andthen, dlerror. cbn [leave acquire code heap refs pending].
    pose proof (own_acquired E h (Machine (code s) None (heap s) (refs s))) as O.
    unfold acquire in O. cbn [code heap refs pending] in O.
    destruct (fails E HandleBlock) eqn:f.
    + assert (P : pending (snd (own E h (Machine (code s) None (heap s) (fun k => if Nat.eqb k h then S (refs s k) else refs s k)))) = None).
      { unfold own. rewrite f. unfold andthen, release. cbn [refs]. rewrite Nat.eqb_refl. reflexivity. }
      destruct O as (s' & O & n). rewrite O in *. split; [exact P|]. split; [exact n|].
      intros e. rewrite (e HandleBlock) in f. discriminate f.
    + rewrite O. split; [reflexivity|]. split; [reflexivity|]. exact (acquired h (Machine (code s) None (heap s) (refs s))).
  - unfold andthen, dlerror. cbn [leave code heap refs pending]. unfold allocate.
    destruct (fails E ExceptionText) eqn:f; unfold throw, ret; (split; [reflexivity|]); (split; [split; [reflexivity|unfold live; cbn; tauto]|]);
      intros e; [rewrite (e ExceptionText) in f; discriminate f|]. now exists t.
Qed.
Print Assumptions C108_posix_load_lib_partial.

(** Exactly what happens if they do: the call throws although the library has been loaded,
    with the text of that other error, and the reference is never given back. *)
Theorem C108_posix_leak_refuted E so name s h t : so (cstr name) = Opened h (Some t) ->
  let '(r, s') := load_lib_posix E so name s in
  one_more h s s' /\ exists x, r = Exc x /\ (enough_memory E -> x = LoadError (cstr t)).
Proof.
  intros r. unfold load_lib_posix, andthen, dlerror. cbn [code heap refs pending]. rewrite r.
  cbn [leave acquire code heap refs pending]. unfold allocate.
  pose proof (acquired h (Machine (code s) None (heap s) (refs s))) as O.
  destruct (fails E ExceptionText) eqn:f; unfold throw, ret; (split; [exact O|]); eexists; (split; [reflexivity|]);
    intros e; [rewrite (e ExceptionText) in f; discriminate f|reflexivity].
Qed.
Print Assumptions C108_posix_leak_refuted.

(** Names with a null byte: only the part before it is looked up, and what() of the exception
    ends there (without the reason). *)
Theorem C108_null_in_name E sym a b s :
  plain a ->
  (forall h, sym a = Opened h None -> fst (load_func_posix E sym (a ++ 0 :: b) s) = Val h) /\
  (forall t, enough_memory E -> sym a = Failed t ->
     exists x, fst (load_func_posix E sym (a ++ 0 :: b) s) = Exc x /\ what x = Some (bytes "Unable to load function '" ++ a)).
Proof.
  intros p. unfold load_func_posix, andthen, dlerror. rewrite (cstr_cut a b p). cbn [code heap refs pending]. split.
  - intros h r. rewrite r. cbn [leave code heap refs pending]. reflexivity.
  - intros t e r. rewrite r. cbn [leave code heap refs pending]. unfold name_of_function, allocate, andthen.
    rewrite (e Concat), (e LastConcat), (e ExceptionText). unfold throw, ret. cbn [fst].
    eexists. split; [reflexivity|]. cbn [what]. f_equal.
    rewrite <- !app_assoc. rewrite (cstr_app (bytes "Unable to load function '")) by (apply plain_bytes; reflexivity).
    f_equal. rewrite <- app_comm_cons. now apply cstr_cut.
Qed.
Print Assumptions C108_null_in_name.

(** Concrete calls: a message of the system, the fallback, no memory for the message, a stale
    error, a library whose initializer left an error. *)
Definition E1 : env := Env (fun c => if c =? 126 then Some (bytes "missing") else None) Some (fun c => c) (fun _ => false).
Definition E2 : env := Env (fun c => Some (bytes "missing")) Some (fun c => c) (fun p => match p with MessageBlock => true | _ => false end).
Definition s0 : machine := Machine 0 (Some (bytes "stale")) [Some (bytes "other")] (fun _ => O).
Example C108_nonvacuous :
  load_func_windows E1 true (fun _ => Error 126) (bytes "f") s0 =
    (Exc (LoadError (bytes "Unable to load function 'f': missing")), Machine 126 (Some (bytes "stale")) [Some (bytes "other"); None] (refs s0)) /\
  fst (load_func_windows E1 false (fun _ => Error 127) (bytes "f") s0) = Exc (LoadError (bytes "Unable to load function 'f': (failed to get error message)")) /\
  (let '(r, s) := load_lib_windows E2 true (fun _ => Error 5) (bytes "x.dll") s0 in r = Exc NoMemory /\ heap s = [Some (bytes "other"); None]) /\
  fst (load_lib_posix E1 (fun _ => Opened 3 None) (bytes "x.so") s0) = Val 3%nat /\
  fst (load_lib_posix E1 (fun _ => Failed (bytes "no such file")) (bytes "x.so") s0) = Exc (LoadError (bytes "no such file")) /\
  (let '(r, s) := load_lib_posix E1 (fun _ => Opened 3 (Some (bytes "plugin"))) (bytes "x.so") s0 in r = Exc (LoadError (bytes "plugin")) /\ refs s 3%nat = 1%nat) /\
  enough_memory E1 /\ plain (bytes "x.so").
Proof. repeat split. apply plain_bytes. reflexivity. Qed.
