(** C63: dynamic loading. *)
From Verif Require Import Base Dl_Model.
Local Open Scope Z_scope.

(** Every flag can be read off the integer with the loader's masks, and
    exactly one of RTLD_LAZY and RTLD_NOW is passed. *)
Theorem C63_flags_recoverable :
  forall f,
    (Z.land (flags_to_int f) RTLD_GLOBAL <> 0 <-> global f = true) /\
    (Z.land (flags_to_int f) RTLD_LAZY <> 0 <-> lazy f = true) /\
    (Z.land (flags_to_int f) RTLD_NOW <> 0 <-> lazy f = false) /\
    (Z.land (flags_to_int f) RTLD_NODELETE <> 0 <-> nodelete f = true) /\
    (Z.land (flags_to_int f) RTLD_DEEPBIND <> 0 <-> deepbind f = true) /\
    Z.land (flags_to_int f) (Z.lnot (Z.lor RTLD_GLOBAL (Z.lor RTLD_LAZY (Z.lor RTLD_NOW (Z.lor RTLD_NODELETE RTLD_DEEPBIND))))) = 0.
Proof. intros [[] [] [] []]; cbn; repeat split; try congruence; try (now intros H; contradict H); try discriminate. Qed.
Print Assumptions C63_flags_recoverable.

Theorem C63_flags_injective : forall f g, flags_to_int f = flags_to_int g -> f = g.
Proof. intros [[] [] [] []] [[] [] [] []]; cbn; intros H; (reflexivity || discriminate H). Qed.
Print Assumptions C63_flags_injective.

(** Whatever error was pending, and whatever the loader does: the handle is
    returned exactly when the loader reported no error for this call, otherwise
    dynamic_load_error is thrown with that error's message; no error stays
    pending. *)
Theorem C63_load_lib :
  forall r stale,
    let '(res, msg, after) := load_lib false r stale in
    after = None /\
    (error r = None -> res = Ok (handle r)) /\
    (forall e, error r = Some e -> res = Throw dynamic_load_error /\ msg = Some e).
Proof. intros [h [e|]] stale; cbn; repeat split; congruence. Qed.
Print Assumptions C63_load_lib.

Theorem C63_load_func :
  forall r stale,
    let '(res, msg, after) := load_func false r stale in
    after = None /\
    (error r = None -> res = Ok (handle r)) /\
    (forall e, error r = Some e -> res = Throw dynamic_load_error /\ msg = Some e).
Proof. intros [h [e|]] stale; cbn; repeat split; congruence. Qed.
Print Assumptions C63_load_func.

(** Stale errors, failures, and a symbol whose value is null. *)
Example C63_nonvacuous :
  load_lib false (Reply (Some 7%nat) None) (Some 3%nat) = (Ok (Some 7%nat), None, None) /\
  load_lib false (Reply None (Some 4%nat)) (Some 3%nat) = (Throw dynamic_load_error, Some 4%nat, None) /\
  load_func false (Reply None None) (Some 3%nat) = (Ok None, None, None) /\
  flags_to_int (Flags true true false true) = 265.
Proof. repeat split. Qed.
