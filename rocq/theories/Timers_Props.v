(** C62: timers. *)
From Verif Require Import Base Timers_Model Timers_Spec Timers_Proofs.
Local Open Scope Z_scope.

(** After any history (any nesting or interleaving of timer scopes on any
    number of durations) in which every timer has been destroyed, each duration
    is its initial value plus the sum of (end - start) over its timers ([k]
    target ticks per clock tick). *)
Theorem C62_durations :
  forall k ds cs es d,
    well_formed (length ds) (length cs) es -> all_ended es -> (d < length ds)%nat ->
    nth d (durs (run k es (start ds cs))) 0 = nth d ds 0 + k * Zsum (map (elapsed_dur es d) es).
Proof. intros k ds cs es d W A L. exact (durs_final k ds cs es W d A L). Qed.
Print Assumptions C62_durations.

(** TimingsCPU: at any time, the initial values plus wall and CPU time and
    number of the timers that have ended (no need to wait for the others). *)
Theorem C62_timings_cpu :
  forall k ds cs es d c0,
    well_formed (length ds) (length cs) es -> nth_error cs d = Some c0 ->
    nth_error (cpus (run k es (start ds cs))) d =
      Some (Timings (wall_time c0 + Zsum (map (fun e => fst (fst (elapsed_cpu es d e))) es))
                    (cpu_time c0 + Zsum (map (fun e => snd (fst (elapsed_cpu es d e))) es))
                    (num_invocations c0 + Zsum (map (fun e => snd (elapsed_cpu es d e)) es))).
Proof. intros k ds cs es d c0 W H. exact (cpus_final k ds cs es W d c0 H). Qed.
Print Assumptions C62_timings_cpu.

(** timed(): returns what the function returns or throws, and accounts for its
    duration in either case. *)
Theorem C62_timed :
  forall (A : Type) k t0 t1 time (f : outcome A),
    snd (timed k t0 t1 time f) = f /\ fst (timed k t0 t1 time f) = time + k * (t1 - t0).
Proof. intros. unfold timed; cbn [fst snd]. split; [reflexivity|lia]. Qed.
Print Assumptions C62_timed.

(** Two overlapping timers on one duration, one nested CPU timer. *)
Definition demo : list event :=
  [StartDur 0 10; StartCpu 0 11 100; StartDur 0 12; End 0 20 0; End 1 21 105; End 2 30 0].
Example C62_nonvacuous :
  well_formed 1 1 demo /\ all_ended demo /\
  durs (run 1 demo (start [5] [Timings 0 0 0])) = [5 + (20 - 10) + (30 - 12)] /\
  cpus (run 1 demo (start [5] [Timings 0 0 0])) = [Timings 10 5 1].
Proof.
  repeat split.
  - cbn. repeat constructor; cbn; intuition lia.
  - intros pre t w c post E. unfold demo in E.
    destruct pre as [|e0 pre]; [discriminate|]. injection E as <- E.
    destruct pre as [|e1 pre]; [discriminate|]. injection E as <- E.
    destruct pre as [|e2 pre]; [discriminate|]. injection E as <- E.
    destruct pre as [|e3 pre]; [injection E as <- <- <- <-; cbn; lia|]. injection E as <- E.
    destruct pre as [|e4 pre]; [injection E as <- <- <- <-; cbn; lia|]. injection E as <- E.
    destruct pre as [|e5 pre]; [injection E as <- <- <- <-; cbn; lia|]. injection E as <- E.
    destruct pre; discriminate.
  - intros d now H. cbn in H. decompose [or] H; try discriminate; try contradiction; match goal with [ E : StartDur _ _ = _ |- _ ] => injection E; intros; subst; lia end.
  - intros d w c H. cbn in H. decompose [or] H; try discriminate; try contradiction; match goal with [ E : StartCpu _ _ _ = _ |- _ ] => injection E; intros; subst; lia end.
  - intros t H. cbn in H. cbn. lia.
Qed.
