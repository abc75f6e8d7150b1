(** timed.hpp and timed-cpu.{hpp,cpp}. Times are exact integers (the clock's
    ticks; [k] target ticks per clock tick); overflow of the representation and
    rounding of floating-point durations are not modelled. *)
From Verif Require Import Base.
Local Open Scope Z_scope.

(** TimingsCPU (timed-cpu.hpp): wall time, CPU time, number of invocations. timed-cpu.hpp:11-15. *)
Record timings := Timings { wall_time : Z; cpu_time : Z; num_invocations : Z }.

(** Live timer objects: a Timed<duration> on durs[d], or a Timed<TimingsCPU>
    on cpus[d] with its recorded start times. timed.hpp:12-22, timed-cpu.hpp:21-32. *)
Inductive scope := SDur (d : nat) | SCpu (d : nat) (wall_start cpu_start : Z).
(** Accumulators of the program (durations and TimingsCPU objects) and its
    timer objects in order of construction ([None] after destruction). timed.hpp:22, timed-cpu.hpp:29. *)
Record world := World { durs : list Z; cpus : list timings; scopes : list (option scope) }.

(** What a program does (timed.hpp:13-16, timed-cpu.cpp:44-55) *)
Inductive event :=
| StartDur (d : nat) (now : Z)          (* Timed t{durs[d]}; the clock reads [now] *)
| StartCpu (d : nat) (wall cpu : Z)     (* Timed t{cpus[d]}; *)
| End (t : nat) (wall cpu : Z).         (* ~Timed of the t-th timer ever created (normal exit or unwinding) *)

(** timed.hpp:13-16, timed-cpu.cpp:44-55 *)
Definition step (k : Z) (e : event) (w : world) : world :=
  match e with
  | StartDur d now => (* timed.hpp 13-15: time -= now *)
      World (upd (durs w) d (nth d (durs w) 0 - k * now)) (cpus w) (scopes w ++ [Some (SDur d)])
  | StartCpu d wall cpu => (* timed-cpu.cpp 44-47 *)
      World (durs w) (cpus w) (scopes w ++ [Some (SCpu d wall cpu)])
  | End t wall cpu =>
      match nth_error (scopes w) t with
      | Some (Some (SDur d)) => (* timed.hpp 16: time += now *)
          World (upd (durs w) d (nth d (durs w) 0 + k * wall)) (cpus w) (upd (scopes w) t None)
      | Some (Some (SCpu d ws cs)) => (* timed-cpu.cpp 49-55 *)
          match nth_error (cpus w) d with
          | Some (Timings wt ct n) =>
              World (durs w) (upd (cpus w) d (Timings (wt + (wall - ws)) (ct + (cpu - cs)) (n + 1))) (upd (scopes w) t None)
          | None => w
          end
      | _ => w
      end
  end.
(** A history (timed.hpp:13-16, timed-cpu.cpp:44-55) *)
Definition run (k : Z) (es : list event) (w : world) : world := fold_left (fun w e => step k e w) es w.
(** Before the first timer (timed.hpp:13) *)
Definition start (ds : list Z) (cs : list timings) : world := World ds cs [].

(** timed.hpp 29-33: timed(time, func, args...) with clock readings t0 (before)
    and t1 (when the timer is destroyed, after func returned or threw). *)
Definition timed {A} (k t0 t1 : Z) (time : Z) (func : outcome A) : Z * outcome A :=
  let time := time - k * t0 in
  let r := func in
  (time + k * t1, r).
