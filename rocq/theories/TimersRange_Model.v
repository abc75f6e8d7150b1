(** Timed<duration<Rep, Period>> (timed.hpp:11-23) for an integral Rep of [w] bits with its overflows, and the CPU
    time of timed-cpu.cpp:11-27. The clock counts nanoseconds in 64 bits, one of them is [k] units of Period (other
    periods do not compile). *)
From Verif Require Import Base.
Local Open Scope outcome_scope.
Local Open Scope Z_scope.

(** timed.hpp:12 (Rep) *)
Definition in_range (w z : Z) : bool := (- 2 ^ (w - 1) <=? z) && (z <? 2 ^ (w - 1)).
(** Conversion to Rep (modulo 2^w), timed.hpp:14, 16 *)
Definition wrap (w z : Z) : Z := (z + 2 ^ (w - 1)) mod 2 ^ w - 2 ^ (w - 1).
(** Implicit conversion of time_since_epoch(): the product is computed in std::intmax_t, then converted to Rep
    (timed.hpp:14, 16). *)
Definition conv (w k now : Z) : outcome Z := if in_range 64 (k * now) then Ok (wrap w (k * now)) else UB.
(** x -= y and x += y in Rep: types smaller than int are promoted and converted back (timed.hpp:14, 16). *)
Definition arith (w z : Z) : outcome Z := if w <? 32 then Ok (wrap w z) else if in_range w z then Ok z else UB.
(** timed.hpp:13-15 *)
Definition timed_start (w k time now : Z) : outcome Z := c <- conv w k now ;; arith w (time - c).
(** timed.hpp:16 *)
Definition timed_end (w k time now : Z) : outcome Z := c <- conv w k now ;; arith w (time + c).
(** One timer with clock readings t0 and t1, timed.hpp:13-16 *)
Definition measure (w k time t0 t1 : Z) : outcome Z := a <- timed_start w k time t0 ;; timed_end w k a t1.

(** getProcessCpuTime with clock_gettime, timed-cpu.cpp:22-25. int64_t arithmetic. *)
Definition cpu_posix (sec nsec : Z) : outcome Z :=
  if in_range 64 (sec * 1000000000) && in_range 64 (sec * 1000000000 + nsec) then Ok (sec * 1000000000 + nsec) else UB.
(** getProcessCpuTime with GetProcessTimes: the user time, as a FILETIME of two 32-bit words; timed-cpu.cpp:15-20. *)
Definition cpu_windows (high low : Z) : Z := wrap 64 (Z.lor (Z.shiftl high 32) low).
(** time.cpu_time += std::chrono::nanoseconds{cpu_end_time - cpu_start_time}, timed-cpu.cpp:54. *)
Definition add_cpu (cpu_time start end_ : Z) : outcome Z :=
  if in_range 64 (end_ - start) && in_range 64 (cpu_time + (end_ - start)) then Ok (cpu_time + (end_ - start)) else UB.
