(** Timed<duration<F, Period>> (timed.hpp:11-23) for a floating-point representation F. The clock is
    std::chrono::steady_clock with nanoseconds in a 64-bit integer; Period is [den] nanoseconds. All results are
    rounded to nearest even in the format of F; nothing overflows (a reading is below 2^63). *)
From Flocq Require Import Core.
From Coq Require Import Reals.
From Verif Require Import Base.
Local Open Scope Z_scope.

(** The precision and the exponent of the smallest number of F (timed.hpp:12); float: 24, -149; double: 53, -1074. *)
Record flt := Flt { prec : Z; emin : Z }.
(** Rounding of a floating-point operation (timed.hpp:14, 16) *)
Definition rnd (f : flt) (x : R) : R := round radix2 (FLT_exp (emin f) (prec f)) ZnearestE x.
(** The implicit conversion of time_since_epoch() to duration<F, Period>: duration_cast with the ratio 1/den,
    static_cast<F>(count) / static_cast<F>(den) (timed.hpp:14, 16). *)
Definition conv (f : flt) (den now : Z) : R := rnd f (rnd f (IZR now) / rnd f (IZR den)).
(** Constructor: time -= now (timed.hpp:13-15) *)
Definition timed_start (f : flt) (den : Z) (time : R) (now : Z) : R := rnd f (time - conv f den now).
(** Destructor: time += now (timed.hpp:16) *)
Definition timed_end (f : flt) (den : Z) (time : R) (now : Z) : R := rnd f (time + conv f den now).
(** One timer; the clock reads t0 at its construction and t1 at its destruction (timed.hpp:13-16). *)
Definition measure (f : flt) (den : Z) (time : R) (t0 t1 : Z) : R := timed_end f den (timed_start f den time t0) t1.
