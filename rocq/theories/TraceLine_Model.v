(** trace.hpp: the text form of the logs (paths relative to /repo/src/include/guanaqo). *)
From Verif Require Import Base Bytes Print_Model.
Local Open Scope Z_scope.

(** trace.hpp:100-106. Names are byte strings; the other fields are int64_t, counts of
    nanoseconds and size_t. *)
Record log := Log { name : list Z; instance : Z; start_time : Z; duration : Z; thread_id : Z; flop_count : Z }.

(** std::quoted of a C string: quotes around the string, a backslash before every quote
    and backslash in it (delim and escape are the defaults). trace.hpp:109. *)
Definition escape1 (c : Z) : list Z := if orb (c =? 34) (c =? 92) then [92; c] else [c].
(** trace.hpp:109 *)
Definition quoted (s : list Z) : list Z := [34] ++ flat_map escape1 s ++ [34].

(** trace.hpp:108-112, for a stream with default formatting flags, width 0 and the
    classic locale. *)
Definition print_log (l : log) : list Z :=
  quoted (name l) ++ [44] ++ show_int (instance l) ++ [44] ++ show_int (start_time l) ++ [44] ++
  show_int (duration l) ++ [44] ++ show_int (thread_id l) ++ [44] ++ show_int (flop_count l).

(** trace.hpp:115-118. *)
Definition column_headings : list Z :=
  bytes "name" ++ [44] ++ bytes "instance" ++ [44] ++ bytes "start_time" ++ [44] ++ bytes "duration" ++ [44] ++
  bytes "thread_id" ++ [44] ++ bytes "flop_count".

(** A file of logs as callers write it: one line per log. with trace.hpp:108-112. *)
Definition print_logs (ls : list log) : list Z := flat_map (fun l => print_log l ++ [10]) ls.
