(** callback-streambuf.hpp with a callback that itself writes to the same stream buffer
    (paths relative to /repo/src/include/guanaqo). The state is that of Streambuf_Model.v. *)
From Verif Require Import Base Streambuf_Model.
Local Open Scope outcome_scope.

(** What the i-th call of write_func (98) with this span does to the stream buffer. *)
Definition reaction := nat -> list Z -> list op.
(** [Ok None]: the calls are nested more deeply than [fuel] (66, 76, 84). *)
Definition answer := outcome (option sb).
(** Sequencing (callback-streambuf.hpp:58-85) *)
Definition andthen (m : answer) (k : sb -> answer) : answer :=
  match m with Ok (Some s) => k s | Ok None => Ok None | Throw e => Throw e | Abort => Abort | UB => UB end.

Section Ops.
Variable sync : sb -> answer.
(** callback-streambuf.hpp:78-85 *)
Definition overflow_n (c : Z) (s : sb) : answer := s <- store1 c s;; sync s.
(** std::streambuf::sputc with overflow, callback-streambuf.hpp:78-85 *)
Definition sputc_n (c : Z) (s : sb) : answer :=
  if Nat.ltb (pp s) (cap s) then s <- store1 c s;; Ok (Some s) else overflow_n c s.
(** std::streambuf::xsputn with overflow, callback-streambuf.hpp:78-85 *)
Fixpoint xsputn_n (fuel : nat) (data : list Z) (s : sb) : answer :=
  match data, fuel with
  | [], _ => Ok (Some s)
  | _, O => Ok (Some s)
  | _, S fuel =>
    if Nat.ltb (cap s) (pp s) then UB
    else
      let len := Nat.min (cap s - pp s) (length data) in
      s <- store_n (firstn len data) s;;
      match skipn len data with
      | [] => Ok (Some s)
      | c :: rest => andthen (overflow_n c s) (xsputn_n fuel rest)
      end
  end.
(** One operation (callback-streambuf.hpp:76-85) *)
Definition step_n (o : op) (s : sb) : answer :=
  match o with
  | Put c => sputc_n c s
  | Write data => xsputn_n (length data) data s
  | Flush => sync s (* callback-streambuf.hpp:76 *)
  end.
(** A history (callback-streambuf.hpp:76-85) *)
Fixpoint run_n (ops : list op) (s : sb) : answer :=
  match ops with [] => Ok (Some s) | o :: ops => andthen (step_n o s) (run_n ops) end.
End Ops.

(** _sync, callback-streambuf.hpp:58-74: size and remainder are computed before the callback (61-62), pptr()
    is read again behind it (70). *)
Fixpoint sync_n (react : reaction) (fuel : nat) (s : sb) : answer :=
  match fuel with
  | O => Ok None
  | S fuel =>
    if Nat.eqb (pp s) 0 then Ok (Some s)
    else
      let size := pp s in
      let remainder := utf8_remainder (rev (firstn size (mem s))) in
      andthen
        (if Nat.ltb remainder size then
           let span := firstn (size - remainder) (mem s) in
           run_n (sync_n react fuel) (react (length (out s)) span) (Sb (mem s) (cap s) (pp s) (out s ++ [span]))
         else Ok (Some s))
        (fun s =>
           if Nat.ltb (pp s) remainder then UB (* 70: before the buffer *)
           else
             let mem' := firstn remainder (skipn (pp s - remainder) (mem s)) ++ skipn remainder (mem s) in
             Ok (Some (Sb mem' (cap s) remainder (out s))))
  end.
