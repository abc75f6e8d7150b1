(** The exceptions of type-erasure.hpp and demangled_typename. *)
From Verif Require Import Base Bytes.
Local Open Scope Z_scope.

(** demangled_typename (/repo/src/src/demangled-typename.cpp:11-19). [gnu]: __GNUC__ is defined,
    [demangle]: what abi::__cxa_demangle gives for a name (None: a null pointer, when it fails),
    from which a std::string is then constructed. *)
Definition demangled_typename (gnu : bool) (demangle : list Z -> option (list Z)) (name : list Z) : outcome (list Z) :=
  if gnu then match demangle name with Some s => Ok s | None => UB end else Ok name.

(** bad_type_erased_type (type-erasure.hpp:23-46). The type_infos are represented by their
    names. The characters of [message] (45) live in a numbered buffer; the string gets a new
    buffer from the string moved into it (38) and the old one is freed. [live]: buffers that
    exist; [bufs]: their contents. Simplification: the two uses of the old buffer in 33-37 are
    not visible, because the buffer is gone when what() returns. *)
Record exn_object := Exn {
  given : list Z;           (* std::logic_error's string *)
  actual_type : list Z;
  requested_type : list Z;
  bufs : list (list Z);     (* every buffer message ever had *)
  current : option nat      (* message's buffer; None: no heap buffer yet *)
}.
(** Constructor (type-erasure.hpp:25-29). *)
Definition construct (actual requested msg : list Z) : exn_object := Exn msg actual requested [] None.
(** what() (type-erasure.hpp:31-40): the new state and the buffer it returns. The prefix built
    in 32-36 is overwritten in 37. *)
Definition what (gnu : bool) (demangle : list Z -> option (list Z)) (e : exn_object) : outcome (exn_object * nat) :=
  let message := [] in
  let message := match given e with [] => message | w => message ++ w ++ bytes ": " end in
  bind (demangled_typename gnu demangle (requested_type e)) (fun requested =>
  bind (demangled_typename gnu demangle (actual_type e)) (fun actual =>
  let message := bytes "Type requested: " ++ requested ++ bytes ", type contained: " ++ actual in
  Ok (Exn (given e) (actual_type e) (requested_type e) (bufs e ++ [message]) (Some (length (bufs e))), length (bufs e)))).
(** Reading through a pointer what() returned: only the current buffer exists
    (type-erasure.hpp:37-39). *)
Definition read (e : exn_object) (p : nat) : outcome (list Z) :=
  match current e with
  | Some b => if Nat.eqb b p then match nth_error (bufs e) p with Some s => Ok s | None => UB end else UB
  | None => UB
  end.
(** what() called [n] times; the pointers it returned (type-erasure.hpp:31-40). *)
Fixpoint whats (gnu : bool) (demangle : list Z -> option (list Z)) (n : nat) (e : exn_object) : outcome (exn_object * list nat) :=
  match n with
  | O => Ok (e, [])
  | S k => bind (what gnu demangle e) (fun r => bind (whats gnu demangle k (fst r)) (fun q => Ok (fst q, snd r :: snd q)))
  end.
