(** copyable-unique_ptr.hpp. std::unique_ptr<T> is modelled by the pointer it
    owns (trusted: std::unique_ptr, std::make_unique). Heap cells record how
    often they were deleted; a second delete or a read of a deleted or
    non-existing cell is UB. *)
From Verif Require Import Base.
Local Open Scope outcome_scope.

Section Model.
Context {V : Type}.

(** A heap object (what copyable-unique_ptr.hpp:31 owns) *)
Record cell := Cell { val : V; deleted : bool }.
(** Variables of type copyable_unique_ptr<T>: [None] after destruction,
    otherwise the owned pointer (null or a heap address). copyable-unique_ptr.hpp:31. *)
Record world := World { heap : list cell; vars : list (option (option nat)) }.
(** Before the first operation (copyable-unique_ptr.hpp:11-24) *)
Definition empty_world : world := World [] [].

(** *o.ptr (copyable-unique_ptr.hpp:14, 16) *)
Definition deref (h : list cell) (a : nat) : outcome V :=
  match nth_error h a with Some (Cell v false) => Ok v | _ => UB end.
(** delete p; (of a possibly null pointer) std::unique_ptr's deleter, copyable-unique_ptr.hpp:16, 20, 31. *)
Definition del (h : list cell) (p : option nat) : outcome (list cell) :=
  match p with
  | None => Ok h
  | Some a => match nth_error h a with
              | Some (Cell v false) => Ok (upd h a (Cell v true))
              | _ => UB
              end
  end.
(** o.ptr ? std::make_unique<T>( *o.ptr) : nullptr  (lines 14 and 16);
    [fails]: the allocation or T's copy constructor throws (make_unique then
    frees the memory). *)
Definition clone (fails : bool) (h : list cell) (p : option nat) : outcome (list cell * option nat) :=
  match p with
  | None => Ok (h, None)
  | Some a => v <- deref h a ;;
              if fails then Throw user_exception
              else Ok (h ++ [Cell v false], Some (length h))
  end.

(** Not in the code: lookup for the histories over copyable-unique_ptr.hpp:11-24 *)
Definition live (w : world) (i : nat) : option (option nat) :=
  match nth_error (vars w) i with Some (Some p) => Some p | _ => None end.

(** What a program does (copyable-unique_ptr.hpp:11-24) *)
Inductive op :=
| Make (v : V)                               (* x{std::make_unique<T>(v)}  (line 11) *)
| Default                                    (* x{}  (line 12) *)
| CopyCtor (i : nat) (fails : bool)          (* x{vars[i]}  (13-14) *)
| MoveCtor (i : nat)                         (* x{std::move(vars[i])}  (19) *)
| CopyAssign (i j : nat) (fails : bool)      (* vars[i] = vars[j]  (15-18) *)
| MoveAssign (i j : nat)                     (* vars[i] = std::move(vars[j])  (20) *)
| SetVal (i : nat) (v : V)                   (* if (vars[i].ptr) *vars[i] = v  (28) *)
| Destroy (i : nat).

(** An exception leaves the world as it is at that point (nothing was
    constructed or assigned yet); the program catches it and goes on. copyable-unique_ptr.hpp:11-24. *)
Definition step (o : op) (w : world) : outcome world :=
  match o with
  | Make v => Ok (World (heap w ++ [Cell v false]) (vars w ++ [Some (Some (length (heap w)))]))
  | Default => Ok (World (heap w) (vars w ++ [Some None]))
  | CopyCtor i f =>
      match live w i with
      | None => Ok w
      | Some p =>
          match clone f (heap w) p with
          | Ok (h, q) => Ok (World h (vars w ++ [Some q]))
          | Throw _ => Ok w
          | Abort => Abort | UB => UB
          end
      end
  | MoveCtor i =>
      match live w i with
      | None => Ok w
      | Some p => Ok (World (heap w) (upd (vars w) i (Some None) ++ [Some p]))
      end
  | CopyAssign i j f =>
      match live w i, live w j with
      | Some p, Some q =>
          match clone f (heap w) q with
          | Ok (h, r) => (* this->ptr = temporary: reset(release()) *)
              h' <- del h p ;; Ok (World h' (upd (vars w) i (Some r)))
          | Throw _ => Ok w
          | Abort => Abort | UB => UB
          end
      | _, _ => Ok w
      end
  | MoveAssign i j =>
      match live w i, live w j with
      | Some _, Some q =>
          (* reset(o.release()): the source becomes null, then the old pointer
             of the destination (null if it is the source) is deleted *)
          let vs := upd (vars w) j (Some None) in
          match nth_error vs i with
          | Some (Some old) => h' <- del (heap w) old ;; Ok (World h' (upd vs i (Some q)))
          | _ => UB
          end
      | _, _ => Ok w
      end
  | SetVal i v =>
      match live w i with
      | Some (Some a) => _ <- deref (heap w) a ;; Ok (World (upd (heap w) a (Cell v false)) (vars w))
      | _ => Ok w
      end
  | Destroy i =>
      match live w i with
      | None => Ok w
      | Some p => h' <- del (heap w) p ;; Ok (World h' (upd (vars w) i None))
      end
  end.

(** A history (copyable-unique_ptr.hpp:11-24) *)
Fixpoint run (os : list op) (w : world) : outcome world :=
  match os with
  | [] => Ok w
  | o :: os' => w' <- step o w ;; run os' w'
  end.
End Model.
Arguments cell : clear implicits.
Arguments world : clear implicits.
Arguments op : clear implicits.
