(** Model of guanaqo::MaxHistory<T> (src/include/guanaqo/max-history.hpp).

    A MaxHistory holds a std::vector and an iterator into a vector.  The class
    has the implicitly generated copy/move members, so the iterator is copied
    as is.  To express what that does, vectors live in a store and an iterator
    is (store index of the vector, position).

    Simplifications: T's copies/moves do not throw; comparing iterators of
    different vectors gives "not equal" (their elements have different
    addresses; the standard leaves the comparison undefined). *)
From Verif Require Import Base MaxHistory_Spec.
Local Open Scope outcome_scope.

Section MaxHistory.
Context {T : Type} (ltb gtb eqb : T -> T -> bool) (dflt : T).

(** Data members, max-history.hpp:41-44. *)
Record obj := Obj { o_buf : nat; o_full : bool; o_it : nat * nat; o_max : T }.
(** The vectors (max-history.hpp:41) and the objects of a program *)
Record world := World { w_bufs : list (list T); w_objs : list obj }.

(** it == buffer.begin(), it == buffer.end() (max-history.hpp:24, 27, 31) *)
Definition iter_eqb (a b : nat * nat) : bool :=
  Nat.eqb (fst a) (fst b) && Nat.eqb (snd a) (snd b).

(** Constructor, max-history.hpp:13 and the default member initializers
    42-44. Returns the index of the new object. *)
Definition mh_new (w : world) (memory : nat) : world :=
  let b := length (w_bufs w) in
  World (w_bufs w ++ [repeat dflt memory])
        (w_objs w ++ [Obj b false (b, 0) dflt]).

(** Implicit copy constructor: the vector is copied into a new vector, the
    iterator [it] is copied unchanged (max-history.hpp:41-44). *)
Definition mh_copy (w : world) (i : nat) : outcome world :=
  match nth_error (w_objs w) i with
  | None => UB
  | Some o =>
      match nth_error (w_bufs w) (o_buf o) with
      | None => UB
      | Some v =>
          Ok (World (w_bufs w ++ [v])
                    (w_objs w ++ [Obj (length (w_bufs w)) (o_full o) (o_it o) (o_max o)]))
      end
  end.

(** Implicit move constructor: the new object takes the source's vector (its
    iterators stay valid, [vector.cons]); the source is left with an empty
    vector and its old iterator. For max-history.hpp:11-45. *)
Definition mh_move (w : world) (i : nat) : outcome world :=
  match nth_error (w_objs w) i with
  | None => UB
  | Some o =>
      let b := length (w_bufs w) in
      Ok (World (w_bufs w ++ [[]])
                (upd (w_objs w) i (Obj b (o_full o) (o_it o) (o_max o)) ++ [o]))
  end.

(** Implicit copy assignment: the vector's elements are copied, [it] is copied unchanged
    (max-history.hpp:41-44). Whether the vector is assigned in place or gets new storage (and the old one is freed)
    depends on its capacity; here it is a parameter. *)
Definition mh_copy_assign (w : world) (i j : nat) (in_place : bool) : outcome world :=
  match nth_error (w_objs w) i, nth_error (w_objs w) j with
  | Some oi, Some oj =>
      if Nat.eqb i j then Ok w
      else match nth_error (w_bufs w) (o_buf oj) with
      | None => UB
      | Some v =>
          if in_place then
            Ok (World (upd (w_bufs w) (o_buf oi) v) (upd (w_objs w) i (Obj (o_buf oi) (o_full oj) (o_it oj) (o_max oj))))
          else
            Ok (World (upd (w_bufs w) (o_buf oi) [] ++ [v])
                      (upd (w_objs w) i (Obj (length (w_bufs w)) (o_full oj) (o_it oj) (o_max oj))))
      end
  | _, _ => UB
  end.

(** Implicit move assignment: the vector of i is freed, i takes the vector of j (iterators into it stay valid), j is
    left with an empty vector. Not used with i = j. For max-history.hpp:41-44. *)
Definition mh_move_assign (w : world) (i j : nat) : outcome world :=
  match nth_error (w_objs w) i, nth_error (w_objs w) j with
  | Some oi, Some oj =>
      let b := length (w_bufs w) in
      Ok (World (upd (w_bufs w) (o_buf oi) [] ++ [[]])
                (upd (upd (w_objs w) j (Obj b (o_full oj) (o_it oj) (o_max oj))) i oj))
  | _, _ => UB
  end.

(** Implicit destructor: the vector is freed; [it] of the copies of i may point to it. For max-history.hpp:41. *)
Definition mh_destroy (w : world) (i : nat) : outcome world :=
  match nth_error (w_objs w) i with
  | None => UB
  | Some o => Ok (World (upd (w_bufs w) (o_buf o) []) (w_objs w))
  end.

(** *it (max-history.hpp:17, 19, 20) *)
Definition load (w : world) (it : nat * nat) : outcome T :=
  match nth_error (w_bufs w) (fst it) with
  | None => UB
  | Some v => match nth_error v (snd it) with None => UB | Some x => Ok x end
  end.

(** *it = ... (max-history.hpp:18, 29) *)
Definition store (bufs : list (list T)) (it : nat * nat) (x : T) : list (list T) :=
  match nth_error bufs (fst it) with
  | None => bufs
  | Some v => upd bufs (fst it) (upd v (snd it) x)
  end.

(** std::max_element(first, last): scans from the left, keeps the first
    largest element; dereferencing the result of an empty range is UB. max-history.hpp:22. *)
Definition max_element (l : list T) : outcome T :=
  match l with
  | [] => UB
  | x :: l' => Ok (fold_left (fun m y => if ltb m y then y else m) l' x)
  end.

(** MaxHistory::add, max-history.hpp:15-36. *)
Definition mh_add (w : world) (i : nat) (newt : T) : outcome world :=
  match nth_error (w_objs w) i with
  | None => UB
  | Some o =>
      match nth_error (w_bufs w) (o_buf o) with
      | None => UB
      | Some own =>
          let begin := (o_buf o, 0) in
          let endi := (o_buf o, length own) in
          if o_full o then                                       (* 16 *)
            oldt <- load w (o_it o) ;;                           (* 17 *)
            let bufs := store (w_bufs w) (o_it o) newt in        (* 18 *)
            own' <- match nth_error bufs (o_buf o) with None => UB | Some v => Ok v end ;;
            m <- (if gtb newt (o_max o) then Ok newt             (* 19-20 *)
                  else if eqb oldt (o_max o) then max_element own'  (* 21-22 *)
                  else Ok (o_max o)) ;;
            let it' := (fst (o_it o), S (snd (o_it o))) in       (* 23 *)
            let it'' := if iter_eqb it' endi then begin else it' in  (* 24-25 *)
            Ok (World bufs (upd (w_objs w) i (Obj (o_buf o) true it'' m)))
          else
            let m := if iter_eqb (o_it o) begin || gtb newt (o_max o)   (* 27-28 *)
                     then newt else o_max o in
            _ <- load w (o_it o) ;;                              (* *it must be dereferenceable *)
            let bufs := store (w_bufs w) (o_it o) newt in        (* 29 *)
            let it' := (fst (o_it o), S (snd (o_it o))) in       (* 30 *)
            let w' := if iter_eqb it' endi                       (* 31-34 *)
                      then Obj (o_buf o) true begin m
                      else Obj (o_buf o) false it' m in
            Ok (World bufs (upd (w_objs w) i w'))
      end
  end.

(** MaxHistory::max, max-history.hpp:38. *)
Definition mh_max (w : world) (i : nat) : outcome T :=
  match nth_error (w_objs w) i with
  | None => UB
  | Some o => Ok (o_max o)
  end.

(** Histories of operations (the operations are listed in MaxHistory_Spec). max-history.hpp:13-38. *)
Definition step (w : world) (o : op T) : outcome world :=
  match o with
  | New n => Ok (mh_new w n)
  | Copy i => mh_copy w i
  | Move i => mh_move w i
  | Add i x => mh_add w i x
  | CopyAssign i j in_place => mh_copy_assign w i j in_place
  | MoveAssign i j => mh_move_assign w i j
  | Destroy i => mh_destroy w i
  end.

(** A history of calls (max-history.hpp:13-38) *)
Fixpoint run (w : world) (ops : list (op T)) : outcome world :=
  match ops with
  | [] => Ok w
  | o :: ops' => w' <- step w o ;; run w' ops'
  end.

(** Before the first construction (max-history.hpp:13) *)
Definition init : world := World [] [].
End MaxHistory.
Arguments obj : clear implicits.
Arguments world : clear implicits.
