(** What C91 talks about: classes with methods, the interface a TypeErased wrapper
    offers, and what calling through a wrapper must do, without vtables, pointers
    or storage. Nothing here refers to the model of the code. *)
From Verif Require Import Base.

(** Object states, method arguments and results. *)
Section Spec.
Context {St A R : Type}.

(** A member function: const, or one that may change the object. *)
Inductive method := CMethod (f : St -> A -> outcome R) | MMethod (f : St -> A -> St * outcome R).
(** A class: its member functions by name, and the functions provides_<name>(). *)
Record class := Class { meth : nat -> option method; provides : nat -> option (St -> bool) }.

(** Default implementation of an optional method: it calls required methods of the
    wrapped object and computes a result. *)
Inductive body := BRet (o : outcome R) | BCall (n : nat) (a : A) (k : outcome R -> body).
(** What the interface says about the method called [n]. [true]: const. *)
Inductive slot := Required (cst : bool) | Optional (cst : bool) (dflt : body).

Context (classes : nat -> class) (slots : nat -> slot).

(** Calling member function [n] of an object of class [c]. *)
Definition apply (c n : nat) (st : St) (a : A) : St * outcome R :=
  match meth (classes c) n with
  | Some (CMethod f) => (st, f st a)
  | Some (MMethod f) => f st a
  | None => (st, UB)
  end.
Fixpoint apply_body (c : nat) (st : St) (b : body) : St * outcome R :=
  match b with
  | BRet o => (st, o)
  | BCall n a k => let (st', o) := apply c n st a in apply_body c st' (k o)
  end.
(** Does an object of class [c] with state [st] offer the optional method [n]? *)
Definition offers (c : nat) (st : St) (n : nat) : bool :=
  match meth (classes c) n with
  | None => false
  | Some _ => match provides (classes c) n with Some p => p st | None => true end
  end.

(** Content of a wrapper: nothing, an object, or a reference to variable [e]; with
    the optional methods the object offered when it was wrapped. *)
Inductive holder := HEmpty | HOwn (c : nat) (st : St) (prov : nat -> bool) | HRef (e : nat) (c : bool) (prov : nat -> bool).
Record abs := Abs { holders : list (option holder); vars : list (nat * St) }.

Inductive op :=
| OVal (c : nat) (st : St)         (* wrap an object *)
| ORef (e : nat) (c : bool)        (* wrap a pointer to variable e; c: to const *)
| OCopy (j : nat) | OMove (j : nat) (* a new wrapper from wrapper j *)
| OCopyAssign (i j : nat) | OMoveAssign (i j : nat) | ODestroy (i : nat)
| OCall (i n : nat) (a : A)        (* call method n through wrapper i *)
| OVar (e : nat) (st : St).        (* the program changes its variable e *)
Inductive reply := Done | Result (o : outcome R).

Definition h_get (s : abs) (i : nat) : option holder :=
  match nth_error (holders s) i with Some (Some h) => Some h | _ => None end.
Definition h_put (s : abs) (i : nat) (h : option holder) : abs := Abs (upd (holders s) i h) (vars s).
Definition h_push (s : abs) (h : holder) : abs := Abs (holders s ++ [Some h]) (vars s).

(** Calling method [n] on an object of class [c]: its own member function, or the
    default if [n] is optional and was not offered. *)
Definition call_object (prov : nat -> bool) (c : nat) (st : St) (n : nat) (a : A) : St * outcome R :=
  match slots n with
  | Required _ => apply c n st a
  | Optional _ dflt => if prov n then apply c n st a else apply_body c st dflt
  end.
Definition slot_const (n : nat) : bool := match slots n with Required k => k | Optional k _ => k end.

(** [None]: the operation names something that does not exist, or calls through an
    empty wrapper. *)
Definition a_step (s : abs) (o : op) : option (abs * reply) :=
  match o with
  | OVal c st => Some (h_push s (HOwn c st (offers c st)), Done)
  | ORef e c => match nth_error (vars s) e with
                | Some (k, st) => Some (h_push s (HRef e c (offers k st)), Done)
                | None => None
                end
  | OCopy j => match h_get s j with Some h => Some (h_push s h, Done) | None => None end
  | OMove j => match h_get s j with Some h => Some (h_push (h_put s j (Some HEmpty)) h, Done) | None => None end
  | OCopyAssign i j =>
      match h_get s i, h_get s j with Some _, Some h => Some (h_put s i (Some h), Done) | _, _ => None end
  | OMoveAssign i j =>
      match h_get s i, h_get s j with
      | Some _, Some h => Some (if Nat.eqb i j then s else h_put (h_put s j (Some HEmpty)) i (Some h), Done)
      | _, _ => None
      end
  | ODestroy i => match h_get s i with Some _ => Some (h_put s i None, Done) | None => None end
  | OCall i n a =>
      match h_get s i with
      | Some (HOwn c st prov) =>
          let (st', o) := call_object prov c st n a in Some (h_put s i (Some (HOwn c st' prov)), Result o)
      | Some (HRef e cst prov) =>
          match nth_error (vars s) e with
          | Some (c, st) =>
              if cst && negb (slot_const n) then Some (s, Result (Throw bad_type_erased_constness))
              else let (st', o) := call_object prov c st n a in
                   Some (Abs (holders s) (upd (vars s) e (c, st')), Result o)
          | None => None
          end
      | _ => None
      end
  | OVar e st => match nth_error (vars s) e with
                 | Some (c, _) => Some (Abs (holders s) (upd (vars s) e (c, st)), Done)
                 | None => None
                 end
  end.
Inductive a_run : abs -> list op -> list reply -> abs -> Prop :=
| a_nil s : a_run s [] [] s
| a_cons s o s1 r os rs s2 : a_step s o = Some (s1, r) -> a_run s1 os rs s2 -> a_run s (o :: os) (r :: rs) s2.

(** What the compiler checks when class [c] (const: [cst]) is wrapped: the required
    methods exist, and methods have the constness of the interface. *)
Definition compiles (c : nat) : Prop :=
  forall n, match slots n, meth (classes c) n with
            | Required k, Some (CMethod _) => k = true
            | Required k, Some (MMethod _) => k = false
            | Required k, None => False
            | Optional k _, Some (CMethod _) => k = true
            | Optional k _, Some (MMethod _) => k = false
            | Optional _ _, None => True
            end.
(** Defaults call required methods, const defaults only const ones. *)
Inductive body_ok (cst : bool) : body -> Prop :=
| ok_ret o : body_ok cst (BRet o)
| ok_call n a k : (exists k', slots n = Required k' /\ (cst = true -> k' = true)) -> (forall o, body_ok cst (k o)) -> body_ok cst (BCall n a k).
Definition defaults_ok : Prop := forall n cst dflt, slots n = Optional cst dflt -> body_ok cst dflt.
End Spec.
Arguments method : clear implicits.
Arguments class : clear implicits.
Arguments body : clear implicits.
Arguments slot : clear implicits.
Arguments holder : clear implicits.
Arguments abs : clear implicits.
Arguments op : clear implicits.
Arguments reply : clear implicits.
