(** Common vocabulary of the model: outcomes of C++ operations, byte strings. *)
From Coq Require Export List Arith ZArith NArith Bool Lia Permutation Sorted.
Export ListNotations.

(** The exceptions thrown by the modelled code. *)
Inductive exn :=
| bad_any_cast             (* std::bad_any_cast *)
| bad_type_erased_type     (* guanaqo::bad_type_erased_type *)
| bad_type_erased_constness
| bad_function_call
| user_exception           (* thrown by user code called from the library *)
| invalid_duration_value
| invalid_duration_units
| csv_read_error
| invalid_argument         (* std::invalid_argument *)
| runtime_error            (* std::runtime_error *)
| logic_error              (* std::logic_error *)
| dynamic_load_error
| lapack_error.

(** Result of running a piece of C++ code.
    [Abort] is a failed assert (only in builds that check assertions; without
    the check the code runs on with its precondition violated).
    [UB] is undefined behaviour (out-of-bounds access, null dereference,
    use after free, ...). *)
Inductive outcome (A : Type) :=
| Ok (a : A)
| Throw (e : exn)
| Abort
| UB.
Arguments Ok {A} a.
Arguments Throw {A} e.
Arguments Abort {A}.
Arguments UB {A}.

Definition bind {A B} (m : outcome A) (f : A -> outcome B) : outcome B :=
  match m with
  | Ok a => f a
  | Throw e => Throw e
  | Abort => Abort
  | UB => UB
  end.

Declare Scope outcome_scope.
Delimit Scope outcome_scope with outcome.
Notation "x <- m ;; k" := (bind m (fun x => k))
  (at level 61, m at next level, right associativity) : outcome_scope.
Notation "' p <- m ;; k" := (bind m (fun x => match x with p => k end))
  (at level 61, p pattern, m at next level, right associativity) : outcome_scope.

(** Array store: [upd l i x] is [l] with position [i] replaced by [x]. *)
Fixpoint upd {A} (l : list A) (i : nat) (x : A) : list A :=
  match l, i with
  | [], _ => []
  | _ :: l', 0 => x :: l'
  | y :: l', S i' => y :: upd l' i' x
  end.

Lemma upd_length {A} (l : list A) i x : length (upd l i x) = length l.
Proof. revert i; induction l as [|y l IH]; intros [|i]; simpl; auto. Qed.

Lemma upd_app_mid {A} (a : list A) y b x : upd (a ++ y :: b) (length a) x = a ++ x :: b.
Proof. induction a as [|z a IH]; simpl; [reflexivity|]. now rewrite IH. Qed.

Lemma upd_same {A} (l : list A) i x : i < length l -> nth_error (upd l i x) i = Some x.
Proof. revert i; induction l as [|y l IH]; intros [|i]; simpl; intros H; try lia; auto.
  apply IH; lia. Qed.

Lemma upd_other {A} (l : list A) i j x : i <> j -> nth_error (upd l i x) j = nth_error l j.
Proof. revert i j; induction l as [|y l IH]; intros [|i] [|j]; simpl; intros H; try congruence; auto.
Qed.

Lemma upd_oob {A} (l : list A) i x : length l <= i -> upd l i x = l.
Proof. revert i; induction l as [|y l IH]; intros [|i]; simpl; intros H; try lia; auto.
  now rewrite IH by lia. Qed.

Lemma nth_error_upd {A} (l : list A) i j x :
  nth_error (upd l i x) j = if Nat.eqb i j then (if Nat.ltb i (length l) then Some x else None)
                            else nth_error l j.
Proof.
  destruct (Nat.eqb_spec i j) as [->|H].
  - destruct (Nat.ltb_spec j (length l)) as [Hl|Hl].
    + now apply upd_same.
    + rewrite upd_oob by lia. now apply nth_error_None.
  - now apply upd_other.
Qed.

(** Sum of a weight over a list, and how it changes when one entry does. *)
Definition sumf {A} (f : A -> nat) (l : list A) : nat := fold_right (fun x n => f x + n) 0 l.

Lemma sumf_app {A} (f : A -> nat) l k : sumf f (l ++ k) = sumf f l + sumf f k.
Proof. induction l as [|x l IH]; simpl; [reflexivity|]. rewrite IH; lia. Qed.

Lemma sumf_upd {A} (f : A -> nat) l i x y :
  nth_error l i = Some x -> sumf f (upd l i y) + f x = sumf f l + f y.
Proof.
  revert i; induction l as [|z l IH]; intros [|i]; simpl; intros H; try discriminate.
  - injection H as ->. lia.
  - specialize (IH i H). lia.
Qed.

Lemma sumf_pos {A} (f : A -> nat) l : 0 < sumf f l -> exists i x, nth_error l i = Some x /\ 0 < f x.
Proof.
  induction l as [|z l IH]; simpl; intros H; [lia|].
  destruct (f z) as [|k] eqn:E.
  - destruct IH as (i & x & Hi & Hx); [lia|]. exists (S i), x; auto.
  - exists 0, z; simpl; split; [reflexivity|lia].
Qed.

Lemma sumf_ge {A} (f : A -> nat) l i x : nth_error l i = Some x -> f x <= sumf f l.
Proof.
  revert i; induction l as [|z l IH]; intros [|i]; simpl; intros H; try discriminate.
  - injection H as ->. lia.
  - specialize (IH i H). lia.
Qed.

Lemma nth_error_snoc {A} (l : list A) x i :
  nth_error (l ++ [x]) i = if Nat.ltb i (length l) then nth_error l i
                           else if Nat.eqb i (length l) then Some x else None.
Proof.
  destruct (Nat.ltb_spec i (length l)) as [H|H].
  - now apply nth_error_app1.
  - rewrite nth_error_app2 by lia. destruct (Nat.eqb_spec i (length l)) as [->|N].
    + now rewrite Nat.sub_diag.
    + destruct (i - length l) as [|k] eqn:E; [lia|]. simpl. now destruct k.
Qed.
