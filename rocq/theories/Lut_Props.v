(** C60: lookup tables. *)
From Verif Require Import Base Lut_Model.

Lemma integer_sequence_seq n : integer_sequence n = seq 0 n.
Proof. induction n as [|n IH]; [reflexivity|]. cbn [integer_sequence]. rewrite IH. now rewrite seq_S. Qed.
Lemma integer_sequence_length n : length (integer_sequence n) = n.
Proof. rewrite integer_sequence_seq. apply seq_length. Qed.
Lemma integer_sequence_nth n i : i < n -> nth_error (integer_sequence n) i = Some i.
Proof.
  intros H. rewrite integer_sequence_seq. rewrite nth_error_nth' with (d := 0) by (rewrite seq_length; exact H).
  now rewrite seq_nth.
Qed.

(** Values whose type needs no conversion come out as f gives them. *)
Theorem C60_lut_1d :
  forall (E : Type) (N : nat) (f : nat -> E),
    let lut := make_1d_lut (fun _ x => x) N f in
    length lut = N /\ forall i, i < N -> nth_error lut i = Some (f i).
Proof.
  intros E N f. cbn zeta. unfold make_1d_lut. split.
  - now rewrite map_length, integer_sequence_length.
  - intros i H. rewrite nth_error_map, integer_sequence_nth by exact H. reflexivity.
Qed.
Print Assumptions C60_lut_1d.

Theorem C60_lut_2d :
  forall (E : Type) (R C : nat) (f : nat -> nat -> E),
    let lut := make_2d_lut (fun _ _ x => x) R C f in
    length lut = R /\
    (forall r row, nth_error lut r = Some row -> length row = C) /\
    (forall r c, r < R -> c < C -> exists row, nth_error lut r = Some row /\ nth_error row c = Some (f r c)).
Proof.
  intros E R C f. cbn zeta. unfold make_2d_lut, make_row. split; [|split].
  - now rewrite map_length, integer_sequence_length.
  - intros r row H. apply nth_error_In in H. apply in_map_iff in H as (x & <- & _).
    now rewrite map_length, integer_sequence_length.
  - intros r c Hr Hc. rewrite nth_error_map, integer_sequence_nth by exact Hr. cbn. eexists; split; [reflexivity|].
    rewrite nth_error_map, integer_sequence_nth by exact Hc. reflexivity.
Qed.
Print Assumptions C60_lut_2d.

(** With different types per index, each entry is the value converted to the
    common type. *)
Theorem C60_lut_common_type :
  forall (E : Type) (T1 : nat -> Type) (conv1 : forall i, T1 i -> E) (f1 : forall i, T1 i)
         (T2 : nat -> nat -> Type) (conv2 : forall r c, T2 r c -> E) (f2 : forall r c, T2 r c) N R C,
    (forall i, i < N -> nth_error (make_1d_lut conv1 N f1) i = Some (conv1 i (f1 i))) /\
    (forall r c, r < R -> c < C -> exists row, nth_error (make_2d_lut conv2 R C f2) r = Some row /\
        nth_error row c = Some (conv2 r c (f2 r c))).
Proof.
  intros. split.
  - intros i H. unfold make_1d_lut. rewrite nth_error_map, integer_sequence_nth by exact H. reflexivity.
  - intros r c Hr Hc. unfold make_2d_lut, make_row. rewrite nth_error_map, integer_sequence_nth by exact Hr. cbn.
    eexists; split; [reflexivity|]. rewrite nth_error_map, integer_sequence_nth by exact Hc. reflexivity.
Qed.
Print Assumptions C60_lut_common_type.

Example C60_nonvacuous :
  make_2d_lut (fun _ _ x => x) 2 3 (fun r c => (r, c)) = [[(0,0); (0,1); (0,2)]; [(1,0); (1,1); (1,2)]].
Proof. reflexivity. Qed.
