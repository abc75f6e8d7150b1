From Verif Require Import Base RingIndex_Model RingIndex_Spec RingIndex_Proofs.
Local Open Scope Z_scope.

(** C102: circular ranges with any integer index type, in debug and release builds. *)
Theorem C102_forward : forall T dbg fuel size idx1 idx2 max,
  integer_type T -> 0 <= idx1 < max -> fits T max -> 0 <= size <= max -> (Z.to_nat size < fuel)%nat ->
  range_ix T dbg fuel size idx1 idx2 max = Ok (Some (entries size idx1 max)).
Proof. intros. unfold fits in *. apply range_ok; unfold fits; auto; unfold integer_type in *; lia. Qed.
Print Assumptions C102_forward.

Theorem C102_backward : forall T dbg fuel size idx1 idx2 max,
  integer_type T -> 0 <= idx1 < max -> fits T max -> 0 <= size <= max -> idx2 = (idx1 + size) mod max ->
  (Z.to_nat size < fuel)%nat ->
  reverse_range_ix T dbg fuel size idx1 idx2 max = Ok (Some (rev (entries size idx1 max))).
Proof. intros. unfold fits in *. apply reverse_ok; unfold fits; auto; unfold integer_type in *; lia. Qed.
Print Assumptions C102_backward.

(** A size the buffer does not have: debug builds stop at an assertion; release
    builds go round the buffer again, for any size of the index type. *)
Theorem C102_bad_size_debug : forall T fuel size idx1 idx2 max,
  integer_type T -> 0 <= idx1 < max -> fits T max -> size < 0 \/ max < size -> (Z.to_nat max < fuel)%nat ->
  range_ix T true fuel size idx1 idx2 max = Abort.
Proof. intros. now apply range_abort. Qed.
Print Assumptions C102_bad_size_debug.

Theorem C102_large_size_release : forall T fuel size idx1 idx2 max,
  integer_type T -> 0 <= idx1 < max -> fits T max -> max < size -> fits T size -> (Z.to_nat size < fuel)%nat ->
  range_ix T false fuel size idx1 idx2 max = Ok (Some (entries size idx1 max)).
Proof. intros. apply range_ok; auto; discriminate || lia. Qed.
Print Assumptions C102_large_size_release.

(** Any sequence of ++ and --: debug builds stop at an assertion exactly when a
    position outside [0, max] is reached on the way; otherwise both builds end
    at the same place. *)
Theorem C102_moves_debug : forall T l z c max,
  integer_type T -> 0 <= c < max -> fits T max -> 0 <= z <= max ->
  (on_the_way (fun x => 0 <= x <= max) z l ->
     forall dbg, moves_ix T dbg l (Iter z c max) =
       Ok (Iter (z + displacement l) ((c + displacement l) mod max) max)) /\
  (~ on_the_way (fun x => 0 <= x <= max) z l -> moves_ix T true l (Iter z c max) = Abort).
Proof.
  intros T l z c max HT C F Z0. destruct (moves_debug T HT l z c max C F Z0) as [A B]. split; [|exact B].
  intros W dbg. assert (E : moves_ix T false l (Iter z c max) = Ok (Iter (z + displacement l) ((c + displacement l) mod max) max)).
  { apply moves_release; auto. intros k K. specialize (W k K). cbn in W. unfold fits, integer_type in *. lia. }
  destruct dbg; [rewrite A by exact W|]; exact E.
Qed.
Print Assumptions C102_moves_debug.

(** Release builds: outside [0, max] the circular index goes on round the
    buffer; the zero-based index goes on counting as long as the index type can hold it,
    after that it wraps around, if the type is unsigned or narrower than int. *)
Theorem C102_moves_release : forall T l z c max,
  integer_type T -> 0 <= c < max -> fits T max -> fits T z ->
  (on_the_way (fits T) z l -> moves_ix T false l (Iter z c max) =
     Ok (Iter (z + displacement l) ((c + displacement l) mod max) max)) /\
  (onover T <> Undefined -> exists k, fits T (z + displacement l + k * (tmax T - tmin T + 1)) /\
     moves_ix T false l (Iter z c max) =
       Ok (Iter (z + displacement l + k * (tmax T - tmin T + 1)) ((c + displacement l) mod max) max)).
Proof.
  intros T l z c max HT C F Fz. split; [intros; now apply moves_release|]. intros N.
  rewrite moves_wrap by assumption.
  exists (- ((z + displacement l - tmin T) / (tmax T - tmin T + 1))).
  assert (E : conv T (z + displacement l) = z + displacement l + - ((z + displacement l - tmin T) / (tmax T - tmin T + 1)) * (tmax T - tmin T + 1)).
  { unfold conv. unfold integer_type in HT. pose proof (Z.div_mod (z + displacement l - tmin T) (tmax T - tmin T + 1) ltac:(lia)). lia. }
  rewrite <- E. split; [apply conv_range; exact HT|reflexivity].
Qed.
Print Assumptions C102_moves_release.

(** Release builds with a signed index type of at least the size of int: undefined behaviour
    exactly when the zero-based index leaves the type on the way. *)
Theorem C102_moves_overflow : forall T l z c max,
  integer_type T -> onover T = Undefined -> 0 <= c < max -> fits T max -> fits T z ->
  (moves_ix T false l (Iter z c max) = UB <-> ~ on_the_way (fits T) z l).
Proof.
  intros T l z c max HT N C F Fz. split.
  - intros E W. rewrite (moves_release T HT l z c max C F W) in E. discriminate.
  - revert z c C Fz. induction l as [|b l IH]; intros z c C Fz W.
    + exfalso. apply W. intros k K. cbn in K. assert (k = O) as -> by lia. cbn. now rewrite Z.add_0_r.
    + cbn [moves_ix]. rewrite (move_rel T HT b z c max C F). unfold arith. rewrite N.
      destruct ((tmin T <=? z + step b) && (z + step b <=? tmax T)) eqn:E; [|reflexivity].
      assert (D : fits T (z + step b)) by (unfold fits; apply andb_prop in E; destruct E as [E1 E2]; apply Z.leb_le in E1; apply Z.leb_le in E2; lia).
      cbn [bind]. rewrite (conv_fits T _ D). apply IH; auto; [apply Z.mod_pos_bound; lia|].
      intros K. apply W. apply way_cons. auto.
Qed.
Print Assumptions C102_moves_overflow.


(** In every build, whatever is done, the circular index of an iterator is one of the buffer. *)
Theorem C102_circular_index_valid : forall T dbg l i i',
  integer_type T -> 0 <= circ i < mx i -> fits T (mx i) -> moves_ix T dbg l i = Ok i' ->
  0 <= circ i' < mx i' /\ mx i' = mx i.
Proof. intros T dbg l i i' HT. now apply moves_circ. Qed.
Print Assumptions C102_circular_index_valid.

(** Comparing iterators of different ranges: debug builds stop, release builds compare the zero-based indices. *)
Theorem C102_comparison : forall dbg a b,
  (mx a = mx b \/ dbg = false -> exists r, eq_ix dbg a b = Ok r /\ (r = true <-> zb a = zb b)) /\
  (mx a <> mx b -> eq_ix true a b = Abort).
Proof.
  intros dbg a b. unfold eq_ix. split.
  - intros H. exists (zb a =? zb b). split; [|apply Z.eqb_eq].
    destruct H as [->| ->]; [rewrite Z.eqb_refl; now destruct dbg|reflexivity].
  - intros H. destruct (Z.eqb_spec (mx a) (mx b)); [contradiction|reflexivity].
Qed.
Print Assumptions C102_comparison.

Example size_t : itype := IType 0 (2 ^ 64 - 1) Wraps.
Example int8 : itype := IType (-128) 127 Promoted.
Example int32 : itype := IType (- 2 ^ 31) (2 ^ 31 - 1) Undefined.
Example types : integer_type size_t /\ integer_type int8 /\ integer_type int32 /\ fits int8 127.
Proof. unfold integer_type, fits. cbn. lia. Qed.
Example full : range_ix int8 true 200 127 126 126 127 = Ok (Some (entries 127 126 127)) /\
  range_ix int8 true 5 3 3 2 4 = Ok (Some [(0, 3); (1, 0); (2, 1)]) /\
  reverse_range_ix int32 false 5 3 3 2 4 = Ok (Some [(2, 1); (1, 0); (0, 3)]).
Proof. vm_compute. auto. Qed.
Example outside : moves_ix size_t false [false] (Iter 0 3 4) = Ok (Iter (2 ^ 64 - 1) 2 4) /\
  moves_ix size_t true [false] (Iter 0 3 4) = Abort /\
  moves_ix int32 false [true] (Iter (2 ^ 31 - 1) 3 4) = UB /\
  range_ix size_t true 9 6 3 1 4 = Abort /\
  range_ix size_t false 9 6 3 1 4 = Ok (Some [(0, 3); (1, 0); (2, 1); (3, 2); (4, 3); (5, 0)]).
Proof. vm_compute. auto 6. Qed.
