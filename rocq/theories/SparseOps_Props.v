(** C71: the helpers of linalg/sparse-ops.hpp on arbitrary arrays. *)
From Verif Require Import Base Sparsity_Spec Sparsity_Model Sparsity_Base SparseOps_Spec SparseOps_Proofs SparsityMore_Props.
Local Open Scope outcome_scope.

(** convert_triplets_to_ccs: row indices rebased, column pointers count the entries
    of the columns before; whatever the output arrays contained, for any number of
    column pointers. Output beyond the entries (NDEBUG builds only) stays. *)
Theorem C71_convert_triplets (dbg : bool) (tf ti ts : ity) (rows cols inner outer : list Z) (idx_0 : Z) :
  StronglySorted Z.le cols ->
  length rows <= length inner -> (dbg = true -> length rows = length inner) ->
  fits ti idx_0 -> Forall (fun r => fits ti r /\ fits ti (r - idx_0)) rows ->
  fits tf (Z.of_nat (length outer)) -> (forall c, c < length outer -> fits tf (Z.of_nat c + idx_0)) ->
  fits ts (Z.of_nat (length cols)) ->
  convert_triplets_to_ccs dbg tf ti ts rows cols inner outer idx_0
  = Ok (map (fun r => (r - idx_0)%Z) rows ++ skipn (length rows) inner,
        map (fun c => Z.of_nat (below cols (Z.of_nat c + idx_0))) (seq 0 (length outer))).
Proof. apply convert_any. Qed.
Print Assumptions C71_convert_triplets.

(** sort_triplets: the triplets stay together, ordered by column, then row. *)
Theorem C71_sort_triplets (srt : sorter) (rows cols vals : list Z) : good_sorter srt ->
  length rows = length cols -> length cols = length vals ->
  exists r c v, sort_triplets srt rows cols vals = (r, c, v) /\
    length r = length rows /\ length c = length cols /\ length v = length vals /\
    Permutation (pairs (pairs r c) v) (pairs (pairs rows cols) vals) /\
    StronglySorted col_major (pairs r c).
Proof. intros; now apply sort_triplets_any. Qed.
Print Assumptions C71_sort_triplets.
(** sort_triplets_col: ordered by column. *)
Theorem C71_sort_triplets_col (srt : sorter) (rows cols vals : list Z) : good_sorter srt ->
  length rows = length cols -> length cols = length vals ->
  exists r c v, sort_triplets_col srt rows cols vals = (r, c, v) /\
    length r = length rows /\ length c = length cols /\ length v = length vals /\
    Permutation (pairs (pairs r c) v) (pairs (pairs rows cols) vals) /\
    StronglySorted Z.le c.
Proof. intros; now apply sort_triplets_col_any. Qed.
Print Assumptions C71_sort_triplets_col.

(** sort_rows_csc: each column range is sorted by row, its values move along, the
    rest of the arrays is not touched. *)
Theorem C71_sort_rows (srt : sorter) (outer inner vals : list Z) : good_sorter srt ->
  length inner = length vals -> cuts outer (length inner) ->
  exists inner' vals', sort_rows_csc srt outer inner vals = Ok (inner', vals') /\
    length inner' = length inner /\ length vals' = length vals /\
    (forall c, S c < length outer ->
       let a := at_ outer c in let b := at_ outer (S c) in
       Permutation (pairs (slice inner' a b) (slice vals' a b)) (pairs (slice inner a b) (slice vals a b)) /\
       StronglySorted Z.le (slice inner' a b)) /\
    (forall i, outer = [] \/ i < at_ outer 0 \/ at_ outer (length outer - 1) <= i ->
       nth_error inner' i = nth_error inner i /\ nth_error vals' i = nth_error vals i).
Proof.
  intros Hs Hl Hc. destruct outer as [|z o] eqn:E.
  - exists inner, vals. split; [reflexivity|]. repeat split; auto; cbn in *; lia.
  - rewrite <- E in *. assert (Hne : outer <> []) by congruence.
    destruct (sort_rows_any srt Hs outer inner vals Hl Hc Hne) as ([inn prm] & Eq & L1 & L2 & H1 & H2).
    exists inn, prm. split; [exact Eq|]. split; [exact L1|]. split; [exact L2|]. split.
    + intros c Hlt. apply H1. lia.
    + intros i [H|H]; [congruence|]. now apply H2.
Qed.
Print Assumptions C71_sort_rows.

(** After sort_triplets and convert_triplets_to_ccs the arrays describe the same
    entries: column c owns the positions [outer(c), outer(c+1)). *)
Theorem C71_columns_found (cols : list Z) (v : Z) (k : nat) (x : Z) :
  StronglySorted Z.le cols -> nth_error cols k = Some x ->
  (x = v <-> below cols v <= k < below cols (v + 1)).
Proof.
  intros Hs Hk. rewrite !below_sorted by auto. split.
  - intros ->. split.
    + destruct (Nat.le_gt_cases (count_lt cols v) k) as [H|H]; [exact H|].
      pose proof (Sparsity_Csc.count_lt_lt cols cols eq_refl cols v k v H Hk). lia.
    + destruct (Nat.le_gt_cases (count_lt cols (v + 1)) k) as [H|H]; [|exact H].
      pose proof (Sparsity_Csc.count_lt_ge cols cols eq_refl cols (v + 1) k v Hs H Hk). lia.
  - intros [H1 H2]. pose proof (Sparsity_Csc.count_lt_ge cols cols eq_refl cols v k x Hs H1 Hk). pose proof (Sparsity_Csc.count_lt_lt cols cols eq_refl cols (v + 1) k x H2 Hk). lia.
Qed.
Print Assumptions C71_columns_found.

(** The hypotheses can be met. *)
Example C71_example_convert :
  convert_triplets_to_ccs true Int Long Int [3; 1; 2]%Z [1; 1; 4]%Z [7; 7; 7]%Z [9; 9; 9; 9; 9]%Z 1
  = Ok ([2; 0; 1]%Z, [0; 2; 2; 2; 3]%Z).
Proof. vm_compute. reflexivity. Qed.
Example C71_example_sort :
  sort_triplets isort [3; 1; 2]%Z [1; 1; 0]%Z [10; 20; 30]%Z = ([2; 1; 3], [0; 1; 1], [30; 20; 10])%Z.
Proof. vm_compute. reflexivity. Qed.
Example C71_example_rows : cuts [1; 3; 3; 5]%Z 6 /\
  sort_rows_csc isort [1; 3; 3; 5]%Z [9; 4; 2; 8; 7; 0]%Z [0; 1; 2; 3; 4; 5]%Z
  = Ok ([9; 2; 4; 7; 8; 0]%Z, [0; 2; 1; 4; 3; 5]%Z).
Proof.
  split; [|vm_compute; reflexivity]. split.
  - intros [|[|[|c]]] H; cbn in *; lia.
  - repeat constructor; cbn; lia.
Qed.
