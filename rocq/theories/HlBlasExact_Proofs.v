From Verif Require Import Base MatView_Model HlBlas_Model Lapack_Model HlBlasExact_Spec.
Local Open Scope Z_scope.

Section B.
Context {V : Type}.
Lemma routine_abort ins o f (m : mem V) : routine ins o f m = Abort <-> forallb legal (o :: ins) = false.
Proof.
  unfold routine. destruct (forallb legal (o :: ins)).
  - split; [|discriminate]. match goal with |- context [if ?b then _ else _] => destruct b end; discriminate.
  - now split.
Qed.
Lemma legal_iff l p d r c s : legal (Operand l p d r c s) = true <->
  0 <= r /\ 0 <= c /\ 1 <= d /\ (match l with ColMajor => r | RowMajor => c end) <= d.
Proof.
  unfold legal. cbn [nrows ncols lay ld]. rewrite !andb_true_iff, !Z.leb_le. destruct l; lia.
Qed.
Lemma assume_true {A} chk a b (k : outcome A) : a = b -> assume chk (a =? b) k = k.
Proof. intros ->. unfold assume. now rewrite Z.eqb_refl. Qed.
Lemma not_true b : b = false <-> ~ b = true.
Proof. destruct b; split; congruence. Qed.
Lemma forallb_cons {A} (f : A -> bool) a l : forallb f (a :: l) = true <-> f a = true /\ forallb f l = true.
Proof. cbn. apply andb_true_iff. Qed.
Lemma forallb_nil {A} (f : A -> bool) : forallb f [] = true <-> True.
Proof. cbn. tauto. Qed.
End B.

Ltac stride_exact :=
  repeat rewrite assume_true by assumption;
  cbv zeta; rewrite routine_abort, not_true, !forallb_cons, forallb_nil;
  unfold stored, vector; rewrite !legal_iff; unfold stride_ok, shaped in *;
  split; intros N K; apply N; clear N; intuition lia.
