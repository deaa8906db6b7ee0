(** The rationals satisfy the laws of an ordered field. *)

From Coq Require Import ZArith QArith Qcanon Lqa.
From Verif Require Import Base Scalar Spec Block Solver SolverSpec.
Open Scope Z_scope.

Lemma Qcle_sle (a b : Qc) : sle (S := Qcs) a b <-> (a <= b)%Qc.
Proof.
  unfold sle. cbn. destruct (Qclt_le_dec b a) as [H|H]; split; intros E; auto; try discriminate.
  exfalso. apply (Qclt_not_le _ _ H E).
Qed.

Ltac qc := unfold Qcle, Qclt, Qcplus, Qcopp in *; cbn [this Q2Qc] in *;
  repeat match goal with
         | H : context [Qred _] |- _ => rewrite Qred_correct in H
         | |- context [Qred _] => rewrite Qred_correct
         end; lra.

Lemma Qcs_sum_order : sum_order_laws Qcs.
Proof.
  split.
  - intros a b c d H1 H2. apply Qcle_sle in H1, H2. apply Qcle_sle. cbn. qc.
  - intros a b. apply Qcle_sle. cbn.
    destruct (Qclt_le_dec (a + b)%Qc 0%Qc); destruct (Qclt_le_dec a 0%Qc); destruct (Qclt_le_dec b 0%Qc); qc.
Qed.

Lemma Qcs_prod_order : prod_order_laws Qcs.
Proof.
  intros a b Ha Hb. apply Qcle_sle in Ha, Hb. apply Qcle_sle. cbn.
  replace 0%Qc with (0 * b)%Qc by ring. apply Qcmult_le_compat_r; assumption.
Qed.

Lemma Qcs_abs_square : abs_square_law Qcs.
Proof. intros a. cbn. destruct (Qclt_le_dec a 0%Qc); ring. Qed.
