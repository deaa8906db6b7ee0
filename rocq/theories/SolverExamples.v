(** Small systems that meet the hypotheses of the solver theorems, over any ordered field. *)

From Coq Require Import ZArith List Bool Lia Ring Field.
From Verif Require Import Base Scalar Spec SumFacts Block BlockSpec BlockOp Examples
  Solver SolverSpec SolverEnergy KrylovFacts SolverLinks.
Import ListNotations.
Open Scope Z_scope.

Section Ex.
Context (S : scalar).
Notation T := (car S).

(** [ 2 1 ]
    [ 1 3 ] *)
Definition exSPD : csr S := @CSR S 2 2 [0; 2; 4] [0; 1; 0; 1] [sadd s1 s1; s1; s1; sadd s1 (sadd s1 s1)].
(** [ 0 1 ]
    [ 1 0 ]: symmetric, indefinite *)
Definition exSwap : csr S := @CSR S 2 2 [0; 1; 2] [1; 0] [s1; s1].

Lemma exSPD_valid : csr_valid exSPD.
Proof. apply csr_validb_ok. reflexivity. Qed.
Lemma exSwap_valid : csr_valid exSwap.
Proof. apply csr_validb_ok. reflexivity. Qed.

Context (F : field_laws S) (E : eqb_laws S) (O : order_laws S) (OS : sum_order_laws S) (OP : prod_order_laws S).
Let R : ring_laws S := field_ring S F.
Let Rth : ring_theory (@s0 S) s1 sadd smul ssub sopp (@eq (car S)) := R.
Add Ring SRingEx : Rth.
Local Open Scope S_scope.

Lemma exSPD_acts : acts_as (fun _ => True) (sp_op exSPD) 2 (csr_mat exSPD).
Proof. apply matrix_acts; [apply (sp_op_matrix R), exSPD_valid|reflexivity|reflexivity]. Qed.
Lemma exSwap_acts : acts_as (fun _ => True) (sp_op exSwap) 2 (csr_mat exSwap).
Proof. apply matrix_acts; [apply (sp_op_matrix R), exSwap_valid|reflexivity|reflexivity]. Qed.

Lemma two (P : Z -> Prop) : P 0%Z -> P 1%Z -> forall i, (0 <= i < 2)%Z -> P i.
Proof. intros H0 H1 i Hi. assert (i = 0 \/ i = 1)%Z as [-> | ->] by lia; assumption. Qed.

Lemma mat_00 : csr_mat exSPD 0%Z 0%Z = s1 + s1. Proof. cbv -[sadd smul s0 s1 car]. ring. Qed.
Lemma mat_01 : csr_mat exSPD 0%Z 1%Z = s1. Proof. cbv -[sadd smul s0 s1 car]. ring. Qed.
Lemma mat_10 : csr_mat exSPD 1%Z 0%Z = s1. Proof. cbv -[sadd smul s0 s1 car]. ring. Qed.
Lemma mat_11 : csr_mat exSPD 1%Z 1%Z = s1 + (s1 + s1). Proof. cbv -[sadd smul s0 s1 car]. ring. Qed.
Lemma sw_00 : csr_mat exSwap 0%Z 0%Z = s0. Proof. cbv -[sadd smul s0 s1 car]. ring. Qed.
Lemma sw_01 : csr_mat exSwap 0%Z 1%Z = s1. Proof. cbv -[sadd smul s0 s1 car]. ring. Qed.
Lemma sw_10 : csr_mat exSwap 1%Z 0%Z = s1. Proof. cbv -[sadd smul s0 s1 car]. ring. Qed.
Lemma sw_11 : csr_mat exSwap 1%Z 1%Z = s0. Proof. cbv -[sadd smul s0 s1 car]. ring. Qed.

Lemma sum2 (f : Z -> T) : sum_range 0 2 f = f 0%Z + f 1%Z.
Proof. rewrite (sum_range_first 0 2), (sum_range_first 1 2), sum_range_empty by lia. ring. Qed.

Lemma exSPD_sym : mat_sym 2 (csr_mat exSPD).
Proof.
  intros i j Hi Hj. assert (i = 0 \/ i = 1)%Z as [-> | ->] by lia; assert (j = 0 \/ j = 1)%Z as [-> | ->] by lia;
    rewrite ?mat_00, ?mat_01, ?mat_10, ?mat_11; reflexivity.
Qed.
Lemma exSwap_sym : mat_sym 2 (csr_mat exSwap).
Proof.
  intros i j Hi Hj. assert (i = 0 \/ i = 1)%Z as [-> | ->] by lia; assert (j = 0 \/ j = 1)%Z as [-> | ->] by lia;
    rewrite ?sw_00, ?sw_01, ?sw_10, ?sw_11; reflexivity.
Qed.

Lemma exSPD_pos : mat_pos_def 2 (csr_mat exSPD).
Proof.
  intros x Hx. pose proof (inner_self_pos F O OS OP 2 x Hx) as H.
  replace (inner 2 x (mat_vec (csr_mat exSPD) 2 x)) with
    (inner 2 x x + ((x 0%Z + x 1%Z) * (x 0%Z + x 1%Z) + x 1%Z * x 1%Z)).
  - apply (slt_sle_trans O _ _ _ H).
    pose proof (sle_add _ OS (inner 2 x x) (inner 2 x x) _ _ (sle_refl O _)
      (sle_add _ OS s0 _ s0 _ (sq_nonneg R O OS OP (x 0%Z + x 1%Z)) (sq_nonneg R O OS OP (x 1%Z)))) as H2.
    replace (inner 2 x x + (s0 + s0)) with (inner 2 x x) in H2 by ring. exact H2.
  - unfold inner, mat_vec. rewrite !sum2, mat_00, mat_01, mat_10, mat_11. ring.
Qed.

Lemma exSwap_nonsingular : mat_nonsingular 2 (csr_mat exSwap).
Proof.
  intros x H. pose proof (H 0%Z ltac:(lia)) as H0. pose proof (H 1%Z ltac:(lia)) as H1.
  unfold mat_vec in H0, H1. rewrite sum2 in H0, H1. rewrite sw_00, sw_01 in H0. rewrite sw_10, sw_11 in H1.
  apply two.
  - rewrite <- H1. ring.
  - rewrite <- H0. ring.
Qed.

End Ex.
