(** The case shown beside the theorems of C109. *)

From Coq Require Import ZArith List Bool Lia Reals Lra QArith.Qcanon.
From Verif Require Import Base Scalar Spec SumFacts Dense DenseFacts Examples ScalarQ ScalarR Vec SolverSpec LuQr LuQrSpec LuProofs LuMore LuExamples.
Import ListNotations.
Open Scope Z_scope.

Lemma qr_instance :
  root_laws (S := Rs) sqrt /\
  (let A := Dense (S := Rs) 3 2 [3; 4; 0; -6; -8; 1]%R in is_dense 3 2 A /\ independent_columns 3 2 (dense_mat A)) /\
  (let A := Dense (S := Qcs) 3 2 [q 3; q 4; q 0; q (-6); q (-8); q 1] in
   let root := fun t : car Qcs => if Qc_eq_bool t (q 25) then q 5 else t in
   match qr_decomp root A with
   | Ok (Q, R) => map this (d_data Q) = map this [(q 3 / q 5)%Qc; (q 4 / q 5)%Qc; q 0; q 0; q 0; q 1] /\ map this (d_data R) = map this [q 5; q 0; q (-10); q 1]
   | Fail _ => False
   end /\
   match qr_solve root A [q (-1); q 7; q 2] with Ok x => map this x = map this [q 5; q 2] | Fail _ => False end /\
   qr_decomp root (Dense (S := Qcs) 2 2 [q 3; q 4; q 6; q 8]) = Fail FAssert).
Proof.
  split; [exact Rs_root|]. split.
  - cbv zeta. split; [unfold is_dense, dense_ok; cbn; auto with zarith|]. intros x Hx.
    pose proof (Hx 0 ltac:(lia)) as H0. pose proof (Hx 2 ltac:(lia)) as H2. unfold mat_vec, dense_mat in H0, H2.
    rewrite !(sum_range_first 0 2), !(sum_range_first 1 2), !sum_range_empty in H0, H2 by lia. cbn in H0, H2.
    change (3 * x 0%Z + (-6 * x 1%Z + 0) = 0)%R in H0. change (0 * x 0%Z + (1 * x 1%Z + 0) = 0)%R in H2.
    intros i Hi. assert (i = 0 \/ i = 1) as [-> | ->] by lia; cbn; lra.
  - cbv zeta. split; [vm_compute; split; reflexivity|]. split; vm_compute; reflexivity.
Qed.
