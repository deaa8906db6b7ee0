(** The cases shown beside the theorems of C108. *)

From Coq Require Import ZArith List Bool Lia QArith.Qcanon.
From Verif Require Import Base Scalar Spec SumFacts Dense DenseFacts Examples ScalarQ SolverSpec LuQr LuQrSpec LuProofs LuMore LuLinks.
Import ListNotations.
Open Scope Z_scope.

Definition q (z : Z) : car Qcs := Q2Qc (QArith_base.inject_Z z).

(** (0 1; 1 0) *)
Definition exSwapD : dense Qcs := Dense (S := Qcs) 2 2 [q 0; q 1; q 1; q 0].
(** (2 1 1; 4 5 3; -2 2 5) and its factors *)
Definition exLU : dense Qcs := Dense (S := Qcs) 3 3 [q 2; q 4; q (-2); q 1; q 5; q 2; q 1; q 3; q 5].
Definition exL : dense Qcs := Dense (S := Qcs) 3 3 [q 1; q 2; q (-1); q 0; q 1; q 1; q 0; q 0; q 1].
Definition exU : dense Qcs := Dense (S := Qcs) 3 3 [q 2; q 0; q 0; q 1; q 3; q 0; q 1; q 1; q 5].

Ltac idx i := assert (i = 0 \/ i = 1 \/ i = 2) as [->|[->| ->]] by lia.
Ltac qc := apply Qc_is_canon; vm_compute; reflexivity.

Lemma ex_l (a b : Qc) : a = (1 * a + (0 * b + 0))%Qc. Proof. ring. Qed.
Lemma ex_r (a b : Qc) : b = (0 * a + (1 * b + 0))%Qc. Proof. ring. Qed.

Lemma swap_not_solved :
  is_dense 2 2 exSwapD /\ mat_nonsingular 2 (dense_mat exSwapD) /\
  exists x, lu_solve exSwapD [q 1; q 2] = Ok x /\ ~ solves 2 (dense_mat exSwapD) [q 1; q 2] x.
Proof.
  assert (HA : is_dense 2 2 exSwapD) by (unfold is_dense, dense_ok; cbn; auto with zarith).
  split; [exact HA|]. split.
  - intros x H. pose proof (H 0 ltac:(lia)) as H0. pose proof (H 1 ltac:(lia)) as H1. unfold mat_vec in H0, H1.
    change (sum_range (S := Qcs) 0 2) with (fun f : Z -> Qc => Qcplus (f 0) (Qcplus (f 1) (q 0))) in H0, H1. cbv beta in H0, H1.
    change (dense_mat exSwapD 0 0) with (q 0) in H0. change (dense_mat exSwapD 0 1) with (q 1) in H0.
    change (dense_mat exSwapD 1 0) with (q 1) in H1. change (dense_mat exSwapD 1 1) with (q 0) in H1.
    change (q 0) with 0%Qc in *. change (q 1) with 1%Qc in *. change (@smul Qcs) with Qcmult in *. change (@s0 Qcs) with 0%Qc in *.
    intros i Hi. assert (i = 0 \/ i = 1) as [-> | ->] by lia; [apply (eq_trans (ex_l (x 0) (x 1))), H1|apply (eq_trans (ex_r (x 0) (x 1))), H0].
  - destruct (lu_solve exSwapD [q 1; q 2]) as [x|f] eqn:Ex.
    + exists x. split; [reflexivity|]. intros (Lx & H). pose proof (H 0 ltac:(lia)) as H0.
      assert (M : match lu_solve exSwapD [q 1; q 2] with Ok x => this (mat_vec (dense_mat exSwapD) 2 (vec_of x) 0) <> this (q 1) | _ => False end)
        by (vm_compute; discriminate).
      rewrite Ex in M. apply M. rewrite H0. reflexivity.
    + assert (M : match lu_solve exSwapD [q 1; q 2] with Ok x => True | _ => False end) by (vm_compute; exact I). rewrite Ex in M. destruct M.
Qed.

Lemma lu_instance :
  let A := Dense (S := Qcs) 3 3 [q 2; q 4; q (-2); q 1; q 5; q 2; q 1; q 3; q 5] in
  is_dense 3 3 A /\ leading_nonsingular 4 (dense_mat A) /\
  match lu_decomp A with
  | Ok (L, U) => map this (d_data L) = map this [q 1; q 2; q (-1); q 0; q 1; q 1; q 0; q 0; q 1] /\
                 map this (d_data U) = map this [q 2; q 0; q 0; q 1; q 3; q 0; q 1; q 1; q 5]
  | Fail _ => False
  end /\
  match lu_solve A [q 4; q 12; q 5] with Ok x => map this x = map this [q 1; q 1; q 1] | Fail _ => False end.
Proof.
  cbv zeta. split; [unfold is_dense, dense_ok; cbn; auto with zarith|]. split.
  - apply (product_leading Qcs_field 3 4 _ (dense_mat exL) (dense_mat exU)); [lia| | | | |].
    + intros i j Hi Hj Hlt. idx i; idx j; try lia; qc.
    + intros i Hi. idx i; qc.
    + intros i j Hi Hj Hlt. idx i; idx j; try lia; qc.
    + intros i Hi H. apply (f_equal this) in H. revert H. idx i; vm_compute; discriminate.
    + intros i j Hi Hj. idx i; idx j; qc.
  - vm_compute. repeat split.
Qed.
