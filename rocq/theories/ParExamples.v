(** Concrete distributed matrices used beside the theorems about the parallel module, and a checker
    for their hypotheses. *)

From Coq Require Import ZArith List Bool Lia Permutation.
From Verif Require Import Base Scalar Spec Dense Sparse SparseMore CsrFacts SortProofs Examples Coo CooSpec Vec VecSpec Par ParSpec.
Import ListNotations.
Open Scope Z_scope.

Section Check.
Context {S : scalar}.

(** Decides [pm_valid]. *)
Definition pm_validb (A : parmat S) : bool :=
  let rs := zn 0 (pm_rs A) in let cs := zn 0 (pm_cs A) in let cm := zn 0 (pm_map A) in let n := zlen (pm_map A) in
  (zlen (pm_rs A) =? 3) && (zlen (pm_cs A) =? 3) && (0 <=? rs 0) && (rs 0 <=? rs 1) && (rs 1 <=? rs 2)
  && (0 <=? cs 0) && (cs 0 <=? cs 1) && (cs 1 <=? cs 2) && csr_validb (pm_diag A) && csr_validb (pm_offd A)
  && (c_rows (pm_diag A) =? rs 1 - rs 0) && (c_cols (pm_diag A) =? cs 1 - cs 0)
  && (c_rows (pm_offd A) =? rs 1 - rs 0) && (c_cols (pm_offd A) =? n)
  && forallb (fun i => (0 <=? cm i) && (cm i <? cs 2) && ((cm i <? cs 0) || (cs 1 <=? cm i))) (zrange 0 n)
  && forallb (fun i => forallb (fun j => cm i <? cm j) (zrange (i + 1) n)) (zrange 0 n).

Lemma pm_validb_ok (A : parmat S) : pm_validb A = true -> pm_valid A.
Proof.
  unfold pm_validb. rewrite !andb_true_iff, !forallb_forall.
  intros (((((((((((((((H1 & H2) & H3) & H4) & H5) & H6) & H7) & H8) & H9) & H10) & H11) & H12) & H13) & H14) & H15) & H16).
  apply csr_validb_ok in H9, H10. rewrite Z.leb_le in H3, H4, H5, H6, H7, H8. rewrite Z.eqb_eq in H1, H2, H11, H12, H13, H14.
  constructor; auto.
  - intros i Hi. specialize (H15 i). rewrite In_zrange, !andb_true_iff, orb_true_iff, Z.leb_le, !Z.ltb_lt, Z.leb_le in H15. lia.
  - intros i j Hi Hj. specialize (H16 i). rewrite In_zrange, forallb_forall in H16. specialize (H16 ltac:(lia) j). rewrite In_zrange, Z.ltb_lt in H16. lia.
Qed.

End Check.

(** A 4 x 4 matrix on two ranks with two rows each:
    [ 1 2 | 0 3 ]
    [ 0 4 | 0 0 ]
    [ 5 0 | 6 0 ]
    [ 0 7 | 0 8 ] *)
Definition exP0 : parmat Zs := ParMat [0; 2; 4] [0; 2; 4] (@CSR Zs 2 2 [0; 2; 3] [0; 1; 1] [1; 2; 4]) (@CSR Zs 2 1 [0; 1; 1] [0] [3]) [3].
Definition exP1 : parmat Zs := ParMat [2; 4; 4] [2; 4; 4] (@CSR Zs 2 2 [0; 1; 2] [0; 1] [6; 8]) (@CSR Zs 2 2 [0; 1; 2] [0; 1] [5; 7]) [0; 1].

(** Another one with the same layout:
    [ 0 1 | 2 3 ]
    [ 0 0 | 0 4 ]
    [ 0 0 | 1 1 ]
    [ 0 0 | 0 0 ] *)
Definition exQ0 : parmat Zs := ParMat [0; 2; 4] [0; 2; 4] (@CSR Zs 2 2 [0; 1; 1] [1] [1]) (@CSR Zs 2 2 [0; 2; 3] [0; 1; 1] [2; 3; 4]) [2; 3].
Definition exQ1 : parmat Zs := ParMat [2; 4; 4] [2; 4; 4] (@CSR Zs 2 2 [0; 2; 2] [0; 1] [1; 1]) (@CSR Zs 2 0 [0; 0; 0] [] []) [].

Lemma exP0_valid : pm_valid exP0. Proof. apply pm_validb_ok. vm_compute. reflexivity. Qed.
Lemma exP1_valid : pm_valid exP1. Proof. apply pm_validb_ok. vm_compute. reflexivity. Qed.
Lemma exQ0_valid : pm_valid exQ0. Proof. apply pm_validb_ok. vm_compute. reflexivity. Qed.
Lemma exQ1_valid : pm_valid exQ1. Proof. apply pm_validb_ok. vm_compute. reflexivity. Qed.

(** hypre_CSRMatrixReorder leaves a block alone whose rows start with the diagonal. *)
Definition no_reorder {S} (A : csr S) : csr S := A.
Lemma no_reorder_ok {S} : reorders (@no_reorder S).
Proof. intros A V. split; [exact V|]. unfold same_entries, no_reorder. repeat split; auto. Qed.

(** MPI_SUM from left to right. *)
Definition left_sum {S : scalar} : allreduce (S := S) := fun _ l => match l with [] => s0 | a :: l => fold_left sadd l a end.
Lemma left_sum_ok {S} : sums (@left_sum S).
Proof.
  intros r [|a l] N; [congruence|]. clear N. cbn [left_sum]. revert a. induction l as [|b l IH] using rev_ind; intros a; [apply TLeaf|].
  rewrite fold_left_app. cbn [fold_left]. apply (TNode _ (a :: l) [b]); [apply IH|apply TLeaf|apply Permutation_refl].
Qed.

(** Three vertices, split over two ranks; rank 0 owns vertices 1 and 2. *)
Definition exG : csr Zs := @CSR Zs 3 3 [0; 2; 4; 7] [0; 2; 1; 2; 0; 1; 2] [4; 1; 5; 2; 3; 2; 6].
Definition exG_part : list Z := [1; 0; 0].

(** Puts the computed result of a call in place of an existential. *)
Ltac result_of m k := let v := eval vm_compute in m in match v with Ok ?f => k f end.
