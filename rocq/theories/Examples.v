(** Concrete matrices used in the examples beside the theorems, and a checker for
    the hypotheses of the theorems. *)

From Coq Require Import ZArith List Lia Bool.
From Verif Require Import Base Scalar Spec.
Import ListNotations.
Open Scope Z_scope.

Section Check.
Context {S : scalar}.

(** Decides [csr_valid]. *)
Definition csr_validb (A : csr S) : bool :=
  (0 <=? c_rows A) && (0 <=? c_cols A) && (zlen (c_ptr A) =? c_rows A + 1)
  && (zlen (c_idx A) =? zlen (c_val A)) && (ptr A 0 =? 0)
  && forallb (fun i => ptr A i <=? ptr A (i + 1)) (zrange 0 (c_rows A))
  && (ptr A (c_rows A) =? nnz A)
  && forallb (fun k => (0 <=? idx A k) && (idx A k <? c_cols A)) (zrange 0 (zlen (c_idx A))).

Lemma csr_validb_ok (A : csr S) : csr_validb A = true -> csr_valid A.
Proof.
  unfold csr_validb. rewrite !andb_true_iff, !forallb_forall.
  intros (((((((H1 & H2) & H3) & H4) & H5) & H6) & H7) & H8).
  rewrite Z.leb_le in H1, H2. rewrite Z.eqb_eq in H3, H4, H5, H7.
  constructor; auto.
  - intros i Hi. apply Z.leb_le, H6, In_zrange, Hi.
  - intros k Hk. specialize (H8 k). rewrite In_zrange, andb_true_iff, Z.leb_le, Z.ltb_lt in H8. auto.
Qed.

End Check.

(** [ 1 0 2 ]   row 0 stored out of order,
    [ 0 0 0 ]   row 1 empty,
    [ 0 7 0 ]   row 2: the 7 stored as 3 + 4,
    [ 5 0 6 ] *)
Definition exA : csr Zs := @CSR Zs 4 3 [0; 2; 2; 4; 6] [2; 0; 1; 1; 0; 2] [2; 1; 3; 4; 5; 6].

Example exA_valid : csr_valid exA.
Proof. apply csr_validb_ok. vm_compute. reflexivity. Qed.

(** [ 1 2 ]
    [ 0 3 ]
    [ 4 0 ] *)
Definition exB : csr Zs := @CSR Zs 3 2 [0; 2; 3; 4] [0; 1; 1; 0] [1; 2; 3; 4].

Example exB_valid : csr_valid exB.
Proof. apply csr_validb_ok. vm_compute. reflexivity. Qed.

(** A square matrix, no coordinate stored twice.
    [ 2 1 0 ]
    [ 0 0 3 ]   (0 not stored)
    [ 4 0 5 ]   stored out of order *)
Definition exS : csr Zs := @CSR Zs 3 3 [0; 2; 3; 5] [0; 1; 2; 2; 0] [2; 1; 3; 5; 4].

Example exS_valid : csr_valid exS.
Proof. apply csr_validb_ok. vm_compute. reflexivity. Qed.

(** Closes conjunctions of comparisons between literals. *)
Ltac solve_small := cbv; repeat match goal with
  | |- _ /\ _ => split
  | |- Forall _ _ => constructor
  | |- True => exact I
  | |- _ = _ => reflexivity
  | |- _ -> _ => discriminate
  | |- _ <> _ => discriminate
  end.
