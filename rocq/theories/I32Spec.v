(** What C95 says about the arithmetic on int. *)

From Coq Require Import ZArith List Bool.
From Verif Require Import Base Scalar Spec Dense Sparse Coo Block I32.
Import ListNotations.
Open Scope Z_scope.

Section I32Spec.
Context {S : scalar}.

(** A matrix that an int can describe: the sizes have room for one more (row pointers are arrays of
    rows + 1 elements), the number of stored entries fits. *)
Definition fits (A : csr S) : Prop :=
  csr_valid A /\ c_rows A < int_max /\ c_cols A < int_max /\ sp_nnz A <= int_max.

Definition d_fits (D : dense S) : Prop := dense_ok D /\ d_rows D <= int_max /\ d_cols D <= int_max /\ d_rows D * d_cols D <= int_max.

End I32Spec.
