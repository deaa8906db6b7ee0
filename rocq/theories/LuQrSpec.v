(** What the theorems about the factorisations say: triangular matrices, leading blocks. *)

From Coq Require Import ZArith List Bool.
From Verif Require Import Base Scalar Spec Dense SolverSpec.
Import ListNotations.
Open Scope Z_scope.

Section LuQrSpec.
Context {S : scalar}.
Notation T := (car S).

(** Zero above, below the diagonal; ones on the diagonal; no zero among the first n diagonal entries. *)
Definition lower (n : Z) (L : mat S) : Prop := forall i j, 0 <= i < n -> 0 <= j < n -> i < j -> L i j = s0.
Definition upper (n : Z) (U : mat S) : Prop := forall i j, 0 <= i < n -> 0 <= j < n -> j < i -> U i j = s0.
Definition unit_diag (n : Z) (L : mat S) : Prop := forall i, 0 <= i < n -> L i i = s1.
Definition nonzero_diag (n : Z) (U : mat S) : Prop := forall i, 0 <= i < n -> U i i <> s0.

(** Equal entries in rows 0..m-1 and columns 0..n-1. *)
Definition same_mat (m n : Z) (A B : mat S) : Prop := forall i j, 0 <= i < m -> 0 <= j < n -> A i j = B i j.

(** D is an m x n DenseMatrix object. *)
Definition is_dense (m n : Z) (D : dense S) : Prop := dense_ok D /\ d_rows D = m /\ d_cols D = n.

(** x has n elements and A x = b. *)
Definition solves (n : Z) (A : mat S) (b x : list T) : Prop :=
  zlen x = n /\ forall i, 0 <= i < n -> mat_vec A n (vec_of x) i = vec_of b i.

(** The blocks of the first k rows and columns are nonsingular for 1 <= k < m. *)
Definition leading_nonsingular (m : Z) (A : mat S) : Prop := forall k, 1 <= k < m -> mat_nonsingular k A.

(** A x = 0 only for x = 0, for a matrix with m rows and n columns. *)
Definition independent_columns (m n : Z) (A : mat S) : Prop :=
  forall x : vect S, (forall r, 0 <= r < m -> mat_vec A n x r = s0) -> forall i, 0 <= i < n -> x i = s0.

(** Q^T Q = I *)
Definition orthonormal (m n : Z) (Q : mat S) : Prop := same_mat n n (mat_mul (mat_T Q) Q m) id_mat.

(** Positive diagonal. *)
Definition pos_diag (n : Z) (U : mat S) : Prop := forall i, 0 <= i < n -> slt s0 (U i i) = true.

(** Q R = A with orthonormal columns of Q and R upper triangular with positive diagonal. *)
Definition qr_of (m n : Z) (A Q U : mat S) : Prop :=
  orthonormal m n Q /\ upper n U /\ pos_diag n U /\ same_mat m n (mat_mul Q U n) A.

(** |b - A x|^2 *)
Definition misfit (m n : Z) (A : mat S) (b x : list T) : T :=
  let r := fun i => (vec_of b i - mat_vec A n (vec_of x) i)%S in inner m r r.

End LuQrSpec.
