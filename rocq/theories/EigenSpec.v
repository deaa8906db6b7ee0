(** What C55 means, independently of the code. *)

From Coq Require Import ZArith List Bool.
From Verif Require Import Base Scalar Spec Dense Eigen.
Import ListNotations.
Open Scope Z_scope.

Section EigenSpec.
Context {S : scalar}.
Notation T := (car S).

(** a <= b as the program tests it *)
Definition within (a b : T) : Prop := slt a b = true \/ seqb a b = true.

(** Column j of a matrix. *)
Definition column (D : dense S) (j : Z) : vect S := fun i => dense_mat D i j.

(** The matrix of which only the upper triangle of [A] is read. *)
Definition upper (A : mat S) : mat S := fun i j => if i <=? j then A i j else A j i.

Definition symmetric (n : Z) (A : mat S) : Prop := forall i j, 0 <= i < n -> 0 <= j < n -> A i j = A j i.

(** The tridiagonal matrix with diagonal d and off-diagonal e. *)
Definition tridiagonal (d e : list T) : mat S := fun i j =>
  if i =? j then zn s0 d i else if i =? j + 1 then zn s0 e j else if j =? i + 1 then zn s0 e i else s0.

(** x is an eigenvector of the n x n matrix A for the value lambda (up to being zero). *)
Definition eigen (n : Z) (A : mat S) (lambda : T) (x : vect S) : Prop :=
  forall i, 0 <= i < n -> mat_vec A n x i = smul lambda (x i).

(** The first m columns of X are orthonormal. *)
Definition orthonormal (n m : Z) (X : mat S) : Prop :=
  forall j k, 0 <= j < m -> 0 <= k < m ->
    inner n (fun i => X i j) (fun i => X i k) = if j =? k then s1 else s0.

(** Non-decreasing. *)
Definition ascending (n : Z) (l : list T) : Prop := forall i j, 0 <= i -> i <= j -> j < n -> sle (zn s0 l i) (zn s0 l j).

(** A column-major n x m array as a matrix. *)
Definition colmajor (n : Z) (l : list T) : mat S := fun i j => zn s0 l (i + j * n).

(** What the routines deliver one after the other when Solve runs on the n x n matrix with data
    [a] and asks for m eigenvectors. *)
Section Calls.
Variable L : lapack (S := S).
Variables (n : Z) (a : list T) (m : Z).

Definition out_d : list T := map (la_trd_d L n a) (zrange 0 n).
Definition out_e : list T := map (la_trd_e L n a) (zrange 0 (n - 1)).
Definition out_a : list T := map (la_trd_a L n a) (zrange 0 (n * n)).
Definition out_tau : list T := map (la_trd_tau L n a) (zrange 0 (n - 1)).
Definition out_evals : list T := map (la_sterf L n out_d out_e) (zrange 0 n).
Definition out_z : list T :=
  map (la_stein L n out_d out_e m out_evals (repeat 1 (Z.to_nat n)) (n :: repeat 0 (Z.to_nat (n - 1)))) (zrange 0 (n * m)).
Definition out_evects : list T := map (la_mtr L n m out_a out_tau out_z) (zrange 0 (n * m)).

(** The LAPACK documentation for exact arithmetic, about these calls.  Q is the matrix that
    dsytrd_ returns in factored form. *)
Record lapack_correct (Q : mat S) : Prop := {
  (* dsytrd_: Q is orthogonal and A Q = Q T, A given by its upper triangle *)
  lc_orthogonal : orthonormal n n Q;
  lc_similar : forall i j, 0 <= i < n -> 0 <= j < n ->
     mat_mul (upper (colmajor n a)) Q n i j = mat_mul Q (tridiagonal out_d out_e) n i j;
  (* dsterf_: ascending values *)
  lc_ascending : ascending n out_evals;
  (* dstein_: orthonormal eigenvectors of T *)
  lc_eigen : forall j, 0 <= j < m -> eigen n (tridiagonal out_d out_e) (zn s0 out_evals j) (fun i => colmajor n out_z i j);
  lc_orthonormal : orthonormal n m (colmajor n out_z);
  (* dormtr_: multiplies by Q *)
  lc_apply : forall i j, 0 <= i < n -> 0 <= j < m -> colmajor n out_evects i j = mat_mul Q (colmajor n out_z) n i j
}.

End Calls.

(** One call of Solve on a square matrix that asks for at most as many vectors as there are. *)
Definition fair_call (c : dense S * T * Z * (list T * dense S)) : Prop :=
  let '(D, _, mx, pr) := c in dense_ok D /\ d_cols D = d_rows D /\ mx <= d_rows D.

(** The state of a solver object after any calls on square matrices. *)
Definition reachable (L : lapack (S := S)) (s : esolver (S := S)) : Prop :=
  exists calls : list (dense S * T * Z * (list T * dense S)),
    (forall D tol mx pr, In (D, tol, mx, pr) calls -> dense_ok D /\ d_cols D = d_rows D) /\
    solve_all L calls es_new = Ok s.

End EigenSpec.
