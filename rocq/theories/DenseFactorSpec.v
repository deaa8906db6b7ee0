(** What C93 means, independently of the code. *)

From Coq Require Import ZArith List Bool Permutation.
From Verif Require Import Base Scalar Spec Dense Eigen EigenSpec DenseFactor.
Import ListNotations.
Open Scope Z_scope.

Section DenseFactorSpec.
Context {S : scalar}.
Notation T := (car S).

(** A matrix object with at least one element. *)
Definition shape (D : dense S) : Prop := dense_ok D /\ 0 < d_rows D /\ 0 < d_cols D.

Definition identity : mat S := fun i j => if i =? j then s1 else s0.

(** A and B agree on the first m rows and n columns. *)
Definition same (m n : Z) (A B : mat S) : Prop := forall i j, 0 <= i < m -> 0 <= j < n -> A i j = B i j.

(** X is the inverse of the n x n matrix A. *)
Definition inverse (n : Z) (A X : mat S) : Prop := same n n (mat_mul X A n) identity /\ same n n (mat_mul A X n) identity.

(** Not increasing, and not negative. *)
Definition descending (l : list T) : Prop := forall i j, 0 <= i -> i <= j -> j < zlen l -> sle (zn s0 l j) (zn s0 l i).
Definition nonnegative (l : list T) : Prop := forall i, 0 <= i < zlen l -> sle s0 (zn s0 l i).

(** A = U diag(s) V^T, with as many columns of U and V as there are values. *)
Definition singular (m n : Z) (A U V : mat S) (s : list T) : Prop :=
  orthonormal m (zlen s) U /\ orthonormal n (zlen s) V /\ descending s /\ nonnegative s /\
  forall i j, 0 <= i < m -> 0 <= j < n ->
    A i j = sum_range 0 (zlen s) (fun k => smul (smul (U i k) (zn s0 s k)) (V j k)).

(** The columns of the m x n matrix A, in the order p, are combinations of the columns of Q up to
    their own place. *)
Definition factored (m n : Z) (A Q : mat S) (p : list Z) (R : mat S) : Prop :=
  Permutation p (zrange 0 n) /\
  (forall l j, 0 <= j < l -> R l j = s0) /\
  forall i j, 0 <= i < m -> 0 <= j < n -> A i (zn 0 p j) = sum_range 0 n (fun l => smul (Q i l) (R l j)).

Section Calls.
Variable L : flapack S.

(** The queries return a legal size. *)
Definition workspace (m n : Z) : Prop :=
  svd_least m n <= fl_svd_work L m n /\ qp3_least n <= fl_qp3_work L m n /\
  Z.max 1 n <= fl_gqr_work L m n (Z.min m n) /\ Z.max 1 n <= fl_tri_work L n.

(** What the routines deliver for the m x n matrix with data [a]. *)
Definition out_svd_a m n (a : list T) : list T := map (fl_svd_a L m n a) (zrange 0 (m * n)).
Definition out_svd_s m n (a : list T) : list T := map (fl_svd_s L m n a) (zrange 0 (Z.min m n)).
Definition start_p n : list Z := repeat 0 (Z.to_nat n).
Definition out_qp3_a m n (a : list T) : list T := map (fl_qp3_a L m n a (start_p n)) (zrange 0 (m * n)).
Definition out_qp3_p m n (a : list T) : list Z := map (fl_qp3_p L m n a (start_p n)) (zrange 0 n).
Definition out_qp3_tau m n (a : list T) : list T := map (fl_qp3_tau L m n a (start_p n)) (zrange 0 n).
Definition out_gqr m n (a tau : list T) : list T := map (fl_gqr L m n n a tau) (zrange 0 (m * n)).
Definition out_trf_a n (a : list T) : list T := map (fl_trf_a L n n a) (zrange 0 (n * n)).
Definition out_trf_p n (a : list T) : list Z := map (fl_trf_p L n n a) (zrange 0 n).
Definition out_tri_a n (a : list T) (p : list Z) : list T := map (fl_tri_a L n a p) (zrange 0 (n * n)).

(** The LAPACK documentation for exact arithmetic. *)

(** dgesvd_("O", "N"): when it converges, the first columns of a are the left singular vectors. *)
Definition svd_correct m n (a : list T) : Prop :=
  fl_svd_info L m n a = 0 ->
  exists V, singular m n (colmajor m a) (colmajor m (out_svd_a m n a)) V (out_svd_s m n a).

(** dgeqp3_, m >= n: A P = Q R with Q orthogonal (m x m) and R upper trapezoidal; jpvt counts from 1.
    dorgqr_: the first n columns of Q. *)
Definition qr_correct m n (a : list T) : Prop :=
  exists Q R : mat S,
    orthonormal m m Q /\ Permutation (map (fun c => c - 1) (out_qp3_p m n a)) (zrange 0 n) /\
    (forall l j, 0 <= j < l -> R l j = s0) /\
    (forall i j, 0 <= i < m -> 0 <= j < n ->
       colmajor m a i (zn 0 (out_qp3_p m n a) j - 1) = sum_range 0 m (fun l => smul (Q i l) (R l j))) /\
    same m n (colmajor m (out_gqr m n (out_qp3_a m n a) (out_qp3_tau m n a))) Q.

(** dgetrf_ returns factors of A (also when A is singular); dgetri_ inverts the matrix whose factors
    it is given, and reports INFO > 0 exactly when it has no inverse.  [lu] is the matrix that
    factors stand for. *)
Definition lu_correct n (a : list T) : Prop :=
  exists lu : list T -> list Z -> mat S,
    let f := out_trf_a n a in let p := out_trf_p n a in
    same n n (lu f p) (colmajor n a) /\
    (fl_tri_info L n f p = 0 -> inverse n (lu f p) (colmajor n (out_tri_a n f p))) /\
    ((exists X, inverse n (lu f p) X) -> fl_tri_info L n f p = 0).

End Calls.
End DenseFactorSpec.
