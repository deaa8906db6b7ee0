(** Property C93: SVD, QR and Invert of DenseMatrix. *)

From Coq Require Import ZArith List Bool Lia Permutation.
From Verif Require Import Base Scalar Spec Dense Eigen EigenSpec DenseFactor DenseFactorSpec DenseFactorProofs.
Import ListNotations.
Open Scope Z_scope.

(** If LAPACK does what its documentation says: the values returned are the singular values, in
    descending order, and the first columns of the matrix afterwards are left singular vectors. *)
Theorem C93_svd :
  forall (S : scalar) (L : flapack S) (D U : dense S) s,
  shape D -> workspace L (d_rows D) (d_cols D) -> svd_correct L (d_rows D) (d_cols D) (d_data D) ->
  svd L D = Ok (U, s) ->
  dense_ok U /\ d_rows U = d_rows D /\ d_cols U = d_cols D /\ zlen s = Z.min (d_rows D) (d_cols D) /\
  exists V, singular (d_rows D) (d_cols D) (dense_mat D) (dense_mat U) V s.
Proof. exact (fun S => @svd_value S). Qed.
Print Assumptions C93_svd.

(** No array is accessed outside, for any shape; a decomposition that did not converge is reported. *)
Theorem C93_svd_outcome :
  forall (S : scalar) (L : flapack S) (D : dense S),
  shape D -> workspace L (d_rows D) (d_cols D) ->
  (fl_svd_info L (d_rows D) (d_cols D) (d_data D) = 0 -> exists r, svd L D = Ok r) /\
  (fl_svd_info L (d_rows D) (d_cols D) (d_data D) <> 0 -> svd L D = Fail FAssert).
Proof. exact (fun S => @svd_outcome S). Qed.
Print Assumptions C93_svd_outcome.

(** QR of a matrix with at least as many rows as columns: orthonormal columns, and the columns of
    the matrix before, in some order, are combinations of the first of them.  Missing: matrices
    with more columns than rows. *)
Theorem C93_qr_partial :
  forall (S : scalar), ring_laws S -> forall (L : flapack S) (D Q : dense S),
  shape D -> d_cols D <= d_rows D -> workspace L (d_rows D) (d_cols D) -> qr_correct L (d_rows D) (d_cols D) (d_data D) ->
  qr L D = Ok Q ->
  dense_ok Q /\ d_rows Q = d_rows D /\ d_cols Q = d_cols D /\
  orthonormal (d_rows D) (d_cols D) (dense_mat Q) /\
  exists p R, factored (d_rows D) (d_cols D) (dense_mat D) (dense_mat Q) p R.
Proof. exact (fun S => @qr_value S). Qed.
Print Assumptions C93_qr_partial.

(** It always ends normally on such a matrix ... *)
Theorem C93_qr_runs :
  forall (S : scalar) (L : flapack S) (D : dense S),
  shape D -> d_cols D <= d_rows D -> workspace L (d_rows D) (d_cols D) -> exists Q, qr L D = Ok Q.
Proof. intros S L D H1 H2 H3. eexists. exact (qr_run L D H1 H2 H3). Qed.
Print Assumptions C93_qr_runs.

(** ... and accesses the pivot array outside on every matrix with more columns than rows. *)
Theorem C93_qr_wide_refuted :
  forall (S : scalar) (L : flapack S) (D : dense S),
  shape D -> d_rows D < d_cols D -> workspace L (d_rows D) (d_cols D) -> qr L D = Fail FUB.
Proof. exact (fun S => @qr_wide S). Qed.
Print Assumptions C93_qr_wide_refuted.

(** Invert returns the inverse ... *)
Theorem C93_invert :
  forall (S : scalar) (L : flapack S) (D E : dense S),
  shape D -> d_cols D = d_rows D -> workspace L (d_rows D) (d_cols D) -> lu_correct L (d_rows D) (d_data D) ->
  invert L D = Ok E ->
  dense_ok E /\ d_rows E = d_rows D /\ d_cols E = d_cols D /\ inverse (d_rows D) (dense_mat D) (dense_mat E).
Proof. exact (fun S => @invert_value S). Qed.
Print Assumptions C93_invert.

(** ... whenever there is one; a singular matrix is reported, although the code does not look at
    what the factorisation reports. *)
Theorem C93_invert_outcome :
  forall (S : scalar) (L : flapack S) (D : dense S),
  shape D -> d_cols D = d_rows D -> workspace L (d_rows D) (d_cols D) -> lu_correct L (d_rows D) (d_data D) ->
  ((exists X, inverse (d_rows D) (dense_mat D) X) -> exists E, invert L D = Ok E) /\
  (~ (exists X, inverse (d_rows D) (dense_mat D) X) -> invert L D = Fail FAssert).
Proof. exact (fun S => @invert_outcome S). Qed.
Print Assumptions C93_invert_outcome.

(** A matrix that is not square is refused. *)
Theorem C93_invert_not_square :
  forall (S : scalar) (L : flapack S) (D : dense S), d_rows D <> d_cols D -> invert L D = Fail FAssert.
Proof. exact (fun S => @invert_not_square S). Qed.
Print Assumptions C93_invert_not_square.

(** Matrices without elements: LAPACK is not called, there are no singular values. *)
Theorem C93_empty :
  forall (S : scalar) (L : flapack S) (D : dense S),
  dense_ok D -> d_rows D = 0 \/ d_cols D = 0 ->
  svd L D = Ok (D, []) /\ qr L D = Ok D /\ (d_rows D = d_cols D -> invert L D = Ok D).
Proof. exact (fun S => @factor_empty S). Qed.
Print Assumptions C93_empty.

(** A LAPACK that is right for matrices of zeros and ones with orthonormal columns: Q = A, R = I,
    and the inverse of a symmetric one is itself. *)
Definition plain_lapack : flapack Zs :=
  FLapack (S := Zs) (fun m n => 64 * (m + n)) (fun m n => 64 * (m + n)) (fun m n k => 64 * (m + n)) (fun n => 64 * n)
    (fun m n a k => zn 0 a k) (fun m n a k => 1) (fun m n a => 0)
    (fun m n a p k => zn 0 a k) (fun m n a p k => k + 1) (fun m n a p k => 0) (fun m n k a tau i => zn 0 a i)
    (fun m n a k => zn 0 a k) (fun m n a k => k + 1) (fun n a p k => zn 0 a k) (fun n a p => 0).

Ltac below := repeat match goal with
  | H : 0 <= ?i < ?n |- _ => let e := eval vm_compute in n in
      lazymatch e with
      | 1 => assert (i = 0) by lia; subst i; clear H
      | 2 => let E := fresh in assert (E : i = 0 \/ i = 1) by lia; clear H; destruct E as [-> | ->]
      | 3 => let E := fresh in assert (E : i = 0 \/ i = 1 \/ i = 2) by lia; clear H; destruct E as [-> | [-> | ->]]
      end
  end; try reflexivity.

Example C93_instance :
  let D := @Dense Zs 3 2 [0; 1; 0; 1; 0; 0] in        (* columns e1, e0 *)
  let P := @Dense Zs 2 2 [0; 1; 1; 0] in
  let W := @Dense Zs 1 2 [1; 0] in
  let Z2 := @Dense Zs 2 2 [1; 1; 1; 1] in
  let I : mat Zs := fun i j => if i =? j then 1 else 0 in
  shape D /\ workspace plain_lapack 3 2 /\ svd_correct plain_lapack 3 2 (d_data D) /\ qr_correct plain_lapack 3 2 (d_data D) /\
  svd plain_lapack D = Ok (D, [1; 1]) /\ qr plain_lapack D = Ok D /\
  shape P /\ workspace plain_lapack 2 2 /\ lu_correct plain_lapack 2 (d_data P) /\ invert plain_lapack P = Ok P /\
  (exists X, inverse (S := Zs) 2 (dense_mat P) X) /\ ~ (exists X, inverse (S := Zs) 2 (dense_mat Z2) X) /\
  shape W /\ workspace plain_lapack 1 2 /\ d_rows W < d_cols W.
Proof.
  cbv zeta. set (I := (fun i j => if i =? j then 1 else 0) : mat Zs).
  assert (OK : forall m n l, 0 < m -> 0 < n -> zlen l = m * n -> shape (@Dense Zs m n l)).
  { intros m n l Hm Hn Hl. unfold shape, dense_ok. cbn [d_rows d_cols d_data]. lia. }
  assert (W : forall m n, 0 < m -> 0 < n -> workspace plain_lapack m n).
  { intros m n Hm Hn. unfold workspace, plain_lapack, svd_least, qp3_least. cbn [fl_svd_work fl_qp3_work fl_gqr_work fl_tri_work]. lia. }
  split; [now apply OK|]. split; [now apply W|].
  split. { intros _. exists I. unfold singular.
    change (zlen (out_svd_s plain_lapack 3 2 _)) with 2.
    split; [intros i j Hi Hj; below|]. split; [intros i j Hi Hj; below|].
    split; [intros i j Hi Hij Hj; change (j < 2) in Hj; assert (Hj' : 0 <= j < 2) by lia; assert (Hi' : 0 <= i < 2) by lia; clear Hi Hj Hij; below|].
    split; [intros i Hi; change (0 <= i < 2) in Hi; below|].
    intros i j Hi Hj; below. }
  split. { exists (fun i j => if (i =? 0) && (j =? 1) || (i =? 1) && (j =? 0) || (i =? 2) && (j =? 2) then 1 else 0 : car Zs), I.
    split; [intros i j Hi Hj; below|]. split; [reflexivity|].
    split; [intros l j H; unfold I; destruct (Z.eqb_spec l j); [lia|reflexivity]|].
    split; [intros i j Hi Hj; below|intros i j Hi Hj; below]. }
  split; [reflexivity|]. split; [reflexivity|]. split; [now apply OK|]. split; [now apply W|].
  assert (IP : inverse (S := Zs) 2 (dense_mat (@Dense Zs 2 2 [0; 1; 1; 0])) (dense_mat (@Dense Zs 2 2 [0; 1; 1; 0]))).
  { split; intros i j Hi Hj; below. }
  split. { exists (fun f p => colmajor 2 f). cbv zeta. split; [intros i j Hi Hj; below|]. split; [|reflexivity].
    intros _. split; intros i j Hi Hj; below. }
  split; [reflexivity|]. split; [eexists; exact IP|].
  split. { intros (X & H1 & H2).
    assert (A := H2 0 0 ltac:(lia) ltac:(lia)). assert (B := H2 1 0 ltac:(lia) ltac:(lia)).
    change (1 * X 0 0 + (1 * X 1 0 + 0) = 1) in A. change (1 * X 0 0 + (1 * X 1 0 + 0) = 0) in B. rewrite A in B. discriminate B. }
  split; [now apply OK|]. split; [now apply W|]. reflexivity.
Qed.
