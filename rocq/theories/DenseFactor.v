(** Model of the members of DenseMatrix that call LAPACK: SVD, QR and Invert
    (src/densematrix.cpp:569-718).

    The LAPACK routines are arbitrary functions of what they are documented to read.  Every call
    is guarded by the documented minimal lengths of its arrays: a shorter array is an access
    outside of it ([FUB]).  A routine called with an illegal argument (LAPACK: INFO < 0) touches
    no array.  Conversions of the optimal workspace from double to int are exact. *)

From Coq Require Import ZArith List Bool.
From Verif Require Import Base Scalar Spec Dense Eigen.
Import ListNotations.
Open Scope Z_scope.

Section DenseFactor.
Context {S : scalar}.
Notation T := (car S).
Notation dense := (dense S).

(** densematrix.cpp:13-26.  Outputs are given elementwise. *)
Record flapack : Type := FLapack {
  fl_svd_work : Z -> Z -> Z;                     (* dgesvd_, lwork = -1: m, n *)
  fl_qp3_work : Z -> Z -> Z;                     (* dgeqp3_, lwork = -1: m, n *)
  fl_gqr_work : Z -> Z -> Z -> Z;                (* dorgqr_, lwork = -1: m, n, k *)
  fl_tri_work : Z -> Z;                          (* dgetri_, lwork = -1: n *)
  fl_svd_a : Z -> Z -> list T -> Z -> T;         (* dgesvd_("O", "N"): m, n, a; the new a *)
  fl_svd_s : Z -> Z -> list T -> Z -> T;
  fl_svd_info : Z -> Z -> list T -> Z;
  fl_qp3_a : Z -> Z -> list T -> list Z -> Z -> T;    (* dgeqp3_: m, n, a, jpvt *)
  fl_qp3_p : Z -> Z -> list T -> list Z -> Z -> Z;
  fl_qp3_tau : Z -> Z -> list T -> list Z -> Z -> T;
  fl_gqr : Z -> Z -> Z -> list T -> list T -> Z -> T;  (* dorgqr_: m, n, k, a, tau *)
  fl_trf_a : Z -> Z -> list T -> Z -> T;         (* dgetrf_: m, n, a *)
  fl_trf_p : Z -> Z -> list T -> Z -> Z;
  fl_tri_a : Z -> list T -> list Z -> Z -> T;    (* dgetri_: n, a, ipiv *)
  fl_tri_info : Z -> list T -> list Z -> Z
}.

(** The smallest legal values of lwork *)
Definition svd_least (m n : Z) : Z := Z.max (3 * Z.min m n + Z.max m n) (5 * Z.min m n).
Definition qp3_least (n : Z) : Z := 3 * n + 1.

(** densematrix.cpp:576-616  SVD(): the matrix afterwards and the singular values *)
Definition svd (L : flapack) (D : dense) : res (dense * list T) :=
  let rows := d_rows D in let cols := d_cols D in
  s <- vec (Z.min rows cols) s0 ;;
  if (rows =? 0) || (cols =? 0) then Ok (D, s)
  else
    let lwork := fl_svd_work L rows cols in
    work <- vec lwork (s0 : T) ;;
    if lwork <? svd_least rows cols then Fail FAssert
    else
      a <- reads (rows * cols) (d_data D) ;; scratch lwork (zlen work) ;;;
      data <- writes (rows * cols) (fl_svd_a L rows cols a) (d_data D) ;;
      s <- writes (Z.min rows cols) (fl_svd_s L rows cols a) s ;;
      assert_ (fl_svd_info L rows cols a =? 0) ;;;
      Ok (Dense rows cols data, s).

(** densematrix.cpp:569-574  SVD(U): the new U and the singular values; this is unchanged *)
Definition svd_into (L : flapack) (D U : dense) : res (dense * list T) := svd L D.

(** densematrix.cpp:634-671  QR() *)
Definition qr (L : flapack) (D : dense) : res dense :=
  let rows := d_rows D in let cols := d_cols D in
  if (rows =? 0) || (cols =? 0) then Ok D
  else
    let k := Z.min rows cols in
    let lwork := fl_qp3_work L rows cols in
    jpvt <- vec k 0 ;; tau <- vec k s0 ;; work <- vec lwork (s0 : T) ;;
    (* dgeqp3_ with info ignored *)
    ' (data, tau) <- (if lwork <? qp3_least cols then Ok (d_data D, tau)
      else
        a <- reads (rows * cols) (d_data D) ;; p <- reads cols jpvt ;; scratch lwork (zlen work) ;;;
        data <- writes (rows * cols) (fl_qp3_a L rows cols a p) (d_data D) ;;
        _ <- writes cols (fl_qp3_p L rows cols a p) jpvt ;;
        tau <- writes k (fl_qp3_tau L rows cols a p) tau ;;
        Ok (data, tau)) ;;
    (* dorgqr_ *)
    let lwork := fl_gqr_work L rows cols k in
    (if lwork <? 0 then Fail FThrow else Ok tt) ;;;
    let work := resize work lwork s0 in
    if (rows <? cols) || (lwork <? cols) then Fail FAssert
    else
      a <- reads (rows * cols) data ;; t <- reads k tau ;; scratch lwork (zlen work) ;;;
      data <- writes (rows * cols) (fl_gqr L rows cols k a t) data ;;
      Ok (Dense rows cols data).

(** densematrix.cpp:628-632  QR(Q): the new Q; this is unchanged *)
Definition qr_into (L : flapack) (D Q : dense) : res dense := qr L D.

(** densematrix.cpp:679-718  Invert() *)
Definition invert (L : flapack) (D : dense) : res dense :=
  let rows := d_rows D in let cols := d_cols D in
  assert_ (rows =? cols) ;;;
  if (rows =? 0) || (cols =? 0) then Ok D
  else
    ipiv <- vec (Z.min rows cols) 0 ;;
    (* dgetrf_ with info ignored *)
    a <- reads (rows * cols) (d_data D) ;;
    data <- writes (rows * cols) (fl_trf_a L rows cols a) (d_data D) ;;
    ipiv <- writes (Z.min rows cols) (fl_trf_p L rows cols a) ipiv ;;
    (* dgetri_ *)
    let lwork := fl_tri_work L cols in
    work <- vec lwork (s0 : T) ;;
    if lwork <? cols then Fail FAssert
    else
      a <- reads (cols * cols) data ;; p <- reads cols ipiv ;; scratch lwork (zlen work) ;;;
      data <- writes (cols * cols) (fl_tri_a L cols a p) data ;;
      assert_ (fl_tri_info L cols a p =? 0) ;;;
      Ok (Dense rows cols data).

(** densematrix.cpp:673-677  Invert(inv): the new inv; this is unchanged *)
Definition invert_into (L : flapack) (D inv : dense) : res dense := invert L D.

End DenseFactor.

Arguments flapack S : clear implicits.
