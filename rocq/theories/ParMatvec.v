(** Model of the products of a ParMatrix with vectors (parmatrix.cpp:204-300) on all ranks.

    hypre_ParCSRMatrixMatvec and hypre_ParCSRMatrixMatvecT are functions of the matrix and of the
    vector they are handed; a vector of hypre consists of the partition it was created with and of
    its local elements.  They overwrite the elements of the output vector that belong to the rows
    (columns) of the matrix. *)

From Coq Require Import ZArith List Bool.
From Verif Require Import Base Scalar Spec Dense Sparse Eigen Par.
Import ListNotations.
Open Scope Z_scope.

Section ParMatvec.
Context {S : scalar}.
Notation T := (car S).
Notation parmat := (parmat S).

(** A hypre_ParVector on one rank: its partition and its local elements *)
Record hvec : Type := HVec { hv_part : list Z; hv_data : list T }.

(** The element i that rank r receives, for alpha = 1, beta = 0 *)
Record hypre : Type := Hypre {
  hy_matvec : list parmat -> list hvec -> list hvec -> Z -> Z -> T;      (* A, x, y *)
  hy_matvecT : list parmat -> list hvec -> list hvec -> Z -> Z -> T
}.

(** A ParVector on one rank: partition_ (with global_size_ = partition_[2]) and the elements *)
Notation parvec := hvec.

(** parmatrix.cpp:212-227: the partitions of x_ and b_ are row_starts_ and col_starts_
    (paroperator.cpp:48-54); a rank holds the input and the output before the call *)
Definition view_mult (H : hypre) (As : list parmat) (ins outs : list (list T)) : res (list (list T)) :=
  let p := zlen As in
  xs <- ranks p (fun r => A <- get As r ;; x <- get ins r ;; y <- get outs r ;;
    assert_ (zlen x =? c_cols (pm_diag A)) ;;; assert_ (zlen y =? c_rows (pm_diag A)) ;;; Ok (HVec (pm_rs A) x)) ;;
  ys <- ranks p (fun r => A <- get As r ;; y <- get outs r ;; Ok (HVec (pm_cs A) (map (fun _ => s0) y))) ;;
  ranks p (fun r => A <- get As r ;; y <- get ys r ;; writes (c_rows (pm_diag A)) (hy_matvec H As xs ys r) (hv_data y)).

(** parmatrix.cpp:204-210  Mult(VectorView) *)
Definition view_mult_new (H : hypre) (As : list parmat) (ins : list (list T)) : res (list (list T)) :=
  outs <- ranks (zlen As) (fun r => A <- get As r ;; vec (c_rows (pm_diag A)) s0) ;; view_mult H As ins outs.

(** parmatrix.cpp:237-252  MultAT(VectorView, VectorView) *)
Definition view_multAT (H : hypre) (As : list parmat) (ins outs : list (list T)) : res (list (list T)) :=
  let p := zlen As in
  bs <- ranks p (fun r => A <- get As r ;; x <- get ins r ;; y <- get outs r ;;
    assert_ (zlen x =? c_rows (pm_diag A)) ;;; assert_ (zlen y =? c_cols (pm_diag A)) ;;; Ok (HVec (pm_cs A) x)) ;;
  xs <- ranks p (fun r => A <- get As r ;; y <- get outs r ;; Ok (HVec (pm_rs A) (map (fun _ => s0) y))) ;;
  ranks p (fun r => A <- get As r ;; y <- get xs r ;; writes (c_cols (pm_diag A)) (hy_matvecT H As bs xs r) (hv_data y)).

(** parmatrix.cpp:229-235  MultAT(VectorView) *)
Definition view_multAT_new (H : hypre) (As : list parmat) (ins : list (list T)) : res (list (list T)) :=
  outs <- ranks (zlen As) (fun r => A <- get As r ;; vec (c_cols (pm_diag A)) s0) ;; view_multAT H As ins outs.

(** ParVector::GlobalSize() *)
Definition gsize (v : parvec) : res Z := get (hv_part v) 2.

(** parmatrix.cpp:262-276  Mult(ParVector, ParVector) *)
Definition par_matvec (H : hypre) (As : list parmat) (ins outs : list parvec) : res (list parvec) :=
  let p := zlen As in
  _ <- ranks p (fun r => A <- get As r ;; x <- get ins r ;; y <- get outs r ;;
    assert_ (zlen (hv_data x) =? c_cols (pm_diag A)) ;;; assert_ (zlen (hv_data y) =? c_rows (pm_diag A)) ;;;
    m <- gsize x ;; n <- gsize y ;; assert_ (m =? pm_gcols A) ;;; assert_ (n =? pm_grows A)) ;;
  ys <- ranks p (fun r => y <- get outs r ;; Ok (HVec (hv_part y) (map (fun _ => s0) (hv_data y)))) ;;
  ranks p (fun r => A <- get As r ;; y <- get ys r ;;
    d <- writes (c_rows (pm_diag A)) (hy_matvec H As ins ys r) (hv_data y) ;; Ok (HVec (hv_part y) d)).

(** parmatrix.cpp:286-300  MultAT(ParVector, ParVector) *)
Definition par_matvecT (H : hypre) (As : list parmat) (ins outs : list parvec) : res (list parvec) :=
  let p := zlen As in
  _ <- ranks p (fun r => A <- get As r ;; x <- get ins r ;; y <- get outs r ;;
    assert_ (zlen (hv_data x) =? c_rows (pm_diag A)) ;;; assert_ (zlen (hv_data y) =? c_cols (pm_diag A)) ;;;
    m <- gsize x ;; n <- gsize y ;; assert_ (m =? pm_grows A) ;;; assert_ (n =? pm_gcols A)) ;;
  ys <- ranks p (fun r => y <- get outs r ;; Ok (HVec (hv_part y) (map (fun _ => s0) (hv_data y)))) ;;
  ranks p (fun r => A <- get As r ;; y <- get ys r ;;
    d <- writes (c_cols (pm_diag A)) (hy_matvecT H As ins ys r) (hv_data y) ;; Ok (HVec (hv_part y) d)).

(** parvector.cpp:18-23  ParVector(comm, val, part); [of_int] is the conversion of the first argument.
    (It also prints a line.) *)
Definition parvec_fill (val : T) (part : list Z) : res parvec :=
  b <- get part 1 ;; a <- get part 0 ;; d <- vec (b - a) val ;; _ <- pv_init (zlen d) part ;; Ok (HVec part d).

(** parmatrix.cpp:254-260  Mult(ParVector): the output is created with the value GlobalRows() *)
Definition par_matvec_new (H : hypre) (of_int : Z -> T) (As : list parmat) (ins : list parvec) : res (list parvec) :=
  outs <- ranks (zlen As) (fun r => A <- get As r ;; parvec_fill (of_int (pm_grows A)) (pm_rs A)) ;; par_matvec H As ins outs.

(** parmatrix.cpp:278-284  MultAT(ParVector) *)
Definition par_matvecT_new (H : hypre) (of_int : Z -> T) (As : list parmat) (ins : list parvec) : res (list parvec) :=
  outs <- ranks (zlen As) (fun r => A <- get As r ;; parvec_fill (of_int (pm_gcols A)) (pm_cs A)) ;; par_matvecT H As ins outs.

End ParMatvec.

Arguments hvec S : clear implicits.
Arguments hypre S : clear implicits.
