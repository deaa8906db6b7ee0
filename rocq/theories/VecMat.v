(** The products of matrices with vectors on memory: input and output are views, and may overlap.

    Sparse.v, Dense.v, Coo.v, Lil.v and Block.v model the same functions on lists, which is what
    they do when the views have no cell in common. *)

From Coq Require Import ZArith List Bool.
From Verif Require Import Base Scalar Spec Dense Sparse Coo Lil Block Vec.
Import ListNotations.
Open Scope Z_scope.

Section VecMat.
Context {S : scalar}.
Notation T := (car S).
Notation heap := (heap S).

(** sparsematrix.hpp:1034-1052  SparseMatrix::Mult(input, output) *)
Definition m_sp_mult (A : csr S) (h : heap) (x y : view) : res heap :=
  assert_ (v_len x =? c_cols A) ;;;
  assert_ (v_len y =? c_rows A) ;;;
  for_ 0 (c_rows A) h (fun i h =>
    lo <- get (c_ptr A) i ;; hi <- get (c_ptr A) (i + 1) ;;
    v <- for_ lo hi s0 (fun j v =>
           a <- get (c_val A) j ;; c <- get (c_idx A) j ;; xc <- v_get h x c ;;
           Ok (sadd v (smul a xc))) ;;
    v_set h y i v).

(** sparsematrix.hpp:1054-1070  SparseMatrix::MultAT(input, output) *)
Definition m_sp_multAT (A : csr S) (h : heap) (x y : view) : res heap :=
  assert_ (v_len x =? c_rows A) ;;;
  assert_ (v_len y =? c_cols A) ;;;
  h <- v_fill h y s0 ;;
  for_entries (c_rows A) (c_ptr A) h (fun i j h =>
    c <- get (c_idx A) j ;; a <- get (c_val A) j ;; xi <- v_get h x i ;;
    o <- v_get h y c ;; v_set h y c (sadd o (smul a xi))).

(** densematrix.hpp:655-670  DenseMatrix::Mult(input, output) *)
Definition m_d_mult (D : dense S) (h : heap) (x y : view) : res heap :=
  assert_ (v_len x =? d_cols D) ;;;
  assert_ (v_len y =? d_rows D) ;;;
  h <- v_fill h y s0 ;;
  for_ 0 (d_cols D) h (fun j h =>
    for_ 0 (d_rows D) h (fun i h =>
      a <- d_get D i j ;; xj <- v_get h x j ;; o <- v_get h y i ;;
      v_set h y i (sadd o (smul a xj)))).

(** densematrix.hpp:681-699  DenseMatrix::MultAT(input, output) *)
Definition m_d_multAT (D : dense S) (h : heap) (x y : view) : res heap :=
  assert_ (v_len x =? d_rows D) ;;;
  assert_ (v_len y =? d_cols D) ;;;
  for_ 0 (d_cols D) h (fun j h =>
    v <- for_ 0 (d_rows D) s0 (fun i v =>
           a <- d_get D i j ;; xi <- v_get h x i ;; Ok (sadd v (smul a xi))) ;;
    v_set h y j v).

(** coomatrix.hpp:637-653, 655-671  CooMatrix::Mult, MultAT (the same two assertions) *)
Definition m_coo_mult (M : coo S) (h : heap) (x y : view) : res heap :=
  assert_ (Coo.o_rows M =? v_len y) ;;;
  assert_ (Coo.o_cols M =? v_len x) ;;;
  h <- v_fill h y s0 ;;
  foldM (fun h e =>
    xj <- v_get h x (ecol e) ;; o <- v_get h y (erow e) ;;
    v_set h y (erow e) (sadd o (smul (evalue e) xj))) (o_entries M) h.

Definition m_coo_multAT (M : coo S) (h : heap) (x y : view) : res heap :=
  assert_ (Coo.o_rows M =? v_len y) ;;;
  assert_ (Coo.o_cols M =? v_len x) ;;;
  h <- v_fill h y s0 ;;
  foldM (fun h e =>
    xi <- v_get h x (erow e) ;; o <- v_get h y (ecol e) ;;
    v_set h y (ecol e) (sadd o (smul (evalue e) xi))) (o_entries M) h.

(** lilmatrix.hpp:410-432, 434-456  LilMatrix::Mult, MultAT (the same two assertions) *)
Definition m_lil_mult (M : lil S) (h : heap) (x y : view) : res heap :=
  assert_ (fst (lil_find_size M) =? v_len y) ;;;
  assert_ (snd (lil_find_size M) =? v_len x) ;;;
  h <- v_fill h y s0 ;;
  for_ 0 (zlen (l_lists M)) h (fun i h =>
    row <- get (l_lists M) i ;;
    foldM (fun h (n : Z * T) =>
      xj <- v_get h x (fst n) ;; o <- v_get h y i ;; v_set h y i (sadd o (smul (snd n) xj))) row h).

Definition m_lil_multAT (M : lil S) (h : heap) (x y : view) : res heap :=
  assert_ (fst (lil_find_size M) =? v_len y) ;;;
  assert_ (snd (lil_find_size M) =? v_len x) ;;;
  h <- v_fill h y s0 ;;
  for_ 0 (zlen (l_lists M)) h (fun i h =>
    row <- get (l_lists M) i ;;
    foldM (fun h (n : Z * T) =>
      xi <- v_get h x i ;; o <- v_get h y (fst n) ;; v_set h y (fst n) (sadd o (smul (snd n) xi))) row h).

(** blockmatrix.hpp:318-369  BlockMatrix::Mult *)
Definition m_bm_mult (M : bmat S) (h : heap) (x y : view) : res heap :=
  assert_ (v_len x =? bm_cols M) ;;; assert_ (v_len y =? bm_rows M) ;;;
  h <- v_fill h y s0 ;;
  '(_, h) <- bm_for M (s0, h)
    (fun row st => let '(_, h) := st in Ok (s0, h))
    (fun row col a st => let '(v, h) := st in
       xc <- v_get h x col ;; Ok (sadd v (smul a xc), h))
    (fun row st => let '(v, h) := st in h <- v_set h y row v ;; Ok (v, h)) ;;
  Ok h.

(** blockmatrix.hpp:371-417  BlockMatrix::MultAT *)
Definition m_bm_multAT (M : bmat S) (h : heap) (x y : view) : res heap :=
  assert_ (v_len x =? bm_rows M) ;;; assert_ (v_len y =? bm_cols M) ;;;
  h <- v_fill h y s0 ;;
  bm_for M h
    (fun row h => Ok h)
    (fun row col a h =>
       xr <- v_get h x row ;; o <- v_get h y col ;; v_set h y col (sadd o (smul a xr)))
    (fun row h => Ok h).

End VecMat.
