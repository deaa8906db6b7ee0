(** Model of the factorisations in examples/dense/dense_lu.cpp and examples/dense/dense_qr.cpp,
    programs built on DenseMatrix, Vector and column views. *)

From Coq Require Import ZArith List Bool.
From Verif Require Import Base Scalar Spec Dense Vec.
Import ListNotations.
Open Scope Z_scope.

Section LuQr.
Context {S : scalar}.
Notation T := (car S).

(** vectorview.hpp:319-333  x[i] on a vector held as a list: only the upper bound is checked *)
Definition x_get (x : list T) (i : Z) : res T := assert_ (i <? zlen x) ;;; get x i.
Definition x_set (x : list T) (i : Z) (t : T) : res (list T) := assert_ (i <? zlen x) ;;; set x i t.

(** dense_lu.cpp:3-28  lu_decomp(A).  The pair is (L, U). *)
Definition lu_decomp (A : dense S) : res (dense S * dense S) :=
  let n := d_rows A in
  L <- d_zeros n n ;;
  for_ 0 n (L, A) (fun i LU =>
    '(L, U) <- for_ (i + 1) n LU (fun j LU =>
        let '(L, U) := LU in
        uji <- d_get U j i ;; uii <- d_get U i i ;;
        let a_ji := sdiv uji uii in
        U <- for_ i n U (fun k U =>
               uik <- d_get U i k ;; d_mod U j k (fun u => ssub u (smul a_ji uik))) ;;
        L <- d_set L j i a_ji ;;
        Ok (L, U)) ;;
    L <- d_set L i i s1 ;;
    Ok (L, U)).

(** dense_lu.cpp:30-49  forward_elim(L, b) *)
Definition forward_elim (L : dense S) (b : list T) : res (list T) :=
  let n := d_rows L in
  x <- vec n s0 ;;
  for_ 0 n x (fun i x =>
    bi <- x_get b i ;;
    sum <- for_down (i - 1) (-1) bi (fun j sum =>
             l <- d_get L i j ;; xj <- x_get x j ;; Ok (ssub sum (smul l xj))) ;;
    d <- d_get L i i ;;
    x_set x i (sdiv sum d)).

(** dense_lu.cpp:51-70, dense_qr.cpp:3-22  back_solve(U, b) *)
Definition back_solve (U : dense S) (b : list T) : res (list T) :=
  let n := d_rows U in
  x <- vec n s0 ;;
  for_down (n - 1) (-1) x (fun i x =>
    bi <- x_get b i ;;
    sum <- for_ (i + 1) n bi (fun j sum =>
             u <- d_get U i j ;; xj <- x_get x j ;; Ok (ssub sum (smul u xj))) ;;
    d <- d_get U i i ;;
    x_set x i (sdiv sum d)).

(** dense_lu.cpp:72-78  solve_lu(L, U, b) *)
Definition solve_lu (L U : dense S) (b : list T) : res (list T) :=
  y <- forward_elim L b ;; back_solve U y.

(** dense_lu.cpp:99-121  LU(): factor A and solve A x = b *)
Definition lu_solve (A : dense S) (b : list T) : res (list T) :=
  '(L, U) <- lu_decomp A ;; solve_lu L U b.

(** densematrix.hpp:700-716  GetColView(col) of a DenseMatrix with the given sizes whose data_ is
    buffer b *)
Definition col_view (rows cols b col : Z) : res view :=
  assert_ ((0 <=? col) && (col <? cols)) ;;; v_make b (col * rows) rows.

(** dense_qr.cpp:42-60  the body of the loop of qr_decomp: the columns of A (buffer 0) and Q (buffer 1)
    are used through views, R is an ordinary object.  [root] is std::sqrt. *)
Definition qr_column (root : T -> T) (m n i : Z) (st : heap S * dense S) : res (heap S * dense S) :=
  a_i <- col_view m n 0 i ;;
  q_i <- col_view m n 1 i ;;
  '(h, R) <- for_ 0 i st (fun j st =>
      let '(h, R) := st in
      q_j <- col_view m n 1 j ;;
      ae_i <- v_inner h a_i q_j ;;
      R <- d_set R j i ae_i ;;
      h <- v_axpby h s1 q_i (sopp ae_i) q_j s0 q_i ;;
      Ok (h, R)) ;;
  norm <- v_l2norm root h q_i ;;
  h <- v_div_scalar h q_i norm ;;
  r <- v_inner h a_i q_i ;;
  R <- d_set R i i r ;;
  Ok (h, R).

(** dense_qr.cpp:33-63  qr_decomp(A), with Q(A) a copy of the data *)
Definition qr_decomp (root : T -> T) (A : dense S) : res (dense S * dense S) :=
  let m := d_rows A in
  let n := d_cols A in
  let data := Some (Block (d_data A) (zlen (d_data A))) in
  R <- d_zeros n n ;;
  '(h, R) <- for_ 0 n ([data; data], R) (qr_column root m n) ;;
  k <- h_block h 1 ;;
  Ok (Dense m n (b_cells k), R).

(** dense_qr.cpp:24-30  solve_qr(Q, R, b) *)
Definition solve_qr (Q R : dense S) (b : list T) : res (list T) :=
  QT_b <- d_multAT_new Q b ;; back_solve R QT_b.

(** dense_qr.cpp:102-133  QR(): factor A and minimise |A x - b| *)
Definition qr_solve (root : T -> T) (A : dense S) (b : list T) : res (list T) :=
  '(Q, R) <- qr_decomp root A ;; solve_qr Q R b.

(** ex_utilities.hpp:45-56  symmetrize(A) *)
Definition symmetrize (A : dense S) : res (dense S) :=
  for_ 0 (d_rows A) A (fun i A => for_ i (d_cols A) A (fun j A => a <- d_get A j i ;; d_set A i j a)).

(** dense_qr.cpp:135-164  QR_eig() after the reference solution: U starts as the identity; [passes]
    times A = Q R is replaced by R Q and U by U Q.  The pair is (A, U) at the end. *)
Definition qr_eig (root : T -> T) (passes : Z) (A : dense S) : res (dense S * dense S) :=
  U <- d_zeros (d_rows A) (d_rows A) ;;
  U <- for_ 0 (d_rows U) U (fun i U => d_set U i i s1) ;;
  for_ 0 passes (A, U) (fun _ AU =>
    let '(A, U) := AU in
    '(Q, R) <- qr_decomp root A ;;
    A <- d_matmul R Q ;;
    U <- d_matmul U Q ;;
    Ok (A, U)).

End LuQr.
