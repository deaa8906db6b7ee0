(** The forms of the library's functions that return a new object: the arithmetic operators of
    Vector, the solver functions that choose their own start, the products of a SparseMatrix with
    a DenseMatrix, and the copies of a row or a column of a DenseMatrix. *)

From Coq Require Import ZArith List Bool.
From Verif Require Import Base Scalar Spec Dense Sparse Vec Block Solver.
Import ListNotations.
Open Scope Z_scope.

Section Returns.
Context {S : scalar}.
Notation T := (car S).

(* ---------------------------------------------------------------- Vector *)

(** The parameter the operators of vector.hpp:246-315 take by value: the copy made last *)
Definition param (st : vstate S) : Z := zlen (st_vars st) - 1.

(** vector.hpp:298-303  operator+(Vector lhs, const Vector& rhs): lhs is a copy of variable x; it is
    changed in place and moved into the result.  (The copy is destroyed after the call; here it
    stays behind as an empty variable.) *)
Definition st_plus (grow : Z -> Z -> Z) (st : vstate S) (x y : Z) : res (vstate S) :=
  st <- st_copy grow st x ;; let p := param st in
  st <- st_on2 v_add_view st (RVar p) (RVar y) ;; st_move st p.

(** vector.hpp:310-315  operator-(Vector lhs, const Vector& rhs) *)
Definition st_minus (grow : Z -> Z -> Z) (st : vstate S) (x y : Z) : res (vstate S) :=
  st <- st_copy grow st x ;; let p := param st in
  st <- st_on2 v_sub_view st (RVar p) (RVar y) ;; st_move st p.

(** vector.hpp:246-263  operator*(Vector, T) and operator*(T, Vector): both are vect *= val *)
Definition st_times (grow : Z -> Z -> Z) (st : vstate S) (x : Z) (t : T) : res (vstate S) :=
  st <- st_copy grow st x ;; let p := param st in
  st <- st_on1 (fun h v => v_mul_scalar h v t) st (RVar p) ;; st_move st p.

(** vector.hpp:270-275  operator/(Vector, T) *)
Definition st_over (grow : Z -> Z -> Z) (st : vstate S) (x : Z) (t : T) : res (vstate S) :=
  st <- st_copy grow st x ;; let p := param st in
  st <- st_on1 (fun h v => v_div_scalar h v t) st (RVar p) ;; st_move st p.

(** vector.hpp:282-291  operator/(T, Vector) *)
Definition st_under (grow : Z -> Z -> Z) (st : vstate S) (t : T) (x : Z) : res (vstate S) :=
  st <- st_copy grow st x ;; let p := param st in
  st <- st_on1 (fun h v => v_rdiv_scalar h t v) st (RVar p) ;; st_move st p.

(* ---------------------------------------------------------------- solvers *)

(** Vector x(n); Randomize(x), for the values gen 0, gen 1, ... the engine produces
    (vectorview.cpp:5-15) *)
Definition random_start (gen : Z -> T) (n : Z) : res (list T) :=
  x <- vec n s0 ;; for_ 0 n x (fun i x => set x i (gen i)).

(** solvers.cpp:72-81, 225-234  CG(A, b, ...) and PCG(A, M, b, ...): the solution is returned *)
Definition pcg_solution {W : Type} (gen : Z -> T) (A : op S W) (M : option (op S W)) (dot : dotp S) (par : sparams S)
    (w : W) (b : list T) : res (list T) :=
  x <- random_start gen (o_rows A) ;; '(_, _, x, _) <- pcg_run A M dot par w b x ;; Ok x.

(** solvers.cpp:363-372  MINRES(A, b, ...) *)
Definition minres_solution {W : Type} (gen : Z -> T) (root : T -> T) (A : op S W) (dot : dotp S) (par : sparams S)
    (w : W) (b : list T) : res (list T) :=
  x <- random_start gen (o_rows A) ;; '(_, _, _, x, _) <- minres_run root A dot par w b x ;; Ok x.

(** solvers.cpp:517-526  PMINRES(A, M, b, ...) *)
Definition pminres_solution {W : Type} (gen : Z -> T) (root : T -> T) (A M : op S W) (dot : dotp S) (par : sparams S)
    (w : W) (b : list T) : res (list T) :=
  x <- random_start gen (o_rows A) ;; '(_, _, _, x, _) <- pminres_run root A M dot par w b x ;; Ok x.

(* ---------------------------------------------------------------- matrices *)

(** sparsematrix.hpp:616-641  Mult, MultAT and MultCT of a DenseMatrix *)
Definition sp_mult_dense_new (A : csr S) (X : dense S) : res (dense S) :=
  out <- d_zeros (c_rows A) (d_cols X) ;; sp_mult_dense A X out.
Definition sp_multAT_dense_new (A : csr S) (X : dense S) : res (dense S) :=
  out <- d_zeros (c_cols A) (d_cols X) ;; sp_multAT_dense A X out.
Definition sp_multCT_dense_new (A : csr S) (X : dense S) : res (dense S) :=
  out <- d_zeros (d_cols X) (c_rows A) ;; sp_multCT_dense A X out.

(** sparsematrix.hpp:753-761  TransposeDense() *)
Definition sp_transpose_dense_new (A : csr S) : res (dense S) :=
  out <- d_zeros (c_cols A) (c_rows A) ;; sp_transpose_dense_into A out.

(** densematrix.hpp:749-756, 758-765  GetCol(col) and GetRow(row) *)
Definition d_get_col_new (D : dense S) (col : Z) : res (list T) :=
  v <- vec (d_rows D) s0 ;; d_get_col D col v.
Definition d_get_row_new (D : dense S) (row : Z) : res (list T) :=
  v <- vec (d_cols D) s0 ;; d_get_row D row v.

End Returns.
