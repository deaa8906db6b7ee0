(** Model of examples/sparse/sparse_basics.cpp: the graph Laplacian of an adjacency matrix and the
    power iteration, programs built on SparseMatrix, Vector and Operator. *)

From Coq Require Import ZArith List Bool.
From Verif Require Import Base Scalar Spec Sparse Vec Block Solver.
Import ListNotations.
Open Scope Z_scope.

Section Basics.
Context {S : scalar}.
Notation T := (car S).

(** sparse_basics.cpp:55-72  the body of the loop of AdjToLaplacian for one row: diag_index, val and
    data after the inner loop, then the assertion and the write of the diagonal *)
Definition lap_row (A : csr S) (row : Z) (data : list T) : res (list T) :=
  a <- get (c_ptr A) row ;; b <- get (c_ptr A) (row + 1) ;;
  '(diag_index, val, data) <- for_ a b (-1, s0, data) (fun j st =>
      let '(diag_index, val, data) := st in
      col <- get (c_idx A) j ;;
      if col =? row then Ok (j, val, data)
      else data <- set data j (sopp s1) ;; Ok (diag_index, sadd val s1, data)) ;;
  assert_ (0 <=? diag_index) ;;;
  set data diag_index val.

(** sparse_basics.cpp:43-78  AdjToLaplacian(A); lap_A starts as a copy of A *)
Definition adj_to_laplacian (A : csr S) : res (csr S) :=
  data <- for_ 0 (c_rows A) (c_val A) (lap_row A) ;;
  Ok (CSR (c_rows A) (c_cols A) (c_ptr A) (c_idx A) data).

(** sparse_basics.cpp:82-86  from the vertex-edge relation to the Laplacian, as main() does it *)
Definition incidence_laplacian (vertex_edge : csr S) : res (csr S) :=
  edge_vertex <- sp_transpose vertex_edge ;;
  vertex_vertex <- sp_spmult vertex_edge edge_vertex ;;
  adj_to_laplacian vertex_vertex.

Section Power.
Context {W : Type} (root : T -> T) (A : op S W) (tol : T).

(** sparse_basics.cpp:16-37  the loop of PowerIterate, [passes] the number of passes left; printing
    left out *)
Fixpoint power_loop (passes : nat) (w : W) (x y : list T) (old_rayleigh : T) : res (W * T) :=
  match passes with
  | O => Ok (w, old_rayleigh)
  | Datatypes.S passes =>
      '(w, y) <- op_mult_vec A w x y ;;
      yx <- l_inner y x ;; xx <- l_inner x x ;;
      let rayleigh := sdiv yx xx in
      yy <- l_inner y y ;;
      x <- l_divc y (root yy) ;;
      if slt (sdiv (sabs (ssub rayleigh old_rayleigh)) (sabs rayleigh)) tol
      then Ok (w, rayleigh)
      else power_loop passes w x y rayleigh
  end.

(** sparse_basics.cpp:5-40  PowerIterate(A, max_iter, tol, verbose), gen the random values *)
Definition power_iterate (max_iter : Z) (gen : Z -> T) (w : W) : res (W * T) :=
  x <- vec (o_rows A) s0 ;;
  y <- vec (o_rows A) s0 ;;
  x <- for_ 0 (zlen x) x (fun i x => set x i (gen i)) ;;
  xx <- l_inner x x ;;
  x <- l_divc x (root xx) ;;
  power_loop (Z.to_nat max_iter) w x y s0.

End Power.
End Basics.
