(** C108: the LU factorisation of examples/dense/dense_lu.cpp. *)

From Coq Require Import ZArith List Bool Lia QArith.Qcanon.
From Verif Require Import Base Scalar Spec SumFacts Dense DenseFacts Examples ScalarQ SolverSpec LuQr LuQrSpec LuProofs LuMore LuLinks LuExamples.
Import ListNotations.
Open Scope Z_scope.

(** lu_decomp returns for every square matrix; if no pivot it divided by was zero, L is unit lower triangular,
    U is upper triangular and L U = A. *)
Theorem C108_lu_sound :
  forall (S : scalar), field_laws S -> forall (n : Z) (A : dense S), 0 <= n -> is_dense n n A ->
  exists L U, lu_decomp A = Ok (L, U) /\ is_dense n n L /\ is_dense n n U /\
    (nonzero_diag (n - 1) (dense_mat U) ->
     lower n (dense_mat L) /\ unit_diag n (dense_mat L) /\ upper n (dense_mat U) /\
     same_mat n n (mat_mul (dense_mat L) (dense_mat U) n) (dense_mat A)).
Proof. exact @lu_decomp_sound. Qed.
Print Assumptions C108_lu_sound.

(** If A is the product of a unit lower and an upper triangular matrix without zeros among the first n - 1
    diagonal entries, these are the two matrices returned. *)
Theorem C108_lu_unique :
  forall (S : scalar), field_laws S -> forall (n : Z) (A : dense S) (L0 U0 : mat S), 0 <= n -> is_dense n n A ->
  lower n L0 -> unit_diag n L0 -> upper n U0 -> nonzero_diag (n - 1) U0 -> same_mat n n (mat_mul L0 U0 n) (dense_mat A) ->
  exists L U, lu_decomp A = Ok (L, U) /\ is_dense n n L /\ is_dense n n U /\
    same_mat n n (dense_mat L) L0 /\ same_mat n n (dense_mat U) U0.
Proof. exact @lu_decomp_unique. Qed.
Print Assumptions C108_lu_unique.

(** The factorisation succeeds when the leading blocks of sizes 1 .. n - 1 are nonsingular; when A is so too
    (m = n + 1) the last diagonal entry of U is not zero either. *)
Theorem C108_lu_leading :
  forall (S : scalar), field_laws S ->
  forall (n : Z) (A : dense S) (m : Z), 0 <= n -> n <= m <= n + 1 -> is_dense n n A -> leading_nonsingular m (dense_mat A) ->
  exists L U, lu_decomp A = Ok (L, U) /\ is_dense n n L /\ is_dense n n U /\
    lower n (dense_mat L) /\ unit_diag n (dense_mat L) /\ upper n (dense_mat U) /\ nonzero_diag (m - 1) (dense_mat U) /\
    same_mat n n (mat_mul (dense_mat L) (dense_mat U) n) (dense_mat A).
Proof. exact @lu_decomp_leading. Qed.
Print Assumptions C108_lu_leading.

(** Then factoring and solving gives the solution of A x = b, *)
Theorem C108_solve :
  forall (S : scalar), field_laws S ->
  forall (n : Z) (A : dense S) (b : list (car S)), 0 <= n -> is_dense n n A -> zlen b = n -> leading_nonsingular (n + 1) (dense_mat A) ->
  exists x, lu_solve A b = Ok x /\ solves n (dense_mat A) b x /\ forall y, solves n (dense_mat A) b y -> y = x.
Proof. exact @lu_solve_only. Qed.
Print Assumptions C108_solve.

(** in particular for every positive definite matrix, symmetric or not. *)
Theorem C108_positive_definite :
  forall (S : scalar), field_laws S -> eqb_laws S -> order_laws S ->
  forall (n : Z) (A : dense S) (b : list (car S)), 0 <= n -> is_dense n n A -> zlen b = n -> mat_pos_def n (dense_mat A) ->
  exists x, lu_solve A b = Ok x /\ solves n (dense_mat A) b x /\ forall y, solves n (dense_mat A) b y -> y = x.
Proof. exact @lu_solve_pos_def. Qed.
Print Assumptions C108_positive_definite.

(** forward_elim and back_solve: the entries on the other side of the diagonal are not read. *)
Theorem C108_forward :
  forall (S : scalar), field_laws S -> forall (n : Z) (L : dense S) (b : list (car S)), 0 <= n -> is_dense n n L -> zlen b = n ->
  nonzero_diag n (dense_mat L) ->
  exists x, forward_elim L b = Ok x /\ solves n (fun i j => if j <=? i then dense_mat L i j else s0) b x.
Proof. exact @forward_triangle. Qed.
Print Assumptions C108_forward.

Theorem C108_back :
  forall (S : scalar), field_laws S -> forall (n : Z) (U : dense S) (b : list (car S)), 0 <= n -> is_dense n n U -> zlen b = n ->
  nonzero_diag n (dense_mat U) ->
  exists x, back_solve U b = Ok x /\ solves n (fun i j => if i <=? j then dense_mat U i j else s0) b x.
Proof. exact @back_triangle. Qed.
Print Assumptions C108_back.

(** A right-hand side shorter than the matrix is refused. *)
Theorem C108_short_right_side :
  forall (S : scalar) (n : Z) (A : dense S) (b : list (car S)), is_dense n n A -> zlen b < n ->
  forward_elim A b = Fail FAssert /\ back_solve A b = Fail FAssert /\ (field_laws S -> lu_solve A b = Fail FAssert).
Proof. intros S n A b HA Hb. exact (conj (forward_short n A b HA Hb) (conj (back_short n A b HA Hb) (fun F => solve_short F n A b HA Hb))). Qed.
Print Assumptions C108_short_right_side.

(** The condition on the leading blocks is necessary: it holds exactly when the program meets no zero pivot. *)
Theorem C108_pivots :
  forall (S : scalar), field_laws S -> forall (n m : Z) (A : dense S), 0 <= n -> n <= m <= n + 1 -> is_dense n n A ->
  (leading_nonsingular m (dense_mat A) <-> exists L U, lu_decomp A = Ok (L, U) /\ nonzero_diag (m - 1) (dense_mat U)).
Proof. exact @lu_pivots_iff. Qed.
Print Assumptions C108_pivots.

(** Nonsingularity of A alone is not enough: there is no exchange of rows.  The matrix of the
    exchange of two variables is nonsingular, and the "solution" returned is not one. *)
Theorem C108_no_row_exchange :
  is_dense 2 2 exSwapD /\ mat_nonsingular 2 (dense_mat exSwapD) /\
  exists x, lu_solve exSwapD [q 1; q 2] = Ok x /\ ~ solves 2 (dense_mat exSwapD) [q 1; q 2] x.
Proof. exact swap_not_solved. Qed.
Print Assumptions C108_no_row_exchange.

(** An instance: a 3 x 3 matrix that is not symmetric. *)
Example C108_instance :
  let A := Dense (S := Qcs) 3 3 [q 2; q 4; q (-2); q 1; q 5; q 2; q 1; q 3; q 5] in
  is_dense 3 3 A /\ leading_nonsingular 4 (dense_mat A) /\
  match lu_decomp A with
  | Ok (L, U) => map this (d_data L) = map this [q 1; q 2; q (-1); q 0; q 1; q 1; q 0; q 0; q 1] /\
                 map this (d_data U) = map this [q 2; q 0; q 0; q 1; q 3; q 0; q 1; q 1; q 5]
  | Fail _ => False
  end /\
  match lu_solve A [q 4; q 12; q 5] with Ok x => map this x = map this [q 1; q 1; q 1] | Fail _ => False end.
Proof. exact lu_instance. Qed.
