(** C109: the QR factorisation, least squares and the QR iteration of examples/dense/dense_qr.cpp. *)

From Coq Require Import ZArith List Bool Lia Reals Lra QArith.Qcanon.
From Verif Require Import Base Scalar Spec SumFacts Dense DenseFacts Examples ScalarQ ScalarR Vec SolverSpec LuQr LuQrSpec LuProofs LuMore LuExamples QrProofs QrMore QrEig QrExamples.
Import ListNotations.
Open Scope Z_scope.

(** Independent columns: Q has orthonormal columns, R is upper triangular with positive diagonal, Q R = A. *)
Theorem C109_qr :
  forall (S : scalar), field_laws S -> eqb_laws S -> order_laws S -> sum_order_laws S -> prod_order_laws S ->
  forall root : car S -> car S, root_laws root -> forall (m n : Z) (A : dense S), is_dense m n A ->
  independent_columns m n (dense_mat A) ->
  exists Q R, qr_decomp root A = Ok (Q, R) /\ is_dense m n Q /\ is_dense n n R /\ qr_of m n (dense_mat A) (dense_mat Q) (dense_mat R).
Proof. exact @qr_decomp_ok. Qed.
Print Assumptions C109_qr.

(** There is no other such pair. *)
Theorem C109_qr_unique :
  forall (S : scalar), field_laws S -> order_laws S -> sum_order_laws S ->
  forall (m n : Z) (A Q1 R1 Q2 R2 : mat S), qr_of m n A Q1 R1 -> qr_of m n A Q2 R2 -> same_mat m n Q1 Q2 /\ same_mat n n R1 R2.
Proof. exact @qr_unique. Qed.
Print Assumptions C109_qr_unique.

(** For all other matrices, and only those, the division by the norm of a column fails its assertion; *)
Theorem C109_dependent :
  forall (S : scalar), field_laws S -> eqb_laws S -> order_laws S -> sum_order_laws S -> prod_order_laws S ->
  forall root : car S -> car S, root_laws root -> forall (m n : Z) (A : dense S), is_dense m n A ->
  (qr_decomp root A = Fail FAssert <-> ~ independent_columns m n (dense_mat A)).
Proof. exact @qr_decomp_fails. Qed.
Print Assumptions C109_dependent.

(** so it does for every matrix with more columns than rows, such as those of time_QR. *)
Theorem C109_wide :
  forall (S : scalar), field_laws S -> eqb_laws S -> order_laws S -> sum_order_laws S -> prod_order_laws S ->
  forall root : car S -> car S, root_laws root -> forall (m n : Z) (A : dense S), is_dense m n A -> m < n ->
  qr_decomp root A = Fail FAssert.
Proof. exact @qr_decomp_wide. Qed.
Print Assumptions C109_wide.

(** solve_qr solves the normal equations; |b - A x| is least for its result and for no other vector. *)
Theorem C109_least_squares :
  forall (S : scalar), field_laws S -> eqb_laws S -> order_laws S -> sum_order_laws S -> prod_order_laws S ->
  forall root : car S -> car S, root_laws root -> forall (m n : Z) (A : dense S) (b : list (car S)), is_dense m n A -> zlen b = m ->
  independent_columns m n (dense_mat A) ->
  exists x, qr_solve root A b = Ok x /\ zlen x = n /\
    (forall i, 0 <= i < n -> mat_vec (mat_T (dense_mat A)) m (mat_vec (dense_mat A) n (vec_of x)) i = mat_vec (mat_T (dense_mat A)) m (vec_of b) i) /\
    (forall y, zlen y = n -> sle (misfit m n (dense_mat A) b x) (misfit m n (dense_mat A) b y)) /\
    (forall y, zlen y = n -> sle (misfit m n (dense_mat A) b y) (misfit m n (dense_mat A) b x) -> y = x).
Proof. exact @qr_solve_ok. Qed.
Print Assumptions C109_least_squares.

(** A square nonsingular system is solved. *)
Theorem C109_square :
  forall (S : scalar), field_laws S -> eqb_laws S -> order_laws S -> sum_order_laws S -> prod_order_laws S ->
  forall root : car S -> car S, root_laws root -> forall (n : Z) (A : dense S) (b : list (car S)), is_dense n n A -> zlen b = n ->
  mat_nonsingular n (dense_mat A) -> exists x, qr_solve root A b = Ok x /\ solves n (dense_mat A) b x.
Proof. exact @qr_solve_square. Qed.
Print Assumptions C109_square.

(** After any number of passes of the QR iteration on a nonsingular matrix, U is orthogonal and A U = U T, T
    nonsingular; *)
Theorem C109_iteration :
  forall (S : scalar), field_laws S -> eqb_laws S -> order_laws S -> sum_order_laws S -> prod_order_laws S ->
  forall root : car S -> car S, root_laws root -> forall (n : Z) (A : dense S) (passes : Z), 0 < n -> is_dense n n A ->
  mat_nonsingular n (dense_mat A) -> 0 <= passes ->
  exists B U, qr_eig root passes A = Ok (B, U) /\ is_dense n n B /\ is_dense n n U /\ orthonormal n n (dense_mat U) /\
    same_mat n n (mat_mul (dense_mat A) (dense_mat U) n) (mat_mul (dense_mat U) (dense_mat B) n) /\ mat_nonsingular n (dense_mat B).
Proof. exact @qr_eig_ok. Qed.
Print Assumptions C109_iteration.

(** so T is symmetric if A is, and an eigenvector y of T gives the eigenvector U y of A. *)
Theorem C109_similar :
  forall (S : scalar), field_laws S -> forall (n : Z) (A B U : mat S),
  orthonormal n n U -> same_mat n n (mat_mul A U n) (mat_mul U B n) ->
  (mat_sym n A -> mat_sym n B) /\
  forall (l : car S) (y : vect S), (forall i, 0 <= i < n -> mat_vec B n y i = smul l (y i)) ->
  forall i, 0 <= i < n -> mat_vec A n (mat_vec U n y) i = smul l (mat_vec U n y i).
Proof. exact @similar_both. Qed.
Print Assumptions C109_similar.

(** A nonsingular A is needed: the first pass fails otherwise. *)
Theorem C109_iteration_singular :
  forall (S : scalar), field_laws S -> eqb_laws S -> order_laws S -> sum_order_laws S -> prod_order_laws S ->
  forall root : car S -> car S, root_laws root -> forall (n : Z) (A : dense S) (passes : Z), 0 < n -> is_dense n n A ->
  ~ mat_nonsingular n (dense_mat A) -> 0 < passes -> qr_eig root passes A = Fail FAssert.
Proof. exact @qr_eig_singular. Qed.
Print Assumptions C109_iteration_singular.

(** symmetrize keeps the lower triangle. *)
Theorem C109_symmetrize :
  forall (S : scalar) (n : Z) (A : dense S), is_dense n n A ->
  exists B, symmetrize A = Ok B /\ is_dense n n B /\
    forall i j, 0 <= i < n -> 0 <= j < n -> dense_mat B i j = dense_mat A (Z.max i j) (Z.min i j).
Proof. exact @symmetrize_ok. Qed.
Print Assumptions C109_symmetrize.

(** An instance: the matrix and right-hand side of QR().  Over the reals the hypotheses hold; over the
    rationals, with a root that is right for 25 and 1, the program computes the factors and the solution. *)
Example C109_instance :
  root_laws (S := Rs) sqrt /\
  (let A := Dense (S := Rs) 3 2 [3; 4; 0; -6; -8; 1]%R in is_dense 3 2 A /\ independent_columns 3 2 (dense_mat A)) /\
  (let A := Dense (S := Qcs) 3 2 [q 3; q 4; q 0; q (-6); q (-8); q 1] in
   let root := fun t : car Qcs => if Qc_eq_bool t (q 25) then q 5 else t in
   match qr_decomp root A with
   | Ok (Q, R) => map this (d_data Q) = map this [(q 3 / q 5)%Qc; (q 4 / q 5)%Qc; q 0; q 0; q 0; q 1] /\ map this (d_data R) = map this [q 5; q 0; q (-10); q 1]
   | Fail _ => False
   end /\
   match qr_solve root A [q (-1); q 7; q 2] with Ok x => map this x = map this [q 5; q 2] | Fail _ => False end /\
   qr_decomp root (Dense (S := Qcs) 2 2 [q 3; q 4; q 6; q 8]) = Fail FAssert).
Proof. exact qr_instance. Qed.
