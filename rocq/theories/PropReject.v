(** C120: a call whose arguments do not fit is stopped by an assertion. *)

From Coq Require Import ZArith List Lia Bool.
From Verif Require Import Base Scalar Spec SparseSolve Par Dense Sparse Coo Lil Vec Block Solver VecSpec Partition Examples ParExamples SortProofs RejectProofs.
Import ListNotations.
Open Scope Z_scope.

(** GetDiag and AddDiag of a matrix that is not square. *)
Theorem C120_sparse_square :
  forall (S : scalar) (A : csr S) (diag : list (car S)) (v : car S),
  c_rows A <> c_cols A ->
  sp_get_diag A = Fail FAssert /\ sp_add_diag A diag = Fail FAssert /\ sp_add_diag_val A v = Fail FAssert.
Proof. exact @sp_square. Qed.
Print Assumptions C120_sparse_square.

(** Mult and MultAT with vectors of other lengths. *)
Theorem C120_sparse_vectors :
  forall (S : scalar) (A : csr S) (x out : list (car S)),
  (zlen x <> c_cols A \/ zlen out <> c_rows A -> sp_mult A x out = Fail FAssert) /\
  (zlen x <> c_rows A \/ zlen out <> c_cols A -> sp_multAT A x out = Fail FAssert).
Proof. exact @sp_vectors. Qed.
Print Assumptions C120_sparse_vectors.

(** The products with a DenseMatrix of another height. *)
Theorem C120_sparse_dense :
  forall (S : scalar) (A : csr S) (X out : dense S),
  (d_rows X <> c_cols A -> sp_mult_dense A X out = Fail FAssert /\ sp_multCT_dense A X out = Fail FAssert) /\
  (d_rows X <> c_rows A -> sp_multAT_dense A X out = Fail FAssert).
Proof. exact @sp_denses. Qed.
Print Assumptions C120_sparse_dense.

(** The product with a SparseMatrix of another height. *)
Theorem C120_sparse_product :
  forall (S : scalar) (A : csr S) (B : csr S) (marker : list Z),
  c_rows B <> c_cols A -> sp_spmult_marker A B marker = Fail FAssert.
Proof. exact @sp_product. Qed.
Print Assumptions C120_sparse_product.

(** ScaleRows, ScaleCols, InverseScaleRows, InverseScaleCols with another number of values ... *)
Theorem C120_sparse_scalings :
  forall (S : scalar) (A : csr S) (values : list (car S)),
  (zlen values <> c_rows A -> sp_scale_rows A values = Fail FAssert /\ sp_inv_scale_rows A values = Fail FAssert) /\
  (zlen values <> c_cols A -> sp_scale_cols A values = Fail FAssert /\ sp_inv_scale_cols A values = Fail FAssert).
Proof. exact @sp_scales. Qed.
Print Assumptions C120_sparse_scalings.

(** ... dividing a row by zero ... *)
Theorem C120_sparse_inverse_scale_rows_zero :
  forall (S : scalar) (A : csr S) (values : list (car S)) (i : Z),
  csr_valid A -> zlen values = c_rows A -> 0 <= i < c_rows A ->
  seqb (zn s0 values i) s0 = true -> sp_inv_scale_rows A values = Fail FAssert.
Proof. exact @sp_inv_rows_zero. Qed.
Print Assumptions C120_sparse_inverse_scale_rows_zero.

(** ... and dividing a stored entry by the zero of its column. *)
Theorem C120_sparse_inverse_scale_cols_zero :
  forall (S : scalar) (A : csr S) (values : list (car S)) (e : entry S),
  csr_valid A -> zlen values = c_cols A -> In e (entries A) ->
  seqb (zn s0 values (ecol e)) s0 = true -> sp_inv_scale_cols A values = Fail FAssert.
Proof. exact @sp_inv_cols_zero. Qed.
Print Assumptions C120_sparse_inverse_scale_cols_zero.

(** EliminateRowCol, EliminateRow, EliminateCol outside the matrix, or with a marker that is too short. *)
Theorem C120_sparse_eliminations :
  forall (S : scalar) (A : csr S) (index : Z) (marker : list bool) (x b : list (car S)),
  (~ (0 <= index < c_rows A /\ index < c_cols A) -> sp_elim_row_col A index = Fail FAssert) /\
  (~ (0 <= index < c_rows A) -> sp_elim_row A index = Fail FAssert) /\
  (index < 0 \/ 0 < c_cols A <= index -> sp_elim_col A index = Fail FAssert) /\
  (c_rows A <> c_cols A \/ zlen marker < c_cols A -> sp_elim_row_col_marker A marker = Fail FAssert) /\
  (zlen marker < c_cols A -> sp_elim_col_marker A marker = Fail FAssert /\ sp_elim_col_bc A marker x b = Fail FAssert).
Proof. exact @sp_eliminations. Qed.
Print Assumptions C120_sparse_eliminations.

(** Division by zero, and assigning zero to every entry. *)
Theorem C120_sparse_by_zero :
  forall (S : scalar) (A : csr S) (v : car S),
  seqb v s0 = true -> sp_div A v = Fail FAssert /\ sp_fill A v = Fail FAssert.
Proof. exact @sp_by_zero. Qed.
Print Assumptions C120_sparse_by_zero.

(** A negative size. *)
Theorem C120_sparse_sizes :
  forall (S : scalar) (rows cols : Z),
  rows < 0 \/ cols < 0 -> @sp_zero S rows cols = Fail FAssert.
Proof. exact @sp_sizes. Qed.
Print Assumptions C120_sparse_sizes.

(** PermuteCols with another number of columns, and one that sends a stored entry outside the matrix. *)
Theorem C120_sparse_permutation :
  forall (S : scalar) (A : csr S) (perm : list Z),
  (zlen perm <> c_cols A -> sp_permute_cols A perm = Fail FAssert) /\
  (csr_valid A -> zlen perm = c_cols A -> forall e, In e (entries A) -> ~ (0 <= zn 0 perm (ecol e) < c_cols A) ->
   sp_permute_cols A perm = Fail FAssert).
Proof. exact @sp_permutation. Qed.
Print Assumptions C120_sparse_permutation.

(** GetSubMatrix with a marker that is too short, and with a row past the end. *)
Theorem C120_sparse_submatrix :
  forall (S : scalar) (A : csr S) (rows cols marker : list Z),
  (zlen marker < c_cols A -> sp_submatrix A rows cols marker = Fail FAssert) /\
  (csr_valid A -> c_cols A <= zlen marker -> (forall c, In c cols -> 0 <= c < c_cols A) -> (forall r, In r rows -> 0 <= r) ->
   forall r, In r rows -> c_rows A <= r -> sp_submatrix A rows cols marker = Fail FAssert).
Proof. exact @sp_sub. Qed.
Print Assumptions C120_sparse_submatrix.

(** DenseMatrix: negative sizes, data that does not fill the matrix. *)
Theorem C120_dense_sizes :
  forall (S : scalar) (rows cols : Z) (data : list (car S)) (D : dense S) (v : car S),
  (rows < 0 \/ cols < 0 -> d_set_size D rows cols = Fail FAssert /\ d_set_size_val D rows cols v = Fail FAssert) /\
  (rows < 0 \/ cols < 0 \/ zlen data <> rows * cols -> d_make rows cols data = Fail FAssert).
Proof. exact @d_shapes. Qed.
Print Assumptions C120_dense_sizes.

(** Element access outside the matrix. *)
Theorem C120_dense_element :
  forall (S : scalar) (D : dense S) (i j : Z) (v : car S),
  ~ (0 <= i < d_rows D /\ 0 <= j < d_cols D) ->
  d_get D i j = Fail FAssert /\ d_set D i j v = Fail FAssert.
Proof. exact @d_element. Qed.
Print Assumptions C120_dense_element.

(** Mult and MultAT with vectors of other lengths. *)
Theorem C120_dense_vectors :
  forall (S : scalar) (D : dense S) (x out : list (car S)),
  (zlen x <> d_cols D \/ zlen out <> d_rows D -> d_mult D x out = Fail FAssert) /\
  (zlen x <> d_rows D \/ zlen out <> d_cols D -> d_multAT D x out = Fail FAssert).
Proof. exact @d_vectors. Qed.
Print Assumptions C120_dense_vectors.

(** The four products of matrices that do not fit. *)
Theorem C120_dense_products :
  forall (S : scalar) (D : dense S) (E : dense S),
  (d_cols D <> d_rows E -> d_matmul D E = Fail FAssert) /\ (d_rows D <> d_rows E -> d_matmulAT D E = Fail FAssert) /\
  (d_cols D <> d_cols E -> d_matmulBT D E = Fail FAssert) /\ (d_rows D <> d_cols E -> d_matmulABT D E = Fail FAssert).
Proof. exact @d_products. Qed.
Print Assumptions C120_dense_products.

(** GetCol, SetCol, GetRow, SetRow, GetColView outside the matrix or with a vector of another length. *)
Theorem C120_dense_lines :
  forall (S : scalar) (D : dense S) (k : Z) (v : list (car S)),
  (~ (0 <= k < d_cols D) \/ zlen v <> d_rows D -> d_get_col D k v = Fail FAssert /\ d_set_col D k v = Fail FAssert) /\
  (~ (0 <= k < d_rows D) \/ zlen v <> d_cols D -> d_get_row D k v = Fail FAssert /\ d_set_row D k v = Fail FAssert) /\
  (~ (0 <= k < d_cols D) -> d_col_view D k = Fail FAssert).
Proof. exact @d_lines. Qed.
Print Assumptions C120_dense_lines.

(** The entrywise operations on matrices of different sizes. *)
Theorem C120_dense_pairs :
  forall (S : scalar) (f : car S -> car S -> car S) (D : dense S) (E : dense S),
  d_rows D <> d_rows E \/ d_cols D <> d_cols E -> d_zip f D E = Fail FAssert.
Proof. exact @d_pairs. Qed.
Print Assumptions C120_dense_pairs.

(** GetRow(rows), AddSubMatrix, SetSubMatrix, SetSubMatrixTranspose and GetSubMatrix that do not fit. *)
Theorem C120_dense_parts :
  forall (S : scalar) (D : dense S) (B : dense S) (out : dense S) (rows cols : list Z) (si : Z) (sj : Z) (ei : Z) (ej : Z),
  (d_cols out <> d_cols D \/ d_rows out <> zlen rows -> d_get_rows D rows out = Fail FAssert) /\
  (zlen rows <> d_rows B \/ zlen cols <> d_cols B -> d_add_sub D rows cols B = Fail FAssert) /\
  (~ (0 <= si < d_rows D /\ 0 <= sj < d_cols D /\ si <= ei <= d_rows D /\ sj <= ej <= d_cols D) ->
   d_set_sub D si sj ei ej B = Fail FAssert /\ d_set_sub_T D si sj ei ej B = Fail FAssert /\ d_get_sub D si sj ei ej out = Fail FAssert).
Proof. exact @d_parts. Qed.
Print Assumptions C120_dense_parts.

(** Sum of a matrix without elements. *)
Theorem C120_dense_sum_empty :
  forall (S : scalar) (D : dense S),
  d_data D = [] -> d_sum D = Fail FAssert.
Proof. exact @d_sum_empty. Qed.
Print Assumptions C120_dense_sum_empty.

(** GetDiag of a matrix that is not square, Max and Min of no elements, division by zero. *)
Theorem C120_dense_reductions :
  forall (S : scalar) (D : dense S) (t : car S),
  (d_rows D <> d_cols D -> d_get_diag D = Fail FAssert) /\
  (zlen (d_data D) = 0 -> d_max D = Fail FAssert /\ d_min D = Fail FAssert) /\
  (seqb t s0 = true -> d_div D t = Fail FAssert).
Proof. exact @d_reductions. Qed.
Print Assumptions C120_dense_reductions.

(** InverseScaleRows and InverseScaleCols by a zero. *)
Theorem C120_dense_inverse_scale_rows_zero :
  forall (S : scalar) (D : dense S) (values : list (car S)) (i : Z),
  dense_ok D -> 0 < d_cols D -> zlen values = d_rows D -> 0 <= i < d_rows D ->
  seqb (zn s0 values i) s0 = true -> d_inv_scale_rows D values = Fail FAssert.
Proof. exact @d_inv_rows_zero. Qed.
Print Assumptions C120_dense_inverse_scale_rows_zero.

Theorem C120_dense_inverse_scale_cols_zero :
  forall (S : scalar) (D : dense S) (values : list (car S)) (j : Z),
  dense_ok D -> zlen values = d_cols D -> 0 <= j < d_cols D ->
  seqb (zn s0 values j) s0 = true -> d_inv_scale_cols D values = Fail FAssert.
Proof. exact @d_inv_cols_zero. Qed.
Print Assumptions C120_dense_inverse_scale_cols_zero.

(** CooMatrix: negative sizes. *)
Theorem C120_coo_sizes :
  forall (S : scalar) (rows cols : Z) (M : coo S),
  rows < 0 \/ cols < 0 ->
  @coo_new_size S rows cols = Fail FAssert /\ coo_set_size M rows cols = Fail FAssert.
Proof. exact @coo_sizes. Qed.
Print Assumptions C120_coo_sizes.

(** An entry at a negative place, a value that is not equal to itself, a place outside a declared size. *)
Theorem C120_coo_entry :
  forall (S : scalar) (M : coo S) (i j : Z) (v : car S),
  i < 0 \/ j < 0 \/ seqb v v = false \/ (o_set M = true /\ (Coo.o_rows M <= i \/ Coo.o_cols M <= j)) -> coo_add M i j v = Fail FAssert.
Proof. exact @coo_entry. Qed.
Print Assumptions C120_coo_entry.

(** Index lists that do not fit the values ... *)
Theorem C120_coo_blocks :
  forall (S : scalar) (M : coo S) (rows cols : list Z) (i j : Z) (f : car S -> car S) (D : dense S) (values : list (car S)),
  (zlen rows <> d_rows D \/ zlen cols <> d_cols D -> coo_add_dense M rows cols f D = Fail FAssert) /\
  (zlen rows <> zlen values -> coo_add_col M rows j f values = Fail FAssert) /\
  (zlen cols <> zlen values -> coo_add_row M i cols f values = Fail FAssert) /\
  (zlen rows <> zlen values \/ zlen cols <> zlen values -> coo_add_list M rows cols f values = Fail FAssert).
Proof. exact @coo_blocks. Qed.
Print Assumptions C120_coo_blocks.

(** ... and one bad entry in a list that does. *)
Theorem C120_coo_list_entry :
  forall (S : scalar) (M : coo S) (rows cols : list Z) (f : car S -> car S) (values : list (car S)) (k : Z),
  zlen rows = zlen values -> zlen cols = zlen values -> 0 <= k < zlen values ->
  zn 0 rows k < 0 \/ zn 0 cols k < 0 \/ seqb (f (zn s0 values k)) (f (zn s0 values k)) = false \/
    (o_set M = true /\ (Coo.o_rows M <= zn 0 rows k \/ Coo.o_cols M <= zn 0 cols k)) ->
  coo_add_list M rows cols f values = Fail FAssert.
Proof. exact @coo_list_bad. Qed.
Print Assumptions C120_coo_list_entry.

(** Permutations of another length. *)
Theorem C120_coo_permutations :
  forall (S : scalar) (M : coo S) (rp cp : list Z),
  (zlen rp <> fst (coo_find_size M) -> coo_permute_rows M rp = Fail FAssert) /\
  (zlen cp <> snd (coo_find_size M) -> coo_permute_cols M cp = Fail FAssert) /\
  (zlen rp <> fst (coo_find_size M) \/ zlen cp <> snd (coo_find_size M) -> coo_permute_rows_cols M rp cp = Fail FAssert).
Proof. exact @coo_permutations. Qed.
Print Assumptions C120_coo_permutations.

(** Mult with vectors of other lengths. *)
Theorem C120_coo_vectors :
  forall (S : scalar) (M : coo S) (x out : list (car S)),
  zlen out <> Coo.o_rows M \/ zlen x <> Coo.o_cols M -> coo_mult M x out = Fail FAssert.
Proof. exact @coo_vectors. Qed.
Print Assumptions C120_coo_vectors.

(** LilMatrix: negative sizes, bad entries, index lists and vectors that do not fit. *)
Theorem C120_lil_sizes :
  forall (S : scalar) (rows cols : Z),
  rows < 0 \/ cols < 0 -> @lil_new_size S rows cols = Fail FAssert.
Proof. exact @lil_sizes. Qed.
Print Assumptions C120_lil_sizes.

Theorem C120_lil_entry :
  forall (S : scalar) (L : lil S) (i j : Z) (v : car S),
  i < 0 \/ j < 0 \/ seqb v v = false \/ (l_set L = true /\ (l_rows L <= i \/ l_cols L <= j)) -> lil_add L i j v = Fail FAssert.
Proof. exact @lil_entry. Qed.
Print Assumptions C120_lil_entry.

Theorem C120_lil_blocks :
  forall (S : scalar) (L : lil S) (rows cols : list Z) (D : dense S) (x out : list (car S)),
  (zlen rows <> d_rows D \/ zlen cols <> d_cols D -> lil_add_dense L rows cols D = Fail FAssert) /\
  (zlen out <> fst (lil_find_size L) \/ zlen x <> snd (lil_find_size L) -> lil_mult L x out = Fail FAssert).
Proof. exact @lil_blocks. Qed.
Print Assumptions C120_lil_blocks.

(** BlockMatrix: a block past the end, a block of another size, vectors of other lengths. *)
Theorem C120_block_access :
  forall (S : scalar) (M : bmat S) (i j : Z) (B : csr S),
  zlen (bm_ro M) - 1 <= i \/ zlen (bm_co M) - 1 <= j ->
  bm_get_block M i j = Fail FAssert /\ bm_set_block M i j B = Fail FAssert.
Proof. exact @bm_access. Qed.
Print Assumptions C120_block_access.

Theorem C120_block_misfit :
  forall (S : scalar) (M : bmat S) (i j : Z) (B : csr S),
  0 <= i < zlen (bm_ro M) - 1 -> 0 <= j < zlen (bm_co M) - 1 ->
  c_rows B <> zn 0 (bm_ro M) (i + 1) - zn 0 (bm_ro M) i \/ c_cols B <> zn 0 (bm_co M) (j + 1) - zn 0 (bm_co M) j ->
  bm_set_block M i j B = Fail FAssert.
Proof. exact @bm_misfit. Qed.
Print Assumptions C120_block_misfit.

Theorem C120_block_vectors :
  forall (S : scalar) (M : bmat S) (x out : list (car S)),
  (zlen x <> bm_cols M \/ zlen out <> bm_rows M -> bm_mult M x out = Fail FAssert) /\
  (zlen x <> bm_rows M \/ zlen out <> bm_cols M -> bm_multAT M x out = Fail FAssert).
Proof. exact @bm_vectors. Qed.
Print Assumptions C120_block_vectors.

(** BlockOperator: the same. *)
Theorem C120_operator_access :
  forall (S : scalar) (W : Type) (B : bop S W) (i j : Z) (o : op S W),
  zlen (bo_ro B) - 1 <= i \/ zlen (bo_co B) - 1 <= j ->
  bo_get_block B i j = Fail FAssert /\ bo_set_block B i j o = Fail FAssert.
Proof. exact @bo_access. Qed.
Print Assumptions C120_operator_access.

Theorem C120_operator_misfit :
  forall (S : scalar) (W : Type) (B : bop S W) (i j : Z) (o : op S W),
  0 <= i < zlen (bo_ro B) - 1 -> 0 <= j < zlen (bo_co B) - 1 ->
  o_rows o <> zn 0 (bo_ro B) (i + 1) - zn 0 (bo_ro B) i \/ o_cols o <> zn 0 (bo_co B) (j + 1) - zn 0 (bo_co B) j ->
  bo_set_block B i j o = Fail FAssert.
Proof. exact @bo_misfit. Qed.
Print Assumptions C120_operator_misfit.

Theorem C120_operator_vectors :
  forall (S : scalar) (W : Type) (B : bop S W) (w : W) (u : bbuf S) (x out : list (car S)),
  (zlen x <> bo_cols B \/ zlen out <> bo_rows B -> bo_mult B w u x out = Fail FAssert) /\
  (zlen x <> bo_rows B \/ zlen out <> bo_cols B -> bo_multAT B w u x out = Fail FAssert).
Proof. exact @bo_vectors. Qed.
Print Assumptions C120_operator_vectors.

(** The entrywise operations on views of different lengths ... *)
Theorem C120_vector_lengths :
  forall (S : scalar) (h : heap S) (alpha beta gamma : car S) (x y z : view),
  (v_len x <> v_len y -> v_div_view h x y = Fail FAssert /\ v_mul_view h x y = Fail FAssert /\
     v_add_view h x y = Fail FAssert /\ v_sub_view h x y = Fail FAssert) /\
  (v_len y <> v_len x \/ v_len z <> v_len x -> v_axpby h alpha x beta y gamma z = Fail FAssert).
Proof. exact @v_lengths. Qed.
Print Assumptions C120_vector_lengths.

(** ... assignment, Add, Sub, Set and the inner product ... *)
Theorem C120_vector_pairs :
  forall (S : scalar) (h : heap S) (alpha : car S) (v w : view),
  v_len v <> v_len w ->
  v_assign h v w = Fail FAssert /\ v_add_scaled h v alpha w = Fail FAssert /\ v_sub_scaled h v alpha w = Fail FAssert /\
  v_set_scaled h v alpha w = Fail FAssert /\ v_inner h v w = Fail FAssert.
Proof. exact @v_pairs. Qed.
Print Assumptions C120_vector_pairs.

(** ... and dividing an element by zero (the views may be the same or overlap, as long as no element is
    overwritten before it is read). *)
Theorem C120_vector_by_zero :
  forall (S : scalar) (h : heap S) (z x : view) (k : Z),
  view_ok h z -> view_ok h x -> v_len x = v_len z -> ~ reads_behind z x ->
  0 <= k < v_len x -> seqb (vat h x k) s0 = true -> v_div_view h z x = Fail FAssert.
Proof. exact @v_div_zero. Qed.
Print Assumptions C120_vector_by_zero.

(** Max, Min, AbsMax and AbsMin of a vector without elements. *)
Theorem C120_vector_empty :
  forall (S : scalar) (h : heap S) (v : view),
  v_len v <= 0 ->
  v_max h v = Fail FAssert /\ v_min h v = Fail FAssert /\ v_abs_max h v = Fail FAssert /\ v_abs_min h v = Fail FAssert.
Proof. exact @v_empty. Qed.
Print Assumptions C120_vector_empty.

(** Element access past the end, views of negative size or of no memory, division by the scalar zero. *)
Theorem C120_vector_element :
  forall (S : scalar) (h : heap S) (v : view) (i b off size : Z) (t : car S),
  (v_len v <= i -> v_get h v i = Fail FAssert /\ v_set h v i t = Fail FAssert) /\
  (size < 0 \/ (0 < size /\ b = -1) -> v_make b off size = Fail FAssert) /\
  (seqb t s0 = true -> v_div_scalar h v t = Fail FAssert).
Proof. exact @v_element. Qed.
Print Assumptions C120_vector_element.

(** CG: a negative limit of passes, an operator that is not square, vectors of another length ... *)
Theorem C120_cg :
  forall (S : scalar) (W : Type) (A : op S W) (dot : list (car S) -> list (car S) -> res (car S)) (par : sparams S) (w : W) (b x : list (car S)),
  0 <= o_rows A ->
  sp_max par < 0 \/ o_rows A <> o_cols A \/ zlen x <> o_rows A \/ zlen b <> o_rows A ->
  pcg_run A None dot par w b x = Fail FAssert.
Proof. exact @cg_rejects. Qed.
Print Assumptions C120_cg.

(** ... PCG: or a preconditioner of another size ... *)
Theorem C120_pcg :
  forall (S : scalar) (W : Type) (A M : op S W) (dot : list (car S) -> list (car S) -> res (car S)) (par : sparams S) (w : W) (b x : list (car S)),
  0 <= o_rows A ->
  sp_max par < 0 \/ o_rows A <> o_cols A \/ o_cols M <> o_rows A \/ o_rows M <> o_cols M \/ zlen x <> o_rows A \/ zlen b <> o_rows A ->
  pcg_run A (Some M) dot par w b x = Fail FAssert.
Proof. exact @pcg_rejects. Qed.
Print Assumptions C120_pcg.

(** ... MINRES ... *)
Theorem C120_minres :
  forall (S : scalar) (W : Type) (root : car S -> car S) (A : op S W) (dot : list (car S) -> list (car S) -> res (car S)) (par : sparams S) (w : W) (b x : list (car S)),
  0 <= o_rows A ->
  sp_max par < 0 \/ o_rows A <> o_cols A \/ zlen x <> o_rows A \/ zlen b <> o_rows A ->
  minres_run root A dot par w b x = Fail FAssert.
Proof. exact @minres_rejects. Qed.
Print Assumptions C120_minres.

(** ... and PMINRES. *)
Theorem C120_pminres :
  forall (S : scalar) (W : Type) (root : car S -> car S) (A M : op S W) (dot : list (car S) -> list (car S) -> res (car S)) (par : sparams S) (w : W) (b x : list (car S)),
  0 <= o_rows A ->
  sp_max par < 0 \/ o_rows A <> o_cols A \/ o_cols M <> o_rows A \/ o_rows M <> o_cols M \/ zlen x <> o_rows A \/ zlen b <> o_rows A ->
  pminres_run root A M dot par w b x = Fail FAssert.
Proof. exact @pminres_rejects. Qed.
Print Assumptions C120_pminres.

(** SparseSolver of a matrix that is not square ... *)
Theorem C120_factorize :
  forall (S : scalar) (srt : sorter) (U : @umfpack S) (A : csr S) (h : @SparseSolve.heap S),
  c_rows A <> c_cols A -> ss_make srt U A h = Fail FAssert.
Proof. exact @ss_square. Qed.
Print Assumptions C120_factorize.

(** ... and solving with vectors of other lengths. *)
Theorem C120_solve_vectors :
  forall (S : scalar) (U : @umfpack S) (s : @solver S) (h : @SparseSolve.heap S) (x out : list (car S)),
  (zlen x <> c_cols (ss_A s) \/ zlen out <> c_rows (ss_A s) -> ss_mult U s h x out = Fail FAssert) /\
  (zlen x <> c_rows (ss_A s) \/ zlen out <> c_cols (ss_A s) -> ss_multAT U s h x out = Fail FAssert).
Proof. exact @ss_vectors. Qed.
Print Assumptions C120_solve_vectors.

(** ParAdd of matrices of different sizes or row starts, or with a marker that is too short. *)
Theorem C120_par_add :
  forall (S : scalar) (srt : sorter) (reorder : csr S -> csr S) (alpha beta : car S) (A B : parmat S) (marker : list Z),
  pm_rows A <> pm_rows B \/ pm_cols A <> pm_cols B \/ pm_grows A <> pm_grows B \/ pm_gcols A <> pm_gcols B \/
    pm_rs A <> pm_rs B \/ zlen marker < pm_gcols A ->
  par_add_marker srt reorder alpha A beta B marker = Fail FAssert.
Proof. exact @pm_sum. Qed.
Print Assumptions C120_par_add.

Example C120_instance :
  let W := @CSR Zs 2 3 [0; 1; 2] [2; 0] [5; 7] in
  let D := @Dense Zs 2 2 [1; 2; 3; 4] in
  let M := @Coo Zs 2 3 true [] in
  csr_valid W /\ csr_valid exS /\
  sp_get_diag W = Fail FAssert /\ sp_mult W [1; 2] [0; 0] = Fail FAssert /\
  sp_inv_scale_rows exS [1; 0; 2] = Fail FAssert /\ In (0, 1, 1) (entries exS) /\ sp_inv_scale_cols exS [1; 0; 2] = Fail FAssert /\
  sp_inv_scale_cols W [1; 0; 7] = Ok (@CSR Zs 2 3 [0; 1; 2] [2; 0] [0; 7]) /\
  sp_elim_row_col W 2 = Fail FAssert /\ sp_permute_cols exS [0; 3; 1] = Fail FAssert /\
  sp_submatrix exS [0; 3] [1] [-1; -1; -1] = Fail FAssert /\
  d_set D 2 0 9 = Fail FAssert /\ d_matmulBT D (@Dense Zs 2 1 [1; 2]) = Fail FAssert /\
  coo_add_list M [0; 2] [0; 1] (fun v => v) [4; 4] = Fail FAssert /\
  bm_set_block (@BMat Zs 2 2 [0; 2] [0; 2] [[sp_empty]]) 0 0 exS = Fail FAssert /\
  d_inv_scale_rows D [1; 0] = Fail FAssert /\ d_inv_scale_cols D [1; 0] = Fail FAssert /\
  par_add_marker insertion_sort no_reorder (1 : car Zs) exP0 (1 : car Zs) exP1 [-1; -1; -1; -1] = Fail FAssert /\
  (let I : op Zs unit := Op unit 2 2 (fun w x _ => Ok (w, x)) (fun w x _ => Ok (w, x)) in
   let dot (x y : list (car Zs)) : res (car Zs) := Ok (fold_right (fun p s => fst p * snd p + s) 0 (combine x y)) in
   (exists r, pcg_run I None dot (@SParams Zs 5 0 1 0) tt [1; 2] [1; 2] = Ok r) /\
   pcg_run I None dot (@SParams Zs 5 0 0 0) tt [1; 2] [0] = Fail FAssert /\
   pcg_run I None dot (@SParams Zs (-1) 0 0 0) tt [1; 2] [0; 0] = Fail FAssert).
Proof.
  cbv zeta. split; [apply csr_validb_ok; reflexivity|]. split; [exact exS_valid|].
  repeat split; try (vm_compute; reflexivity); [vm_compute; auto|].
  eexists. vm_compute. reflexivity.
Qed.

Example C120_views_instance :
  let h : heap Zs := [Some (@Vec.Block Zs [6; 2; 0; 4] 4)] in
  let z := View 0 0 3 in let x := View 0 1 3 in
  view_ok h z /\ view_ok h x /\ ~ reads_behind z x /\ vat h x 1 = 0 /\
  v_div_view h z x = Fail FAssert /\ v_inner h z (View 0 0 2) = Fail FAssert /\ v_max h (View 0 3 0) = Fail FAssert.
Proof.
  cbv zeta. split; [split; [cbn; lia|right; eexists; split; [reflexivity|unfold zlen; cbn; lia]]|].
  split; [split; [cbn; lia|right; eexists; split; [reflexivity|unfold zlen; cbn; lia]]|].
  split; [intros (_ & H); cbn in H; lia|]. repeat split; vm_compute; reflexivity.
Qed.

(** MakeAdjacencyInfo of a matrix that is not square; Partition of such a matrix, into no parts or into more parts than rows. *)
Theorem C120_adjacency :
  forall (S : scalar) (to_idx : car S -> Z) (A : csr S) (weighted : bool),
  c_rows A <> c_cols A -> make_adjacency to_idx A weighted = Fail FAssert.
Proof. exact graph_square. Qed.
Print Assumptions C120_adjacency.

Theorem C120_partition :
  forall (S : scalar) (to_idx : car S -> Z) (call : metis (S := S)) (A : csr S) (num_parts : Z) (unbalance : car S) (contig weighted : bool),
  num_parts < 1 \/ c_rows A < num_parts \/ c_rows A <> c_cols A ->
  partition to_idx call A num_parts unbalance contig weighted = Fail FAssert.
Proof. exact partition_rejects. Qed.
Print Assumptions C120_partition.

(** Two parts of a matrix with three rows are fine, four are not; nor is a wide matrix. *)
Example C120_partition_instance :
  let call : metis (S := Zs) := fun n _ _ _ _ _ _ => map (fun i => i mod 2) (zrange 0 n) in
  let W : csr Zs := @CSR Zs 2 3 [0; 1; 2] [2; 0] [5; 7] in
  partition (S := Zs) (fun x => x) call exS 2 (1 : car Zs) false true = Ok [0; 1; 0] /\
  partition (S := Zs) (fun x => x) call exS 4 (1 : car Zs) false true = Fail FAssert /\
  partition (S := Zs) (fun x => x) call W 2 (1 : car Zs) false true = Fail FAssert /\
  make_adjacency (S := Zs) (fun x => x) W true = Fail FAssert.
Proof. repeat split; vm_compute; reflexivity. Qed.
