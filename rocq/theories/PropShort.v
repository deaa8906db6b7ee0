(** C101: the short forms of the interface do what the long forms do. *)

From Coq Require Import ZArith QArith.Qcanon List Lia String SpecFloat.
From Verif Require Import Base Scalar Spec Dense Sparse SparseMore Coo CooSpec Lil LilSpec Double Text Print Vec Block BlockSpec Eigen EigenSpec EigenProofs
  SortProofs Par ParSpec ParExamples Examples ShortSpec ShortProofs ShortMore.
Import ListNotations.
Open Scope list_scope.
Open Scope Z_scope.

(** GetIndices(row), GetData(row) and RowSize(row) return what is stored in the row ... *)
Theorem C101_row_access :
  forall (S : scalar) (A : csr S) (i : Z), csr_valid A -> 0 <= i < c_rows A ->
  sp_get_indices A i = Ok (map ecol (stored_in_row A i)) /\
  sp_get_data A i = Ok (map evalue (stored_in_row A i)) /\
  sp_row_size A i = Ok (zlen (stored_in_row A i)).
Proof. exact @row_access. Qed.
Print Assumptions C101_row_access.

(** ... all rows together are the matrix ... *)
Theorem C101_rows_are_all :
  forall (S : scalar) (A : csr S), csr_valid A -> flat_map (stored_in_row A) (zrange 0 (c_rows A)) = entries A.
Proof. exact @rows_are_all. Qed.
Print Assumptions C101_rows_are_all.

(** ... and row numbers outside the matrix are rejected. *)
Theorem C101_row_access_outside :
  forall (S : scalar) (A : csr S) (i : Z), i < 0 \/ c_rows A <= i ->
  sp_get_indices A i = Fail FAssert /\ sp_get_data A i = Fail FAssert /\ sp_row_size A i = Fail FAssert.
Proof. exact @row_access_outside. Qed.
Print Assumptions C101_row_access_outside.

(** ScaleRows(D) is D A and ScaleCols(D) is A D for a matrix D that stores its diagonal and nothing
    else (missing: other matrices, below). *)
Theorem C101_scale_rows_by_matrix_partial :
  forall (S : scalar), ring_laws S -> forall A D : csr S, csr_valid A -> stored_diagonal D (c_rows A) ->
  exists B, sp_scale_rows_mat A D = Ok B /\ csr_valid B /\ same_pattern A B /\
  forall i j, csr_mat B i j = mat_mul (csr_mat D) (csr_mat A) (c_rows A) i j.
Proof. exact @scale_rows_by. Qed.
Print Assumptions C101_scale_rows_by_matrix_partial.

Theorem C101_scale_cols_by_matrix_partial :
  forall (S : scalar), ring_laws S -> forall A D : csr S, csr_valid A -> stored_diagonal D (c_cols A) ->
  exists B, sp_scale_cols_mat A D = Ok B /\ csr_valid B /\ same_pattern A B /\
  forall i j, csr_mat B i j = mat_mul (csr_mat A) (csr_mat D) (c_cols A) i j.
Proof. exact @scale_cols_by. Qed.
Print Assumptions C101_scale_cols_by_matrix_partial.

(** InverseScaleRows(D) gives the B with D B = A, InverseScaleCols(D) the B with B D = A. *)
Theorem C101_inverse_scale_rows_by_matrix_partial :
  forall (S : scalar), field_laws S -> eqb_laws S -> forall A D : csr S, csr_valid A ->
  stored_diagonal D (c_rows A) -> invertible_diagonal D (c_rows A) ->
  exists B, sp_inv_scale_rows_mat A D = Ok B /\ csr_valid B /\ same_pattern A B /\
  forall i j, 0 <= i < c_rows A -> mat_mul (csr_mat D) (csr_mat B) (c_rows A) i j = csr_mat A i j.
Proof. exact @inv_scale_rows_by. Qed.
Print Assumptions C101_inverse_scale_rows_by_matrix_partial.

Theorem C101_inverse_scale_cols_by_matrix_partial :
  forall (S : scalar), field_laws S -> eqb_laws S -> forall A D : csr S, csr_valid A ->
  stored_diagonal D (c_cols A) -> invertible_diagonal D (c_cols A) ->
  exists B, sp_inv_scale_cols_mat A D = Ok B /\ csr_valid B /\ same_pattern A B /\
  forall i j, 0 <= j < c_cols A -> mat_mul (csr_mat B) (csr_mat D) (c_cols A) i j = csr_mat A i j.
Proof. exact @inv_scale_cols_by. Qed.
Print Assumptions C101_inverse_scale_cols_by_matrix_partial.

(** A valid square matrix with as many entries as rows is accepted whatever its pattern: scaling by
    a permutation matrix leaves the matrix as it is. *)
Theorem C101_scale_by_other_matrix_refuted :
  exists A D : csr Zs, csr_valid A /\ csr_valid D /\ c_rows D = c_rows A /\ c_cols D = c_rows A /\
    sp_scale_rows_mat A D = Ok A /\ csr_mat A 0 0 <> mat_mul (csr_mat D) (csr_mat A) (c_rows A) 0 0.
Proof.
  exists (@CSR Zs 2 1 [0; 1; 2] [0; 0] [5; 7]), (@CSR Zs 2 2 [0; 1; 2] [1; 0] [1; 1]).
  split; [apply csr_validb_ok; reflexivity|]. split; [apply csr_validb_ok; reflexivity|].
  split; [reflexivity|]. split; [reflexivity|]. split; [reflexivity|]. vm_compute. discriminate.
Qed.
Print Assumptions C101_scale_by_other_matrix_refuted.

(** The same on a rank of a distributed matrix: the factor of a global row is the diagonal element
    of its local row. *)
Theorem C101_distributed_scale_rows_by_matrix_partial :
  forall (S : scalar), ring_laws S -> forall (A : parmat S) (D : csr S), pm_valid A -> stored_diagonal D (pm_rows A) ->
  pm_updates (pm_scale_rows_mat A D) A (fun i _ a => smul a (csr_mat D (i - row0 A) (i - row0 A))).
Proof. exact @pm_scale_rows_by. Qed.
Print Assumptions C101_distributed_scale_rows_by_matrix_partial.

Theorem C101_distributed_inverse_scale_rows_by_matrix_partial :
  forall (S : scalar), ring_laws S -> forall (A : parmat S) (D : csr S), pm_valid A ->
  stored_diagonal D (pm_rows A) -> invertible_diagonal D (pm_rows A) ->
  pm_updates (pm_inv_scale_rows_mat A D) A (fun i _ a => sdiv a (csr_mat D (i - row0 A) (i - row0 A))).
Proof. exact @pm_inv_scale_rows_by. Qed.
Print Assumptions C101_distributed_inverse_scale_rows_by_matrix_partial.

(** Products that allocate their result: SparseMatrix ... *)
Theorem C101_sparse_products :
  forall (S : scalar), ring_laws S -> forall A : csr S, csr_valid A ->
  (forall x, zlen x = c_cols A -> gives_product (sp_mult_new A x) (c_rows A) (c_cols A) (csr_mat A) x) /\
  (forall x, zlen x = c_rows A -> gives_product (sp_multAT_new A x) (c_cols A) (c_rows A) (mat_T (csr_mat A)) x) /\
  (forall x, zlen x <> c_cols A -> sp_mult_new A x = Fail FAssert) /\
  (forall x, zlen x <> c_rows A -> sp_multAT_new A x = Fail FAssert).
Proof. exact @sp_new_products. Qed.
Print Assumptions C101_sparse_products.

(** ... CooMatrix with a declared size (missing: MultAT of rectangular matrices, always rejected) ... *)
Theorem C101_coo_products_partial :
  forall (S : scalar), ring_laws S -> forall M : coo S, coo_ok M -> Coo.o_set M = true ->
  (forall x, zlen x = Coo.o_cols M -> gives_product (coo_mult_new M x) (Coo.o_rows M) (Coo.o_cols M) (mat_of (Coo.o_entries M)) x) /\
  (forall x, zlen x = Coo.o_rows M -> Coo.o_rows M = Coo.o_cols M ->
     gives_product (coo_multAT_new M x) (Coo.o_cols M) (Coo.o_rows M) (mat_T (mat_of (Coo.o_entries M))) x) /\
  (forall x, zlen x = Coo.o_rows M -> Coo.o_rows M <> Coo.o_cols M -> coo_multAT_new M x = Fail FAssert).
Proof. exact @coo_new_products. Qed.
Print Assumptions C101_coo_products_partial.

(** ... and LilMatrix, with ToDense() (the same missing). *)
Theorem C101_lil_products_partial :
  forall (S : scalar), ring_laws S -> forall M : lil S, lil_wf M ->
  let r := fst (lil_find_size M) in let c := snd (lil_find_size M) in
  d_gives (lil_to_dense M) r c (mat_of (lil_entries M)) /\
  (forall x, zlen x = c -> gives_product (lil_mult_new M x) r c (mat_of (lil_entries M)) x) /\
  (forall x, zlen x = r -> r = c -> gives_product (lil_multAT_new M x) c r (mat_T (mat_of (lil_entries M))) x) /\
  (forall x, zlen x = r -> r <> c -> lil_multAT_new M x = Fail FAssert).
Proof. exact @lil_new_products. Qed.
Print Assumptions C101_lil_products_partial.

(** PrintDense of a sparse matrix depends on nothing but what stands at each position ... *)
Theorem C101_print_dense :
  forall (label : list byte) (A B : csr SFs), csr_valid A -> csr_valid B -> c_rows A = c_rows B -> c_cols A = c_cols B ->
  (forall i j, 0 <= i < c_rows A -> 0 <= j < c_cols A -> shown A i j = shown B i j) ->
  sp_print_dense label A = sp_print_dense label B.
Proof. exact print_dense_same. Qed.
Print Assumptions C101_print_dense.

(** ... tells it, to four decimals ... *)
Theorem C101_print_dense_determines :
  forall (label : list byte) (A B : csr SFs), csr_valid A -> csr_valid B -> sp_print_dense label A = sp_print_dense label B ->
  c_rows A = c_rows B /\ (0 < c_rows A -> c_cols A = c_cols B) /\
  forall i j, 0 <= i < c_rows A -> 0 <= j < c_cols A -> fmt_fixed 4 (shown A i j) = fmt_fixed 4 (shown B i j).
Proof. exact print_dense_determines. Qed.
Print Assumptions C101_print_dense_determines.

(** ... and is the text of the dense matrix; it never fails. *)
Theorem C101_print_dense_text :
  forall (label : list byte) (A : csr SFs), csr_valid A ->
  exists D, sp_print_dense label A = d_print label 8 4 D /\ dense_ok D /\ d_rows D = c_rows A /\ d_cols D = c_cols A /\
    (forall i j, 0 <= i < c_rows A -> 0 <= j < c_cols A -> dense_mat D i j = shown A i j) /\
    exists text, d_print label 8 4 D = Ok text.
Proof. exact print_dense_text. Qed.
Print Assumptions C101_print_dense_text.

(** PrintDense of a block matrix prints the combined matrix. *)
Theorem C101_block_print_dense :
  forall (label : list byte) (M : bmat SFs), bm_ok M ->
  exists C, bm_combine M = Ok C /\ csr_valid C /\ bm_print_dense label M = sp_print_dense label C.
Proof. exact bm_print_dense_text. Qed.
Print Assumptions C101_block_print_dense.

(** EigenSolver::Solve of a sparse matrix is Solve of the dense matrix with the same elements; the
    form that returns the pair agrees with the one that fills a pair. *)
Theorem C101_eigen_sparse :
  forall (S : scalar) (L : lapack (S := S)) s (A : csr S) rel mx pr, csr_valid A ->
  exists D, dense_ok D /\ d_rows D = c_rows A /\ d_cols D = c_cols A /\
    (forall i j, 0 <= i < c_rows A -> 0 <= j < c_cols A -> dense_mat D i j = shown A i j) /\
    solve_sparse L s A rel mx pr = solve L s D rel mx pr.
Proof. exact (fun S => @solve_sparse_is S). Qed.
Print Assumptions C101_eigen_sparse.

Theorem C101_eigen_new :
  forall (S : scalar) (L : lapack (S := S)) s (D : dense S) rel mx pr, reachable L s -> dense_ok D -> d_cols D = d_rows D ->
  match solve_new L s D rel mx with
  | Ok (_, r) => exists s', solve L s D rel mx pr = Ok (s', r)
  | Fail x => solve L s D rel mx pr = Fail x
  end.
Proof. exact (fun S => @solve_new_is S). Qed.
Print Assumptions C101_eigen_new.

(** One offset list makes a square block matrix without content, or a block operator without
    operators. *)
Theorem C101_square_block_matrix :
  forall (S : scalar) (offs : list Z), offsets_ok offs ->
  exists M, bm_new_square (S := S) offs = Ok M /\ bm_ok M /\ bm_rows M = total offs /\ bm_cols M = total offs /\ bm_ro M = offs /\ bm_co M = offs /\
    forall i j, 0 <= i < nblocks offs -> 0 <= j < nblocks offs -> bm_get_block M i j = Ok sp_empty.
Proof. exact @bm_new_square_ok. Qed.
Print Assumptions C101_square_block_matrix.

Theorem C101_square_block_operator :
  forall (S : scalar) (W : Type) (offs : list Z), offsets_ok offs ->
  exists B u, bo_new_square (S := S) W offs = Ok (B, u) /\ bo_ok B /\ bo_rows B = total offs /\ bo_cols B = total offs /\ bo_ro B = offs /\ bo_co B = offs /\
    forall i j, 0 <= i < nblocks offs -> 0 <= j < nblocks offs -> bo_get_block B i j = Ok None.
Proof. exact (fun S W => @bo_new_square_ok S W). Qed.
Print Assumptions C101_square_block_operator.

(** GetBlock of a block operator returns what SetBlock put there. *)
Theorem C101_operator_block_read_back :
  forall (S : scalar) (W : Type) (B B' : bop S W) (i j : Z) (o : op S W), bo_ok B -> bo_set_block B i j o = Ok B' ->
  bo_ok B' /\ bo_rows B' = bo_rows B /\ bo_cols B' = bo_cols B /\ bo_ro B' = bo_ro B /\ bo_co B' = bo_co B /\ bo_get_block B' i j = Ok (Some o) /\
  forall a b, 0 <= a < nblocks (bo_ro B) -> 0 <= b < nblocks (bo_co B) -> (a, b) <> (i, j) -> bo_get_block B' a b = bo_get_block B a b.
Proof. exact (fun S W => @bo_read_back S W). Qed.
Print Assumptions C101_operator_block_read_back.

Theorem C101_operator_block_outside :
  forall (S : scalar) (W : Type) (B : bop S W) (i j : Z), nblocks (bo_ro B) <= i \/ nblocks (bo_co B) <= j -> bo_get_block B i j = Fail FAssert.
Proof. exact (fun S W => @bo_outside S W). Qed.
Print Assumptions C101_operator_block_outside.

(** Moving a block matrix: the new one is the old one; the old one acts like a default constructed
    one ... *)
Theorem C101_block_matrix_moved_partial :
  forall (S : scalar) (M : bmat S), fst (bm_move M) = M /\
  bm_ok (bm_empty (S := S)) /\
  bm_combine (snd (bm_move M)) = bm_combine bm_empty /\
  (forall x out, bm_mult (snd (bm_move M)) x out = bm_mult bm_empty x out) /\
  (forall x out, bm_multAT (snd (bm_move M)) x out = bm_multAT bm_empty x out).
Proof. exact @bm_moved_from. Qed.
Print Assumptions C101_block_matrix_moved_partial.

(** ... except for Transpose, which reads past the end of its offsets, now empty. *)
Theorem C101_transpose_moved_from_refuted :
  forall (S : scalar) (M : bmat S),
  bm_transpose (snd (bm_move M)) = Fail FUB /\ exists N, bm_transpose (bm_empty (S := S)) = Ok N.
Proof. exact @bm_moved_transpose. Qed.
Print Assumptions C101_transpose_moved_from_refuted.

(** swap exchanges two block matrices, and twice is nothing. *)
Theorem C101_block_matrix_swap :
  forall (S : scalar) (M N : bmat S), bm_swap M N = (N, M) /\ bm_swap (fst (bm_swap M N)) (snd (bm_swap M N)) = (M, N).
Proof. exact @bm_swapped. Qed.
Print Assumptions C101_block_matrix_swap.

(** An operator that does not provide MultAT throws from every form of it. *)
Theorem C101_no_transpose :
  forall (S : scalar) (W : Type) (o : op S W) (w : W) (x out : list (car S)),
  0 <= o_cols o -> o_multAT o = op_no_multAT ->
  o_multAT o w x out = Fail FThrow /\ op_multAT_vec o w x out = Fail FThrow /\ op_multAT_new o w x = Fail FThrow.
Proof. exact (fun S W => @no_transpose S W). Qed.
Print Assumptions C101_no_transpose.

(** ParSub with the caller's marker represents alpha A - beta B, under the conditions of C58. *)
Theorem C101_distributed_sub_partial :
  forall (S : scalar), eqb_laws S -> ring_laws S -> forall srt : sorter, sorts srt -> forall reorder, reorders reorder ->
  forall (alpha : car S) (A : parmat S) (beta : car S) (B : parmat S) (marker : list Z),
  pm_valid A -> pm_valid B -> same_layout A B -> pm_gcols A <= zlen marker ->
  (alpha = s1 \/ entries (pm_offd A) = []) -> (forall g, offd_cols B g -> offd_cols A g) ->
  exists C marker', par_sub_marker srt reorder alpha A beta B marker = Ok (C, marker') /\ pm_valid C /\ same_layout A C /\
    marker' = map (fun _ => -1) marker /\
    forall i j, pm_mat C i j = ssub (smul alpha (pm_mat A i j)) (smul beta (pm_mat B i j)).
Proof. exact @par_sub_marker_sum. Qed.
Print Assumptions C101_distributed_sub_partial.

Definition exD4 : csr Zs := @CSR Zs 4 4 [0; 1; 2; 3; 4] [0; 1; 2; 3] [2; 3; 5; 7].

Example C101_instance :
  csr_valid exA /\ sp_get_indices exA 2 = Ok [1; 1] /\ sp_get_data exA 2 = Ok [3; 4] /\ sp_row_size exA 2 = Ok 2 /\ sp_row_size exA 1 = Ok 0 /\
  sp_get_data exA 4 = Fail FAssert /\
  stored_diagonal exD4 (c_rows exA) /\ invertible_diagonal exD4 (c_rows exA) /\
  sp_scale_rows_mat exA exD4 = Ok (@CSR Zs 4 3 [0; 2; 2; 4; 6] [2; 0; 1; 1; 0; 2] [4; 2; 15; 20; 35; 42]) /\
  sp_multAT_new exA [1; 10; 100; 1000] = Ok [5001; 700; 6002] /\
  pm_valid exP1 /\ stored_diagonal (@CSR Zs 2 2 [0; 1; 2] [0; 1] [10; 100]) (pm_rows exP1) /\
  offsets_ok [0; 2; 2; 5] /\ total [0; 2; 2; 5] = 5.
Proof.
  split; [exact exA_valid|]. do 5 (split; [vm_compute; reflexivity|]).
  split; [split; [apply csr_validb_ok; reflexivity|split; [reflexivity|split; reflexivity]]|].
  split.
  { intros i Hi. change (c_rows exA) with 4 in Hi. assert (C : i = 0 \/ i = 1 \/ i = 2 \/ i = 3) by lia. destruct C as [->|[->|[->| ->]]]; reflexivity. }
  do 2 (split; [vm_compute; reflexivity|]). split; [exact exP1_valid|].
  split; [split; [apply csr_validb_ok; reflexivity|split; [reflexivity|split; reflexivity]]|].
  split; [|reflexivity]. split; [change (1 <= 4); lia|reflexivity|].
  intros i Hi. change (nblocks [0; 2; 2; 5]) with 3 in Hi. assert (C : i = 0 \/ i = 1 \/ i = 2) by lia. destruct C as [->|[->| ->]]; vm_compute; discriminate.
Qed.
