(** Properties C01, C02, C03, C04, C21 (sparse part): products and transposition of
    SparseMatrix. *)

From Coq Require Import ZArith List Permutation.
From Verif Require Import Base Scalar Spec Dense Sparse SparseProofs TransposeProofs ProductProofs SumFacts Examples.
Import ListNotations.
Open Scope Z_scope.

(** C01: A.Mult(x) is memory safe and returns A x, for exact arithmetic. *)
Theorem C01_mult_is_matrix_vector_product :
  forall (S : scalar), ring_laws S ->
  forall (A : csr S) (x out : list (car S)),
  csr_valid A -> zlen x = c_cols A -> zlen out = c_rows A ->
  exists y, sp_mult A x out = Ok y /\ zlen y = c_rows A /\
    forall i, 0 <= i < c_rows A -> vec_of y i = mat_vec (csr_mat A) (c_cols A) (vec_of x) i.
Proof. exact @sp_mult_spec. Qed.
Print Assumptions C01_mult_is_matrix_vector_product.

(** C01 without any law (IEEE arithmetic included): entry i is 0 + v1*x[c1] + v2*x[c2]
    + ... over the stored entries of row i, added left to right. *)
Theorem C01_mult_exact_order :
  forall (S : scalar) (A : csr S) (x out : list (car S)),
  csr_valid A -> zlen x = c_cols A -> zlen out = c_rows A ->
  sp_mult A x out =
  Ok (map (fun i => fold_left (fun s e => sadd s (smul (evalue e) (vec_of x (ecol e)))) (row_entries A i) s0)
          (zrange 0 (c_rows A))).
Proof. exact @sp_mult_exact. Qed.
Print Assumptions C01_mult_exact_order.

(** C01: vectors of the wrong size are rejected before any array is touched. *)
Theorem C01_mult_rejects_wrong_sizes :
  forall (S : scalar) (A : csr S) (x out : list (car S)),
  zlen x <> c_cols A \/ zlen out <> c_rows A -> sp_mult A x out = Fail FAssert.
Proof. exact @sp_mult_size. Qed.
Print Assumptions C01_mult_rejects_wrong_sizes.

Example C01_instance :
  csr_valid exA /\ sp_mult exA [1; 10; 100] [9; 9; 9; 9] = Ok [201; 0; 70; 605].
Proof. split; [exact exA_valid|vm_compute; reflexivity]. Qed.

(** C02: A.MultAT(x) is memory safe and returns A^T x. *)
Theorem C02_multAT_is_transpose_product :
  forall (S : scalar), ring_laws S ->
  forall (A : csr S) (x out : list (car S)),
  csr_valid A -> zlen x = c_rows A -> zlen out = c_cols A ->
  exists y, sp_multAT A x out = Ok y /\ zlen y = c_cols A /\
    forall j, 0 <= j < c_cols A -> vec_of y j = mat_vec (mat_T (csr_mat A)) (c_rows A) (vec_of x) j.
Proof. exact @sp_multAT_spec. Qed.
Print Assumptions C02_multAT_is_transpose_product.

(** C02 without any law: entry j is 0 + v1*x[r1] + v2*x[r2] + ... over the stored
    entries of column j in storage order. *)
Theorem C02_multAT_exact_order :
  forall (S : scalar) (A : csr S) (x out : list (car S)),
  csr_valid A -> zlen x = c_rows A -> zlen out = c_cols A ->
  exists y, sp_multAT A x out = Ok y /\ zlen y = c_cols A /\
    forall j, 0 <= j < c_cols A ->
      vec_of y j = fold_left (fun s e => sadd s (smul (evalue e) (vec_of x (erow e))))
                             (filter (fun e => ecol e =? j) (entries A)) s0.
Proof. exact @sp_multAT_exact. Qed.
Print Assumptions C02_multAT_exact_order.

Theorem C02_multAT_rejects_wrong_sizes :
  forall (S : scalar) (A : csr S) (x out : list (car S)),
  zlen x <> c_rows A \/ zlen out <> c_cols A -> sp_multAT A x out = Fail FAssert.
Proof. exact @sp_multAT_size. Qed.
Print Assumptions C02_multAT_rejects_wrong_sizes.

Example C02_instance :
  csr_valid exA /\ sp_multAT exA [1; 10; 100; 1000] [9; 9; 9] = Ok [5001; 700; 6002].
Proof. split; [exact exA_valid|vm_compute; reflexivity]. Qed.

(** C03: Transpose.  The stored entries are the stored entries of the input with row
    and column exchanged (no law: the values are copied), sorted by column. *)
Theorem C03_transpose_entries :
  forall (S : scalar) (A : csr S), csr_valid A ->
  exists B, sp_transpose A = Ok B /\ csr_valid B /\ c_rows B = c_cols A /\ c_cols B = c_rows A /\
    nnz B = nnz A /\ rows_sorted B /\
    Permutation (entries B) (map (fun e => (ecol e, erow e, evalue e)) (entries A)).
Proof. exact @sp_transpose_full. Qed.
Print Assumptions C03_transpose_entries.

Theorem C03_transpose_matrix :
  forall (S : scalar), ring_laws S ->
  forall (A B : csr S), csr_valid A -> sp_transpose A = Ok B ->
  forall i j, csr_mat B i j = csr_mat A j i.
Proof. exact @sp_transpose_mat. Qed.
Print Assumptions C03_transpose_matrix.

Theorem C03_transpose_twice :
  forall (S : scalar), ring_laws S ->
  forall (A : csr S), csr_valid A ->
  exists B C, sp_transpose A = Ok B /\ sp_transpose B = Ok C /\ csr_valid C /\
    c_rows C = c_rows A /\ c_cols C = c_cols A /\ nnz C = nnz A /\
    forall i j, csr_mat C i j = csr_mat A i j.
Proof. exact @sp_transpose_twice. Qed.
Print Assumptions C03_transpose_twice.

Example C03_instance :
  csr_valid exA /\
  sp_transpose exA = Ok (@CSR Zs 3 4 [0; 2; 4; 6] [0; 3; 2; 2; 0; 3] [1; 5; 3; 4; 2; 6]).
Proof. split; [exact exA_valid|vm_compute; reflexivity]. Qed.

(** C04: the sparse matrix product. *)
Theorem C04_product_is_matrix_product :
  forall (S : scalar), ring_laws S ->
  forall (A B : csr S), csr_valid A -> csr_valid B -> c_rows B = c_cols A ->
  exists C, sp_spmult A B = Ok C /\ csr_valid C /\ c_rows C = c_rows A /\ c_cols C = c_cols B /\
    no_dup_coords (entries C) /\
    forall i j, 0 <= i < c_rows A -> csr_mat C i j = mat_mul (csr_mat A) (csr_mat B) (c_cols A) i j.
Proof. exact @sp_spmult_spec. Qed.
Print Assumptions C04_product_is_matrix_product.

(** C04 for every arithmetic: memory safety and validity of the result. *)
Theorem C04_product_is_safe :
  forall (S : scalar) (A B : csr S), csr_valid A -> csr_valid B -> c_rows B = c_cols A ->
  exists C, sp_spmult A B = Ok C /\ csr_valid C /\ c_rows C = c_rows A /\ c_cols C = c_cols B /\
    no_dup_coords (entries C) /\
    forall i j, (exists v, In (i, j, v) (entries C)) <->
                (exists k v w, In (i, k, v) (entries A) /\ In (k, j, w) (entries B)).
Proof. exact @sp_spmult_safe. Qed.
Print Assumptions C04_product_is_safe.

(** C04: applying the product is applying B, then A. *)
Theorem C04_product_is_composition :
  forall (S : scalar), ring_laws S ->
  forall (A B C : csr S) (x y z w o1 o2 o3 : list (car S)),
  csr_valid A -> csr_valid B -> sp_spmult A B = Ok C ->
  sp_mult B x o1 = Ok y -> sp_mult A y o2 = Ok z -> sp_mult C x o3 = Ok w -> w = z.
Proof. exact @sp_spmult_compose. Qed.
Print Assumptions C04_product_is_composition.

Example C04_instance :
  csr_valid exA /\ csr_valid exB /\ c_rows exB = c_cols exA /\
  sp_spmult exA exB = Ok (@CSR Zs 4 2 [0; 2; 2; 3; 5] [0; 1; 1; 0; 1] [9; 2; 21; 29; 10]).
Proof. split; [exact exA_valid|split; [exact exB_valid|split; [reflexivity|vm_compute; reflexivity]]]. Qed.

(** C21 for SparseMatrix: MultAT is the adjoint of Mult. *)
Theorem C21_sparse_adjoint :
  forall (S : scalar), ring_laws S ->
  forall (A : csr S) (x y out1 out2 u v : list (car S)),
  csr_valid A -> sp_mult A x out1 = Ok u -> sp_multAT A y out2 = Ok v ->
  inner (c_rows A) (vec_of u) (vec_of y) = inner (c_cols A) (vec_of x) (vec_of v).
Proof. exact @sp_adjoint. Qed.
Print Assumptions C21_sparse_adjoint.

Example C21_sparse_instance :
  csr_valid exA /\ sp_mult exA [1; 10; 100] [9; 9; 9; 9] = Ok [201; 0; 70; 605] /\
  sp_multAT exA [1; 10; 100; 1000] [9; 9; 9] = Ok [5001; 700; 6002].
Proof. split; [exact exA_valid|split; vm_compute; reflexivity]. Qed.
