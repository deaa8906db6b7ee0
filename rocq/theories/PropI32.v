(** Property C95: arithmetic on int. *)

From Coq Require Import ZArith List Bool Lia.
From Verif Require Import Base Scalar Spec Dense Sparse SparseProofs Coo Block BlockSpec Par HypreOps ParSpec Examples PropBlock BlockMore I32 I32Spec I32Par LifeProofs I32Proofs I32ParProofs.
Import ListNotations.
Open Scope Z_scope.

(** Matrices that ints can describe are transposed without overflow. *)
Theorem C95_transpose : forall (S : scalar) (A B : csr S), fits A -> sp_transpose A = Ok B -> sp_transpose_i A = Ok B.
Proof. exact (fun S A B H => transpose_fits (S := S) A H B). Qed.
Print Assumptions C95_transpose.

(** The limit is sharp: one more column and the length of the row pointers overflows. *)
Theorem C95_transpose_widest : forall (S : scalar) (A : csr S), c_cols A = int_max -> sp_transpose_i A = Fail FUB.
Proof. exact @transpose_widest. Qed.
Print Assumptions C95_transpose_widest.

Theorem C95_zero_matrix : forall (S : scalar) (rows cols : Z), 0 <= cols ->
  (rows < int_max -> sp_zero_i (S := S) rows cols = sp_zero rows cols) /\ sp_zero_i (S := S) int_max cols = Fail FUB.
Proof. exact (fun S rows cols H => conj (zero_fits rows cols) (zero_tallest cols H)). Qed.
Print Assumptions C95_zero_matrix.

(** A product is what unbounded integers give if its number of entries is an int; otherwise the
    counter overflows. *)
Theorem C95_product : forall (S : scalar) (A B C : csr S), fits A -> fits B -> sp_spmult A B = Ok C ->
  (sp_nnz C <= int_max -> sp_spmult_i A B = Ok C) /\ (int_max < sp_nnz C -> sp_spmult_i A B = Fail FUB).
Proof. exact (fun S A B C HA HB => product_decides (S := S) A B HA HB C). Qed.
Print Assumptions C95_product.

(** It happens: two matrices of n entries each, n x 1 and 1 x n, for every n with n * n > INT_MAX
    (n = 46341 is enough). *)
Theorem C95_product_overflow : forall (S : scalar) (n : Z), 1 <= n < int_max -> int_max < n * n ->
  exists A B : csr S, fits A /\ fits B /\ sp_nnz A = n /\ sp_nnz B = n /\ c_cols A = c_rows B /\ sp_spmult_i A B = Fail FUB.
Proof.
  intros S n H H'. exists (ones_col n), (ones_row n). destruct (ones_fit (S := S) n H) as (F1 & F2 & N1 & N2).
  repeat (split; [assumption|]). split; [reflexivity|]. now apply ones_product.
Qed.
Print Assumptions C95_product_overflow.

Theorem C95_submatrix : forall (S : scalar) (A B : csr S) (rows cols marker marker' : list Z), fits A ->
  (forall r, In r rows -> 0 <= r < c_rows A) -> zlen rows <= int_max -> zlen cols <= int_max ->
  sp_submatrix A rows cols marker = Ok (B, marker') ->
  (sp_nnz B <= int_max -> sp_submatrix_i A rows cols marker = Ok (B, marker')) /\
  (int_max < sp_nnz B -> sp_submatrix_i A rows cols marker = Fail FUB).
Proof. exact (fun S A B rows cols mk mk' H Hr H1 H2 => sub_decides (S := S) A rows cols mk H Hr H1 H2 (B, mk')). Qed.
Print Assumptions C95_submatrix.

Theorem C95_combine : forall (S : scalar) (M : bmat S) (C : csr S), bm_ok M -> bm_rows M < int_max -> bm_cols M < int_max -> zlen (bm_ro M) <= int_max ->
  bm_combine M = Ok C ->
  (sp_nnz C <= int_max -> bm_combine_i M = Ok C) /\ (int_max < sp_nnz C -> bm_combine_i M = Fail FUB).
Proof. exact (fun S M C H Hr Hc Hl => combine_decides (S := S) M H Hr Hc Hl C). Qed.
Print Assumptions C95_combine.

Theorem C95_to_sparse : forall (S : scalar) (M : coo S) (C : csr S), coo_to_sparse M = Ok C -> c_rows C < int_max -> c_cols C <= int_max ->
  (sp_nnz C <= int_max -> coo_to_sparse_i M = Ok C) /\ (int_max < sp_nnz C -> coo_to_sparse_i M = Fail FUB).
Proof. exact @coo_decides. Qed.
Print Assumptions C95_to_sparse.

(** Dense matrices exist up to rows * cols = INT_MAX ... *)
Theorem C95_dense_sizes : forall (S : scalar) (rows cols : Z), 0 <= rows -> 0 <= cols ->
  (rows * cols <= int_max ->
     d_zeros_i (S := S) rows cols = d_zeros rows cols /\
     (forall data : list (car S), d_make_i rows cols data = d_make rows cols data) /\
     (forall (D : dense S) v, d_set_size_val_i D rows cols v = d_set_size_val D rows cols v)) /\
  (int_max < rows * cols ->
     d_zeros_i (S := S) rows cols = Fail FUB /\
     (forall data : list (car S), d_make_i rows cols data = Fail FUB) /\
     (forall (D : dense S) v, d_set_size_val_i D rows cols v = Fail FUB)).
Proof.
  intros S rows cols Hr Hc. destruct (d_zeros_fits (S := S) rows cols Hr Hc) as (Z1 & Z2).
  split; intros H; (split; [auto|split; intros; [now apply d_make_fits|now apply d_size_fits]]).
Qed.
Print Assumptions C95_dense_sizes.

(** Negative sizes are refused as without overflow. *)
Theorem C95_dense_negative : forall (S : scalar) (rows cols : Z), int_min <= rows * cols <= int_max -> rows < 0 \/ cols < 0 ->
  d_zeros_i (S := S) rows cols = d_zeros rows cols /\
  (forall data : list (car S), d_make_i rows cols data = Fail FAssert /\ d_make rows cols data = Fail FAssert) /\
  (forall (D : dense S) v, d_set_size_val_i D rows cols v = Fail FAssert /\ d_set_size_val D rows cols v = Fail FAssert).
Proof. exact @dense_negative. Qed.
Print Assumptions C95_dense_negative.

(** ... and for these the index computations do not overflow. *)
Theorem C95_dense_access : forall (S : scalar) (D : dense S) (i j : Z) (v : car S), d_fits D ->
  d_get_i D i j = d_get D i j /\ d_set_i D i j v = d_set D i j v.
Proof. exact (fun S D i j v H => conj (d_get_fits D i j (proj2 (proj2 (proj2 H)))) (d_set_fits D i j v (proj2 (proj2 (proj2 H))))). Qed.
Print Assumptions C95_dense_access.

Theorem C95_dense_transpose : forall (S : scalar) (D E : dense S), d_fits D -> d_transpose D = Ok E -> d_transpose_i D = Ok E.
Proof. exact (fun S D E H => d_transpose_fits (S := S) D H E). Qed.
Print Assumptions C95_dense_transpose.

(** The offsets of a distributed object: the total over the ranks has to be an int. *)
Theorem C95_offsets : forall sizes : list Z, 0 < zlen sizes -> (forall s, In s sizes -> 0 <= s) ->
  (first_of sizes (zlen sizes) <= int_max -> generate_offsets1_i sizes = generate_offsets1 sizes) /\
  (int_max < first_of sizes (zlen sizes) -> generate_offsets1_i sizes = Fail FUB).
Proof. exact offsets_ok. Qed.
Print Assumptions C95_offsets.

(** The rows of the threads *)
Theorem C95_thread_rows : forall rows n ii : Z, 0 <= rows <= int_max -> 1 <= n <= int_max -> 0 <= ii < n ->
  thread_range_i rows n ii = Ok (thread_range rows n ii).
Proof. exact range_ok. Qed.
Print Assumptions C95_thread_rows.

Example C95_instance :
  fits exA /\ fits exB /\ d_fits (@Dense Zs 2 2 [1; 2; 3; 4]) /\
  (exists C, sp_spmult exA exB = Ok C /\ sp_nnz C <= int_max /\ sp_spmult_i exA exB = Ok C) /\
  (exists B, sp_transpose exA = Ok B /\ sp_transpose_i exA = Ok B) /\
  (exists C, bm_combine exM = Ok C /\ bm_combine_i exM = Ok C) /\
  (exists C, coo_to_sparse (@Coo.Coo Zs 0 0 false [(1, 2, 5); (0, 1, 3); (1, 2, 4)]) = Ok C /\ coo_to_sparse_i (@Coo.Coo Zs 0 0 false [(1, 2, 5); (0, 1, 3); (1, 2, 4)]) = Ok C) /\
  (exists B mk, sp_submatrix exA [2; 0] [1; 2] [-1; -1; -1] = Ok (B, mk) /\ sp_submatrix_i exA [2; 0] [1; 2] [-1; -1; -1] = Ok (B, mk)) /\
  1 <= 46341 < int_max /\ int_max < 46341 * 46341 /\
  generate_offsets1_i [1073741824; 1073741823] = generate_offsets1 [1073741824; 1073741823] /\
  generate_offsets1_i [1073741824; 1073741824] = Fail FUB /\
  thread_range_i 10 4 1 = Ok (3, 6).
Proof.
  split; [split; [exact exA_valid|vm_compute; repeat split; congruence]|]. split; [split; [exact exB_valid|vm_compute; repeat split; congruence]|].
  split; [vm_compute; repeat split; congruence|].
  split; [eexists; split; [vm_compute; reflexivity|]; split; [vm_compute; congruence|vm_compute; reflexivity]|].
  split; [eexists; split; vm_compute; reflexivity|]. split; [eexists; split; vm_compute; reflexivity|]. split; [eexists; split; vm_compute; reflexivity|].
  split; [eexists _, _; split; vm_compute; reflexivity|]. unfold int_max.
  split; [lia|]. split; [lia|]. split; [vm_compute; reflexivity|]. split; vm_compute; reflexivity.
Qed.
