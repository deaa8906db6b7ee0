(** Property C96: products of matrices with vectors when input and output are views of memory. *)

From Coq Require Import ZArith List Bool Lia.
From Verif Require Import Base Scalar Spec Dense Sparse Coo Lil Block Vec VecSpec VecMat VecMatSpec Examples VecMatProofs.
Import ListNotations.
Open Scope Z_scope.

(** When no stored entry reads a cell an earlier row has written, SparseMatrix::Mult writes the
    product with what the input showed before the call, and nothing outside the output. *)
Theorem C96_sparse_mult :
  forall (S : scalar), ring_laws S -> forall (A : csr S) (h : heap S) (x y : view),
  csr_valid A -> view_ok h x -> view_ok h y -> v_len x = c_cols A -> v_len y = c_rows A -> read_in_time A x y ->
  exists h', m_sp_mult A h x y = Ok h' /\ writes h y (mat_vec (csr_mat A) (c_cols A) (vat h x)) h'.
Proof. exact @sp_mult_overlap. Qed.
Print Assumptions C96_sparse_mult.

(** Views without a common cell are always in time. *)
Theorem C96_apart_in_time :
  forall (S : scalar) (A : csr S) (x y : view), csr_valid A -> v_len x = c_cols A -> v_len y = c_rows A -> apart x y -> read_in_time A x y.
Proof. exact @apart_in_time. Qed.
Print Assumptions C96_apart_in_time.

(** A.Mult(x, x) is right when A is upper triangular. *)
Theorem C96_sparse_mult_in_place :
  forall (S : scalar), ring_laws S -> forall (A : csr S) (h : heap S) (x : view),
  csr_valid A -> view_ok h x -> v_len x = c_cols A -> v_len x = c_rows A -> (forall e, In e (entries A) -> erow e <= ecol e) ->
  exists h', m_sp_mult A h x x = Ok h' /\ writes h x (mat_vec (csr_mat A) (c_cols A) (vat h x)) h'.
Proof. exact @sp_mult_in_place. Qed.
Print Assumptions C96_sparse_mult_in_place.

Theorem C96_sparse_multAT :
  forall (S : scalar), ring_laws S -> forall (A : csr S) (h : heap S) (x y : view),
  csr_valid A -> view_ok h x -> view_ok h y -> v_len x = c_rows A -> v_len y = c_cols A -> apart x y ->
  exists h', m_sp_multAT A h x y = Ok h' /\ writes h y (mat_vec (mat_T (csr_mat A)) (c_rows A) (vat h x)) h'.
Proof. exact @sp_multAT_apart. Qed.
Print Assumptions C96_sparse_multAT.

Theorem C96_dense_mult :
  forall (S : scalar), ring_laws S -> forall (D : dense S) (h : heap S) (x y : view),
  dense_ok D -> view_ok h x -> view_ok h y -> v_len x = d_cols D -> v_len y = d_rows D -> apart x y ->
  exists h', m_d_mult D h x y = Ok h' /\ writes h y (mat_vec (dense_mat D) (d_cols D) (vat h x)) h'.
Proof. exact @d_mult_apart. Qed.
Print Assumptions C96_dense_mult.

Theorem C96_dense_multAT :
  forall (S : scalar), ring_laws S -> forall (D : dense S) (h : heap S) (x y : view),
  dense_ok D -> view_ok h x -> view_ok h y -> v_len x = d_rows D -> v_len y = d_cols D -> apart x y ->
  exists h', m_d_multAT D h x y = Ok h' /\ writes h y (mat_vec (mat_T (dense_mat D)) (d_rows D) (vat h x)) h'.
Proof. exact @d_multAT_apart. Qed.
Print Assumptions C96_dense_multAT.

(** Without any law of arithmetic, floating point included: on views without a common cell the
    products compute, operation by operation, what C01, C02, C08, C10, C25 and C36 say about lists. *)
Theorem C96_sparse_apart : forall (S : scalar) (A : csr S), as_on_lists (m_sp_mult A) (sp_mult A) /\ as_on_lists (m_sp_multAT A) (sp_multAT A).
Proof. exact (fun S A => conj (sp_mult_lists A) (sp_multAT_lists A)). Qed.
Print Assumptions C96_sparse_apart.

Theorem C96_dense_apart : forall (S : scalar) (D : dense S), as_on_lists (m_d_mult D) (d_mult D) /\ as_on_lists (m_d_multAT D) (d_multAT D).
Proof. exact (fun S D => conj (d_mult_lists D) (d_multAT_lists D)). Qed.
Print Assumptions C96_dense_apart.

Theorem C96_coo_apart : forall (S : scalar) (M : coo S), as_on_lists (m_coo_mult M) (coo_mult M) /\ as_on_lists (m_coo_multAT M) (coo_multAT M).
Proof. exact (fun S M => conj (coo_mult_lists M) (coo_multAT_lists M)). Qed.
Print Assumptions C96_coo_apart.

Theorem C96_lil_apart : forall (S : scalar) (M : lil S), as_on_lists (m_lil_mult M) (lil_mult M) /\ as_on_lists (m_lil_multAT M) (lil_multAT M).
Proof. exact (fun S M => conj (lil_mult_lists M) (lil_multAT_lists M)). Qed.
Print Assumptions C96_lil_apart.

Theorem C96_block_apart : forall (S : scalar) (M : bmat S), as_on_lists (m_bm_mult M) (bm_mult M) /\ as_on_lists (m_bm_multAT M) (bm_multAT M).
Proof. exact (fun S M => conj (bm_mult_lists M) (bm_multAT_lists M)). Qed.
Print Assumptions C96_block_apart.

(** The products that clear the output first lose an input that is the output: the result is zero
    whatever the matrix and the vector. *)
Theorem C96_sparse_multAT_in_place_refuted :
  forall (S : scalar), ring_laws S -> forall (A : csr S) (h : heap S) (x : view),
  csr_valid A -> view_ok h x -> v_len x = c_rows A -> v_len x = c_cols A ->
  exists h', m_sp_multAT A h x x = Ok h' /\ writes h x (fun _ => s0) h'.
Proof. exact @sp_multAT_in_place. Qed.
Print Assumptions C96_sparse_multAT_in_place_refuted.

Theorem C96_dense_mult_in_place_refuted :
  forall (S : scalar), ring_laws S -> forall (D : dense S) (h : heap S) (x : view),
  dense_ok D -> view_ok h x -> v_len x = d_rows D -> v_len x = d_cols D ->
  exists h', m_d_mult D h x x = Ok h' /\ writes h x (fun _ => s0) h'.
Proof. exact @d_mult_in_place. Qed.
Print Assumptions C96_dense_mult_in_place_refuted.

(** [0 1; 1 0] exchanges the elements, but not in place. *)
Definition exSwap : csr Zs := @CSR Zs 2 2 [0; 1; 2] [1; 0] [1; 1].
Definition exSwapD : dense Zs := @Dense Zs 2 2 [0; 1; 1; 0].
Definition exMem : heap Zs := [Some (@Vec.Block Zs [3; 5; 7; 9] 4)].

Theorem C96_sparse_mult_in_place_refuted :
  exists (A : csr Zs) (h : heap Zs) (x : view), csr_valid A /\ view_ok h x /\ v_len x = c_cols A /\ v_len x = c_rows A /\ seen h x = [3; 5] /\
    sp_mult A [3; 5] [3; 5] = Ok [5; 3] /\ exists h', m_sp_mult A h x x = Ok h' /\ seen h' x = [5; 5].
Proof.
  exists exSwap, exMem, (View 0 0 2). split; [apply csr_validb_ok; vm_compute; reflexivity|].
  split; [split; [discriminate|right; exists (@Vec.Block Zs [3; 5; 7; 9] 4); split; [reflexivity|split; discriminate]]|].
  do 4 (split; [vm_compute; reflexivity|]). eexists. split; vm_compute; reflexivity.
Qed.
Print Assumptions C96_sparse_mult_in_place_refuted.

Theorem C96_dense_multAT_in_place_refuted :
  exists (D : dense Zs) (h : heap Zs) (x : view), dense_ok D /\ view_ok h x /\ v_len x = d_rows D /\ v_len x = d_cols D /\ seen h x = [3; 5] /\
    d_multAT D [3; 5] [3; 5] = Ok [5; 3] /\ exists h', m_d_multAT D h x x = Ok h' /\ seen h' x = [5; 5].
Proof.
  exists exSwapD, exMem, (View 0 0 2). split; [repeat split; discriminate|].
  split; [split; [discriminate|right; exists (@Vec.Block Zs [3; 5; 7; 9] 4); split; [reflexivity|split; discriminate]]|].
  do 4 (split; [vm_compute; reflexivity|]). eexists. split; vm_compute; reflexivity.
Qed.
Print Assumptions C96_dense_multAT_in_place_refuted.

(** Halves of one buffer, and an upper triangular matrix in place. *)
Definition exUpper : csr Zs := @CSR Zs 2 2 [0; 2; 3] [1; 0; 1] [1; 2; 4].
Example C96_instance :
  csr_valid exSwap /\ apart (View 0 0 2) (View 0 2 2) /\
  (exists h', m_sp_mult exSwap exMem (View 0 0 2) (View 0 2 2) = Ok h' /\ seen h' (View 0 0 4) = [3; 5; 5; 3]) /\
  csr_valid exUpper /\ (forall e, In e (entries exUpper) -> erow e <= ecol e) /\
  (exists h', m_sp_mult exUpper exMem (View 0 1 2) (View 0 1 2) = Ok h' /\ seen h' (View 0 0 4) = [3; 17; 28; 9]).
Proof.
  split; [apply csr_validb_ok; vm_compute; reflexivity|]. split; [intros i j Hi Hj (_ & E); cbn [v_len v_off] in *; lia|].
  split; [eexists; split; vm_compute; reflexivity|]. split; [apply csr_validb_ok; vm_compute; reflexivity|].
  split; [|eexists; split; vm_compute; reflexivity].
  intros e He. vm_compute in He. destruct He as [<-|[<-|[<-|[]]]]; vm_compute; discriminate.
Qed.
