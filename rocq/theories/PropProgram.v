(** C102: programs on sparse matrices compute what they compute on mathematical matrices. *)

From Coq Require Import ZArith QArith.Qcanon List Lia.
From Verif Require Import Base Scalar Spec Sparse SparseHistory Examples SortProofs ProgramSpec ProgramProofs.
Import ListNotations.
Open Scope list_scope.
Open Scope Z_scope.

(** Any sequence of statements that makes sense for mathematical matrices runs on stored matrices without
    a fault, and every object ends as the matrix the mathematics says. *)
Theorem C102_programs_compute_matrices :
  forall (S : scalar), field_laws S -> eqb_laws S -> order_laws S -> abs_laws S ->
  forall (srt : sorter), sorts srt ->
  forall (ops : list (op S)) (st : list (csr S)) (ms ms' : list (option (matrix S))),
  Forall op_args_ok ops -> refines st ms -> program ops ms = Some ms' ->
  exists st', run srt ops st = Ok st' /\ refines st' ms'.
Proof. exact @program_ok. Qed.
Print Assumptions C102_programs_compute_matrices.

(** What the caller sees at the end: the sizes and the products with any vector. *)
Theorem C102_programs_observed :
  forall (S : scalar) (srt : sorter) (ops : list (op S)) (st : list (csr S)) (ms ms' : list (option (matrix S))) (k : Z) (M : matrix S),
  field_laws S -> eqb_laws S -> order_laws S -> abs_laws S -> sorts srt ->
  Forall op_args_ok ops -> refines st ms -> program ops ms = Some ms' -> look ms' k = Some M ->
  exists st' A, run srt ops st = Ok st' /\ get st' k = Ok A /\ c_rows A = m_rows M /\ c_cols A = m_cols M /\
  (forall x out, zlen x = m_cols M -> zlen out = m_rows M ->
     exists y, sp_mult A x out = Ok y /\ zlen y = m_rows M /\
     forall i, 0 <= i < m_rows M -> vec_of y i = sum_range 0 (m_cols M) (fun j => smul (m_at M i j) (vec_of x j))) /\
  (forall x out, zlen x = m_rows M -> zlen out = m_cols M ->
     exists y, sp_multAT A x out = Ok y /\ zlen y = m_cols M /\
     forall j, 0 <= j < m_cols M -> vec_of y j = sum_range 0 (m_rows M) (fun i => smul (m_at M i j) (vec_of x i))).
Proof. exact @program_observed. Qed.
Print Assumptions C102_programs_observed.

(** Two programs that start from the same matrices, stored in any two ways and sorted by any two
    implementations of std::sort, end with the same matrices. *)
Theorem C102_storage_does_not_matter :
  forall (S : scalar) (srt1 srt2 : sorter) (ops : list (op S)) (st1 st2 : list (csr S)) (ms ms' : list (option (matrix S))),
  field_laws S -> eqb_laws S -> order_laws S -> abs_laws S -> sorts srt1 -> sorts srt2 ->
  Forall op_args_ok ops -> refines st1 ms -> refines st2 ms -> program ops ms = Some ms' ->
  exists st1' st2', run srt1 ops st1 = Ok st1' /\ run srt2 ops st2 = Ok st2' /\ zlen st1' = zlen ms' /\ zlen st2' = zlen ms' /\
  forall k, look ms' k <> None -> exists A1 A2, get st1' k = Ok A1 /\ get st2' k = Ok A2 /\ same_matrix A1 A2.
Proof. exact @program_independent. Qed.
Print Assumptions C102_storage_does_not_matter.

(** The laws of matrix algebra hold between the results. *)
Theorem C102_product_associative :
  forall (S : scalar), ring_laws S ->
  forall (A B C : csr S), csr_valid A -> csr_valid B -> csr_valid C -> c_rows B = c_cols A -> c_rows C = c_cols B ->
  exists AB BC L Q, sp_spmult A B = Ok AB /\ sp_spmult B C = Ok BC /\ sp_spmult AB C = Ok L /\ sp_spmult A BC = Ok Q /\ same_matrix L Q.
Proof. exact @product_assoc. Qed.
Print Assumptions C102_product_associative.

Theorem C102_transpose_of_product :
  forall (S : scalar), ring_laws S ->
  forall (A B : csr S), csr_valid A -> csr_valid B -> c_rows B = c_cols A ->
  exists AB At Bt L Q, sp_spmult A B = Ok AB /\ sp_transpose A = Ok At /\ sp_transpose B = Ok Bt /\
    sp_transpose AB = Ok L /\ sp_spmult Bt At = Ok Q /\ same_matrix L Q.
Proof. exact @product_transpose. Qed.
Print Assumptions C102_transpose_of_product.

Theorem C102_scaled_product :
  forall (S : scalar), ring_laws S ->
  forall (A B : csr S) (v : car S), csr_valid A -> csr_valid B -> c_rows B = c_cols A ->
  exists AB L Q, sp_spmult A B = Ok AB /\ sp_spmult (sp_scale A v) B = Ok L /\ sp_spmult A (sp_scale B v) = Ok Q /\
    same_matrix L (sp_scale AB v) /\ same_matrix Q (sp_scale AB v).
Proof. exact @product_scaled. Qed.
Print Assumptions C102_scaled_product.

(** The five members left out of [change] and EliminateZeros with a tolerance: the same matrix stored in two
    ways gives two matrices. *)
Theorem C102_members_that_see_the_storage :
  exists A1 A2 A3 A4 : csr Zs,
  csr_valid A1 /\ csr_valid A2 /\ same_matrix A1 A2 /\ csr_valid A3 /\ csr_valid A4 /\ same_matrix A3 A4 /\
  (forall o, In o [IFill (S := Zs) 1; IAddDiag (S := Zs) [1; 1]; IAddDiagVal (S := Zs) 1; IElimRowCol 0; IElimRowColMarker [true; false]] ->
     exists B1 B2, run_inplace insertion_sort A1 o = Ok B1 /\ run_inplace insertion_sort A2 o = Ok B2 /\ ~ same_matrix B1 B2) /\
  (exists B3 B4, run_inplace insertion_sort A3 (IElimZeros (S := Zs) 2) = Ok B3 /\ run_inplace insertion_sort A4 (IElimZeros (S := Zs) 2) = Ok B4 /\ ~ same_matrix B3 B4).
Proof.
  exists (@CSR Zs 2 2 [0; 0; 0] [] []), (@CSR Zs 2 2 [0; 1; 1] [0] [0]), (@CSR Zs 2 2 [0; 1; 1] [0] [3]), (@CSR Zs 2 2 [0; 2; 2] [0; 0] [1; 2]).
  split; [apply csr_validb_ok; reflexivity|]. split; [apply csr_validb_ok; reflexivity|].
  split; [apply small_same; reflexivity|].
  split; [apply csr_validb_ok; reflexivity|]. split; [apply csr_validb_ok; reflexivity|].
  split; [apply small_same; reflexivity|].
  assert (D : forall B1 B2 : csr Zs, 0 < c_rows B1 -> 0 < c_cols B1 -> csr_mat B1 0 0 <> csr_mat B2 0 0 -> ~ same_matrix B1 B2).
  { intros B1 B2 HR HC N (_ & _ & H). apply N, H; lia. }
  split.
  - intros o HI. repeat (destruct HI as [<-|HI];
      [eexists; eexists; split; [vm_compute; reflexivity|]; split; [vm_compute; reflexivity|];
       apply D; [reflexivity|reflexivity|vm_compute; discriminate]|]). destruct HI.
  - eexists; eexists; split; [vm_compute; reflexivity|]; split; [vm_compute; reflexivity|].
    apply D; [reflexivity|reflexivity|vm_compute; discriminate].
Qed.
Print Assumptions C102_members_that_see_the_storage.

(** A program that uses most statements, run on rationals from two ways of storing its first matrix: the rows
    1 2 0 / 0 3 4, once in order and once with the columns out of order, a zero stored and 3 stored as 1 + 2. *)
Definition q (z : Z) : car Qcs := Q2Qc (QArith_base.inject_Z z).
Definition exQ1 : csr Qcs := @CSR Qcs 2 3 [0; 2; 4] [0; 1; 1; 2] [q 1; q 2; q 3; q 4].
Definition exQ2 : csr Qcs := @CSR Qcs 2 3 [0; 3; 6] [1; 0; 2; 2; 1; 1] [q 2; q 1; q 0; q 4; q 1; q 2].
Definition exM : matrix Qcs := @Matrix Qcs 2 3 (csr_mat exQ1).
Definition exProgram : list (op Qcs) :=
  [ NewEmpty; NewDiag [q 2; q 5]; Transpose 1 0; Product 1 1 0; InPlace 1 (IElimZeros (q 0)); InPlace 1 ISort;
    InPlace 1 (IInvScaleRows [q 1; q 2; q 4]); InPlace 1 (IPermuteCols [2; 0; 1]); Swap 1 2; NewMove 2;
    SubMatrix 2 3 [2; 0] [1; 2] [-1; -1; -1]; InPlace 3 (IElimColBc [true; false; false] [q 1; q 1; q 1] [q 0; q 0; q 0]) ].

Definition result (st : list (csr Qcs)) :=
  match run insertion_sort exProgram st with
  | Ok st' => map (fun A : csr Qcs => map (fun i => map (fun j => this (csr_mat A i j)) (zrange 0 (c_cols A))) (zrange 0 (c_rows A))) st'
  | _ => []
  end.

Example C102_instance :
  field_laws Qcs /\ eqb_laws Qcs /\ order_laws Qcs /\ abs_laws Qcs /\ sorts insertion_sort /\ Forall op_args_ok exProgram /\
  refines [exQ1] [Some exM] /\ refines [exQ2] [Some exM] /\ exQ1 <> exQ2 /\
  (exists ms', program exProgram [Some exM] = Some ms' /\ map (fun k => match look ms' k with Some M => (m_rows M, m_cols M) | None => (-1, -1) end) [0; 1; 2; 3] = [(2, 3); (2, 2); (2, 2); (3, 3)]) /\
  result [exQ1] = result [exQ2] /\
  result [exQ1] = map (map (map QArith_base.inject_Z))
    [ [[1; 2; 0]; [0; 3; 4]]; [[2; 0]; [0; 5]]; [[4; 0]; [0; 1]]; [[0; 0; 1]; [0; 6; 1]; [0; 4; 0]] ].
Proof.
  split; [exact Qcs_field|]. split; [exact Qcs_eqb|]. split; [exact Qcs_order|]. split; [exact Qcs_abs|].
  split; [exact insertion_sort_sorts|]. split; [repeat constructor|].
  assert (V1 : csr_valid exQ1) by (apply csr_validb_ok; reflexivity).
  assert (V2 : csr_valid exQ2) by (apply csr_validb_ok; reflexivity).
  split; [constructor; [exact (represents_self exQ1 V1)|constructor]|].
  split.
  { constructor; [|constructor]. split; [exact V2|]. split; [reflexivity|]. split; [reflexivity|].
    intros i j Hi Hj. cbn in Hi, Hj. assert (Ci : i = 0 \/ i = 1) by lia. assert (Cj : j = 0 \/ j = 1 \/ j = 2) by lia.
    destruct Ci as [-> | ->], Cj as [-> | [-> | ->]]; apply Qc_is_canon; reflexivity. }
  split; [discriminate|].
  split.
  { destruct (program exProgram [Some exM]) as [ms'|] eqn:EP.
    - exists ms'. split; [reflexivity|].
      assert (G : match program exProgram [Some exM] with Some ms' => map (fun k => match look ms' k with Some M => (m_rows M, m_cols M) | None => (-1, -1) end) [0; 1; 2; 3] | None => [] end = [(2, 3); (2, 2); (2, 2); (3, 3)]) by (vm_compute; reflexivity).
      rewrite EP in G. exact G.
    - assert (G : match program exProgram [Some exM] with Some _ => true | None => false end = true) by (vm_compute; reflexivity).
      rewrite EP in G. discriminate G. }
  split; vm_compute; reflexivity.
Qed.
