(** C110: the graph Laplacian of examples/sparse/sparse_basics.cpp. *)

From Coq Require Import ZArith List Bool Lia QArith Qcanon.
From Verif Require Import Base Scalar Spec Sparse Vec Block Solver SolverSpec Basics BasicsSpec LapProofs LapMore LapIncidence Examples ScalarQ.
Import ListNotations.
Open Scope Z_scope.

(** AdjToLaplacian keeps the pattern and stores, whatever the arithmetic, the number of off-diagonal entries of the row
    on the diagonal and -1 elsewhere, if every row has one diagonal entry. *)
Theorem C110_values :
  forall (S : scalar) (A : csr S), csr_valid A -> one_diagonal A ->
  updates (adj_to_laplacian A) A (fun i j _ => if i =? j then of_int (neighbours A i) else sopp s1).
Proof. exact @lap_values. Qed.
Print Assumptions C110_values.

(** A row without a stored diagonal entry fails the assertion, and nothing else does. *)
Theorem C110_refuses :
  forall (S : scalar) (A : csr S), csr_valid A ->
  (adj_to_laplacian A = Fail FAssert <-> exists i, 0 <= i < c_rows A /\ ~ stored A i i).
Proof. exact @lap_refuses. Qed.
Print Assumptions C110_refuses.

(** The matrix that the result represents *)
Theorem C110_matrix :
  forall (S : scalar), ring_laws S -> forall (A : csr S), csr_valid A -> one_diagonal A ->
  exists L, adj_to_laplacian A = Ok L /\ csr_valid L /\ same_pattern A L /\
  forall i j, 0 <= i < c_rows A -> csr_mat L i j = laplacian A i j.
Proof. exact @lap_matrix. Qed.
Print Assumptions C110_matrix.

(** Mult adds up the differences to the neighbours. *)
Theorem C110_action :
  forall (S : scalar), ring_laws S -> forall (A L : csr S) (x out : list (car S)), csr_valid A -> one_diagonal A ->
  adj_to_laplacian A = Ok L -> zlen x = c_cols A -> zlen out = c_rows A ->
  exists y, sp_mult L x out = Ok y /\ zlen y = c_rows A /\
  forall i, 0 <= i < c_rows A -> vec_of y i = sum_range 0 (c_cols A) (fun j => smul (weight A i j) (ssub (vec_of x i) (vec_of x j))).
Proof. exact @lap_action. Qed.
Print Assumptions C110_action.

(** Constant vectors are mapped to 0. *)
Theorem C110_constant :
  forall (S : scalar), ring_laws S -> forall (A L : csr S) (c : car S) (out : list (car S)), csr_valid A -> one_diagonal A ->
  adj_to_laplacian A = Ok L -> zlen out = c_rows A ->
  exists y, sp_mult L (repeat c (Z.to_nat (c_cols A))) out = Ok y /\ all_zero y.
Proof. exact @lap_rowsum. Qed.
Print Assumptions C110_constant.

(** For a mutual relation the result is symmetric ... *)
Theorem C110_symmetric :
  forall (S : scalar), ring_laws S -> forall (A L : csr S), csr_valid A -> one_diagonal A -> mutual A -> c_rows A = c_cols A ->
  adj_to_laplacian A = Ok L -> mat_sym (c_rows A) (csr_mat L).
Proof. exact @lap_sym. Qed.
Print Assumptions C110_symmetric.

(** ... and twice its quadratic form is the sum of the squared differences over all edges, in both directions. *)
Theorem C110_energy :
  forall (S : scalar), ring_laws S -> forall (A L : csr S) (x : vect S), csr_valid A -> one_diagonal A -> mutual A -> c_rows A = c_cols A ->
  adj_to_laplacian A = Ok L ->
  let n := c_rows A in
  sadd (inner n x (mat_vec (csr_mat L) n x)) (inner n x (mat_vec (csr_mat L) n x))
  = sum_range 0 n (fun i => sum_range 0 n (fun j => smul (weight A i j) (smul (ssub (x i) (x j)) (ssub (x i) (x j))))).
Proof. exact @lap_energy. Qed.
Print Assumptions C110_energy.

(** The quadratic form lies between 0 and twice the largest degree times |x|^2. *)
Theorem C110_bounds :
  forall (S : scalar), field_laws S -> order_laws S -> sum_order_laws S -> prod_order_laws S ->
  forall (A L : csr S) (x : vect S) (D : car S), csr_valid A -> one_diagonal A -> mutual A -> c_rows A = c_cols A ->
  adj_to_laplacian A = Ok L -> (forall i, 0 <= i < c_rows A -> sle (of_int (neighbours A i)) D) ->
  let n := c_rows A in
  let q := inner n x (mat_vec (csr_mat L) n x) in
  sle s0 q /\ sle q (smul (sadd D D) (inner n x x)).
Proof.
  exact (fun S F O OS OP A L x D V G M Q E H => conj (lap_energy_nonneg F O OS OP A L x V G M Q E) (lap_energy_bound F O OS OP A L x D V G M Q E H)).
Qed.
Print Assumptions C110_bounds.

(** Mult returns 0 exactly for the vectors with equal entries at the ends of every edge. *)
Theorem C110_null_space :
  forall (S : scalar), field_laws S -> eqb_laws S -> order_laws S -> sum_order_laws S -> prod_order_laws S ->
  forall (A L : csr S) (x out : list (car S)), csr_valid A -> one_diagonal A -> mutual A -> c_rows A = c_cols A ->
  adj_to_laplacian A = Ok L -> zlen x = c_cols A -> zlen out = c_rows A ->
  exists y, sp_mult L x out = Ok y /\ zlen y = c_rows A /\
  (all_zero y <-> forall i j, stored A i j -> vec_of x i = vec_of x j).
Proof. exact @lap_kernel. Qed.
Print Assumptions C110_null_space.

(** The program of the example, from a vertex-edge relation in which every vertex has an edge: -1 for every two
    vertices with a common edge, 0 for other two, and rows that sum to 0. *)
Theorem C110_program :
  forall (S : scalar), ring_laws S -> forall VE : csr S, csr_valid VE -> (forall i, 0 <= i < c_rows VE -> exists e, stored VE i e) ->
  exists L, incidence_laplacian VE = Ok L /\ csr_valid L /\ c_rows L = c_rows VE /\ c_cols L = c_rows VE /\
  (forall i j, 0 <= i < c_rows VE -> i <> j -> (share VE i j -> csr_mat L i j = sopp s1) /\ (~ share VE i j -> csr_mat L i j = s0)) /\
  (forall i, 0 <= i < c_rows VE -> sum_range 0 (c_rows VE) (csr_mat L i) = s0).
Proof. intros S R VE. exact (incidence_ok R VE). Qed.
Print Assumptions C110_program.

(** The theorems above apply to what the program computes. *)
Theorem C110_program_relation :
  forall (S : scalar), ring_laws S -> forall VE : csr S, csr_valid VE -> (forall i, 0 <= i < c_rows VE -> exists e, stored VE i e) ->
  exists VV L, incidence_laplacian VE = Ok L /\ adj_to_laplacian VV = Ok L /\ csr_valid VV /\ c_rows VV = c_rows VE /\ c_rows VV = c_cols VV /\
  one_diagonal VV /\ mutual VV /\ forall i j, stored VV i j <-> share VE i j.
Proof. intros S R VE. exact (incidence_mutual R VE). Qed.
Print Assumptions C110_program_relation.

(** A vertex without an edge stops it. *)
Theorem C110_program_refuses :
  forall (S : scalar) (VE : csr S), csr_valid VE ->
  (incidence_laplacian VE = Fail FAssert <-> exists i, 0 <= i < c_rows VE /\ forall e, ~ stored VE i e).
Proof. exact @incidence_refuses. Qed.
Print Assumptions C110_program_refuses.

(** With two diagonal entries in a row, rows need not sum to 0: only the last of them is overwritten. *)
Theorem C110_duplicates_refuted :
  ~ (forall (S : scalar), ring_laws S -> forall (A L : csr S) (i : Z), csr_valid A -> adj_to_laplacian A = Ok L -> 0 <= i < c_rows A ->
     sum_range 0 (c_cols A) (csr_mat L i) = s0).
Proof.
  intros H. assert (V : csr_valid (S := Zs) (CSR (S := Zs) 1 1 [0; 2] [0; 0] [5; 7])) by (apply csr_validb_ok; reflexivity).
  specialize (H Zs Zs_ring _ _ 0 V eq_refl ltac:(cbn; lia)). discriminate H.
Qed.
Print Assumptions C110_duplicates_refuted.

(** A path of three vertices, and its vertex-edge relation *)
Definition q110 (z : Z) : car Qcs := Q2Qc (inject_Z z).
Definition exPath : csr Qcs := CSR (S := Qcs) 3 3 [0; 2; 5; 7] [0; 1; 0; 1; 2; 1; 2] (map q110 [9; 9; 9; 9; 9; 9; 9]).
Definition exIncidence : csr Qcs := CSR (S := Qcs) 3 2 [0; 1; 3; 4] [0; 0; 1; 1] (map q110 [1; 1; 1; 1]).
Example C110_instance :
  csr_valid exPath /\ one_diagonal exPath /\ mutual exPath /\ c_rows exPath = c_cols exPath /\
  adj_to_laplacian exPath = Ok (CSR (S := Qcs) 3 3 [0; 2; 5; 7] [0; 1; 0; 1; 2; 1; 2] (map q110 [1; -1; -1; 2; -1; -1; 1])) /\
  (forall i, 0 <= i < 3 -> sle (of_int (neighbours exPath i)) (q110 2)) /\
  csr_valid exIncidence /\ (forall i, 0 <= i < 3 -> exists e, stored exIncidence i e) /\
  field_laws Qcs /\ eqb_laws Qcs /\ order_laws Qcs /\ sum_order_laws Qcs /\ prod_order_laws Qcs.
Proof.
  split; [apply csr_validb_ok; reflexivity|]. split; [intros i Hi; assert (i = 0 \/ i = 1 \/ i = 2) as [->|[->| ->]] by (cbn in Hi; lia); reflexivity|].
  split; [intros i j Hi Hj; assert (i = 0 \/ i = 1 \/ i = 2) as [->|[->| ->]] by (cbn in Hi; lia); assert (j = 0 \/ j = 1 \/ j = 2) as [->|[->| ->]] by (cbn in Hj; lia); reflexivity|].
  split; [reflexivity|]. split; [vm_compute; reflexivity|]. split; [intros i Hi; assert (i = 0 \/ i = 1 \/ i = 2) as [->|[->| ->]] by lia; vm_compute; reflexivity|].
  split; [apply csr_validb_ok; reflexivity|]. split.
  { intros i Hi. assert (i = 0 \/ i = 1 \/ i = 2) as [->|[->| ->]] by lia; [exists 0|exists 0|exists 1]; apply stored_edges; reflexivity. }
  split; [exact Qcs_field|]. split; [exact Qcs_eqb|]. split; [exact Qcs_order|]. split; [exact Qcs_sum_order|exact Qcs_prod_order].
Qed.
