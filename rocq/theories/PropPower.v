(** C111: the power iteration of examples/sparse/sparse_basics.cpp. *)

From Coq Require Import ZArith List Bool Lia Reals Lra.
From Verif Require Import Base Scalar Spec SumFacts Sparse Vec Block BlockOp Solver SolverSpec SolverEnergy Basics BasicsSpec LapProofs PowerProofs PowerMore PowerLinks
  Examples SolverExamples ScalarR.
Import ListNotations.
Open Scope Z_scope.

(** What PowerIterate returns: the quotient of A^k x, x the random start, for the first k at which the quotient has
    settled, or for the last pass; it fails, by the assertion of the division, only at an A^k x that is zero. *)
Theorem C111_outcome :
  forall (S : scalar), field_laws S -> eqb_laws S -> order_laws S -> sum_order_laws S -> prod_order_laws S ->
  forall (root : car S -> car S), root_laws root ->
  forall (W : Type) (I : W -> Prop) (A : op S W) (n : Z) (mA : mat S), acts_as I A n mA ->
  forall (tol : car S) (x : Z -> car S) (max_iter : Z) (w : W), I w -> 0 < max_iter ->
  power_outcome I mA n tol (Z.to_nat max_iter) x (power_iterate root A tol max_iter x w).
Proof. intros S F E O OS OP root RL W I A n mA HA tol x m w. exact (power_iterate_outcome F E O OS OP root RL I A n mA HA tol x m w). Qed.
Print Assumptions C111_outcome.

(** With no pass allowed the result is 0, whatever the matrix. *)
Theorem C111_no_passes :
  forall (S : scalar), field_laws S -> eqb_laws S -> order_laws S -> sum_order_laws S -> prod_order_laws S ->
  forall (root : car S -> car S), root_laws root ->
  forall (W : Type) (I : W -> Prop) (A : op S W) (n : Z) (mA : mat S), acts_as I A n mA ->
  forall (tol : car S) (x : Z -> car S) (max_iter : Z) (w : W), I w -> max_iter <= 0 -> nonzero_vec n x ->
  power_iterate root A tol max_iter x w = Ok (w, s0).
Proof. intros S F E O OS OP root RL W I A n mA HA tol x m w. exact (power_iterate_none F E O OS OP root RL I A n mA HA tol x m w). Qed.
Print Assumptions C111_no_passes.

(** A nonsingular matrix and a start other than 0 never fail. *)
Theorem C111_nonsingular :
  forall (S : scalar), field_laws S -> eqb_laws S -> order_laws S -> sum_order_laws S -> prod_order_laws S ->
  forall (root : car S -> car S), root_laws root ->
  forall (W : Type) (I : W -> Prop) (A : op S W) (n : Z) (mA : mat S), acts_as I A n mA ->
  forall (tol : car S) (x : Z -> car S) (max_iter : Z) (w : W), I w -> 0 < max_iter -> mat_nonsingular n mA -> nonzero_vec n x ->
  exists w' r, power_iterate root A tol max_iter x w = Ok (w', r) /\ I w'.
Proof. intros S F E O OS OP root RL W I A n mA HA tol x m w Hw Hm. exact (run_nonsingular F E O OS OP root RL I A n mA HA tol x m w Hw Hm). Qed.
Print Assumptions C111_nonsingular.

(** With a symmetric matrix the call fails exactly if the matrix maps the start to 0. *)
Theorem C111_symmetric :
  forall (S : scalar), field_laws S -> eqb_laws S -> order_laws S -> sum_order_laws S -> prod_order_laws S ->
  forall (root : car S -> car S), root_laws root ->
  forall (W : Type) (I : W -> Prop) (A : op S W) (n : Z) (mA : mat S), acts_as I A n mA ->
  forall (tol : car S) (x : Z -> car S) (max_iter : Z) (w : W), I w -> 0 < max_iter -> mat_sym n mA ->
  (power_iterate root A tol max_iter x w = Fail FAssert <-> zero_vec n (mat_vec mA n x)).
Proof. intros S F E O OS OP root RL W I A n mA HA tol x m w Hw Hm. exact (run_symmetric F E O OS OP root RL I A n mA HA tol x m w Hw Hm). Qed.
Print Assumptions C111_symmetric.

(** The result lies between any bounds of the quotients of the matrix. *)
Theorem C111_range :
  forall (S : scalar), field_laws S -> eqb_laws S -> order_laws S -> sum_order_laws S -> prod_order_laws S ->
  forall (root : car S -> car S), root_laws root ->
  forall (W : Type) (I : W -> Prop) (A : op S W) (n : Z) (mA : mat S), acts_as I A n mA ->
  forall (tol : car S) (x : Z -> car S) (max_iter : Z) (w : W), I w -> 0 < max_iter ->
  forall (lo hi : car S) (w' : W) (r : car S),
  (forall v : vect S, sle (smul lo (inner n v v)) (inner n v (mat_vec mA n v)) /\ sle (inner n v (mat_vec mA n v)) (smul hi (inner n v v))) ->
  power_iterate root A tol max_iter x w = Ok (w', r) -> sle lo r /\ sle r hi.
Proof. intros S F E O OS OP root RL W I A n mA HA tol x m w Hw Hm. exact (run_range F E O OS OP root RL I A n mA HA tol x m w Hw Hm). Qed.
Print Assumptions C111_range.

(** Started with an eigenvector it returns its eigenvalue, if that is not 0. *)
Theorem C111_eigenvector :
  forall (S : scalar), field_laws S -> eqb_laws S -> order_laws S -> sum_order_laws S -> prod_order_laws S ->
  forall (root : car S -> car S), root_laws root ->
  forall (W : Type) (I : W -> Prop) (A : op S W) (n : Z) (mA : mat S), acts_as I A n mA ->
  forall (tol : car S) (x : Z -> car S) (max_iter : Z) (w : W), I w -> 0 < max_iter ->
  forall (lam : car S), lam <> s0 -> nonzero_vec n x -> (forall i, 0 <= i < n -> mat_vec mA n x i = smul lam (x i)) ->
  exists w', power_iterate root A tol max_iter x w = Ok (w', lam) /\ I w'.
Proof. intros S F E O OS OP root RL W I A n mA HA tol x m w Hw Hm. exact (run_eigen F E O OS OP root RL I A n mA HA tol x m w Hw Hm). Qed.
Print Assumptions C111_eigenvector.

(** For a symmetric positive semidefinite matrix the quotients never decrease from pass to pass ... *)
Theorem C111_monotone :
  forall (S : scalar), field_laws S -> eqb_laws S -> order_laws S -> sum_order_laws S -> prod_order_laws S ->
  forall (n : Z) (mA : mat S), mat_sym n mA -> mat_pos_semidef n mA ->
  forall (x : vect S) (j k : nat), (j <= k)%nat -> nonzero_vec n (pow_vec mA n k x) ->
  sle (rayleigh mA n (pow_vec mA n j x)) (rayleigh mA n (pow_vec mA n k x)).
Proof. intros S F E O OS OP n mA Sy Ps x j k. exact (quotient_monotone F E O OS OP n mA Sy Ps x j k). Qed.
Print Assumptions C111_monotone.

(** ... so the result is at least the quotient of the start, ... *)
Theorem C111_improves :
  forall (S : scalar), field_laws S -> eqb_laws S -> order_laws S -> sum_order_laws S -> prod_order_laws S ->
  forall (root : car S -> car S), root_laws root ->
  forall (W : Type) (I : W -> Prop) (A : op S W) (n : Z) (mA : mat S), acts_as I A n mA ->
  forall (tol : car S) (x : Z -> car S) (max_iter : Z) (w : W), I w -> 0 < max_iter ->
  forall (w' : W) (r : car S), mat_sym n mA -> mat_pos_semidef n mA ->
  power_iterate root A tol max_iter x w = Ok (w', r) -> sle (rayleigh mA n x) r.
Proof. intros S F E O OS OP root RL W I A n mA HA tol x m w Hw Hm. exact (run_improves F E O OS OP root RL I A n mA HA tol x m w Hw Hm). Qed.
Print Assumptions C111_improves.

(** ... and the result r of k + 1 passes satisfies, for every eigenvector v with eigenvalue lam, lam^2k (x.v)^2 <= r^2k |x|^2 |v|^2:
    if x.v is not 0 then r is at least lam times the 2k-th root of a positive constant. *)
Theorem C111_converges :
  forall (S : scalar), field_laws S -> eqb_laws S -> order_laws S -> sum_order_laws S -> prod_order_laws S ->
  forall (root : car S -> car S), root_laws root ->
  forall (W : Type) (I : W -> Prop) (A : op S W) (n : Z) (mA : mat S), acts_as I A n mA ->
  forall (tol : car S) (x : Z -> car S) (max_iter : Z) (w : W), I w -> 0 < max_iter ->
  forall (w' : W) (r : car S) (v : vect S) (lam : car S), mat_sym n mA -> mat_pos_semidef n mA ->
  (forall i, 0 <= i < n -> mat_vec mA n v i = smul lam (v i)) ->
  power_iterate root A tol max_iter x w = Ok (w', r) ->
  exists k, (k < Z.to_nat max_iter)%nat /\
  (k + 1 = Z.to_nat max_iter \/ settled tol (fun k => rayleigh mA n (pow_vec mA n k x)) k = true)%nat /\
  sle (smul (power lam (2 * k)) (smul (inner n x v) (inner n x v))) (smul (power r (2 * k)) (smul (inner n x x) (inner n v v))).
Proof. intros S F E O OS OP root RL W I A n mA HA tol x m w Hw Hm. exact (run_converges F E O OS OP root RL I A n mA HA tol x m w Hw Hm). Qed.
Print Assumptions C111_converges.

(** On the Laplacian of a graph, which is what the example calls it with: the result lies between 0 and twice the largest
    degree, and the call fails exactly if the start is constant along all edges. *)
Theorem C111_laplacian :
  forall (S : scalar), field_laws S -> eqb_laws S -> order_laws S -> sum_order_laws S -> prod_order_laws S ->
  forall (root : car S -> car S), root_laws root ->
  forall (A L : csr S) (D tol : car S) (x : Z -> car S) (max_iter : Z),
  csr_valid A -> one_diagonal A -> mutual A -> c_rows A = c_cols A -> adj_to_laplacian A = Ok L ->
  (forall i, 0 <= i < c_rows A -> sle (of_int (neighbours A i)) D) -> 0 < max_iter ->
  match power_iterate root (sp_op L) tol max_iter x tt with
  | Ok (_, r) => sle s0 r /\ sle r (sadd D D) /\ exists i j, stored A i j /\ x i <> x j
  | Fail e => e = FAssert /\ forall i j, stored A i j -> x i = x j
  end.
Proof. exact @laplacian_value. Qed.
Print Assumptions C111_laplacian.

(** A start other than 0 is not enough for a singular matrix: the assertion fails for the zero matrix. *)
Theorem C111_singular_refuted :
  ~ (forall (A : csr Rs) (x : Z -> car Rs), csr_valid A -> c_rows A = c_cols A -> nonzero_vec (c_rows A) x ->
     exists r, power_iterate (S := Rs) sqrt (sp_op A) (1 : car Rs)%R 2 x tt = Ok r).
Proof.
  intros H. set (A := @CSR Rs 1 1 [0; 0] [] []). assert (V : csr_valid A) by (apply csr_validb_ok; reflexivity).
  destruct (H A (fun _ => 1%R) V eq_refl) as (r & Er); [exists 0; split; [cbn; lia|cbn; lra]|].
  pose proof (run_symmetric (S := Rs) Rs_field Rs_eqb Rs_order Rs_sum_order Rs_prod_order sqrt Rs_root (fun _ : unit => True) (sp_op A) 1 (csr_mat A)
    ltac:(apply SolverLinks.matrix_acts; [apply (sp_op_matrix (field_ring Rs Rs_field)), V|reflexivity|reflexivity]) (1 : car Rs)%R (fun _ => 1%R) 2 tt Logic.I ltac:(lia)) as Hs.
  assert (Z0 : zero_vec 1 (mat_vec (csr_mat A) 1 (fun _ => 1%R : car Rs))).
  { intros i Hi. unfold mat_vec. apply (sum_range_0 (field_ring Rs Rs_field)). intros j Hj. change (0 * 1 = 0)%R. lra. }
  destruct Hs as (_ & Hs); [intros i j Hi Hj; reflexivity|]. rewrite (Hs Z0) in Er. discriminate.
Qed.
Print Assumptions C111_singular_refuted.

(** [[2 1] [1 3]] over the reals, started with (1, 0); the path with three vertices *)
Definition exPathR : csr Rs := @CSR Rs 3 3 [0; 2; 5; 7] [0; 1; 0; 1; 2; 1; 2] (repeat 1%R 7).
Example C111_instance :
  field_laws Rs /\ eqb_laws Rs /\ order_laws Rs /\ sum_order_laws Rs /\ prod_order_laws Rs /\ root_laws (S := Rs) sqrt /\
  acts_as (fun _ : unit => True) (sp_op (exSPD Rs)) 2 (csr_mat (exSPD Rs)) /\
  mat_sym 2 (csr_mat (exSPD Rs)) /\ mat_pos_semidef 2 (csr_mat (exSPD Rs)) /\
  nonzero_vec (S := Rs) 2 (fun i => if i =? 0 then 1%R else 0%R) /\
  csr_valid exPathR /\ one_diagonal exPathR /\ mutual exPathR /\ c_rows exPathR = c_cols exPathR /\
  (exists L, adj_to_laplacian exPathR = Ok L) /\
  (forall i, 0 <= i < 3 -> sle (S := Rs) (of_int (neighbours exPathR i)) (2 : car Rs)%R).
Proof.
  split; [exact Rs_field|]. split; [exact Rs_eqb|]. split; [exact Rs_order|]. split; [exact Rs_sum_order|]. split; [exact Rs_prod_order|]. split; [exact Rs_root|].
  split; [apply exSPD_acts, Rs_field|]. split; [apply exSPD_sym, Rs_field|]. split.
  { intros x. destruct (zero_or_not Rs_eqb 2 x) as [G|G].
    - rewrite (SolverEnergy.inner_0_l (field_ring Rs Rs_field)) by exact G. exact (slt_irrefl Rs Rs_order _).
    - apply (slt_sle Rs_order). apply (exSPD_pos Rs Rs_field Rs_order Rs_sum_order Rs_prod_order). exact G. }
  split; [exists 0; split; [lia|cbn; lra]|]. assert (V : csr_valid exPathR) by (apply csr_validb_ok; reflexivity). split; [exact V|].
  assert (D : one_diagonal exPathR) by (intros i Hi; assert (i = 0 \/ i = 1 \/ i = 2) as [->|[->| ->]] by (cbn in Hi; lia); reflexivity). split; [exact D|].
  split; [intros i j Hi Hj; assert (i = 0 \/ i = 1 \/ i = 2) as [->|[->| ->]] by (cbn in Hi; lia); assert (j = 0 \/ j = 1 \/ j = 2) as [->|[->| ->]] by (cbn in Hj; lia); reflexivity|].
  split; [reflexivity|]. split.
  { destruct (LapMore.lap_matrix (field_ring Rs Rs_field) exPathR V D) as (L & EL & _). now exists L. }
  intros i Hi. apply Rle_sle. assert (i = 0 \/ i = 1 \/ i = 2) as [->|[->| ->]] by lia.
  - change (neighbours exPathR 0) with 1. cbn. lra.
  - change (neighbours exPathR 1) with 2. cbn. lra.
  - change (neighbours exPathR 2) with 1. cbn. lra.
Qed.
