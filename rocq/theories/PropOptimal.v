(** PCG is optimal over the Krylov space (C115). *)

From Coq Require Import ZArith List Bool Lia QArith Qcanon Ring.
From Verif Require Import Base Scalar Spec Block BlockSpec BlockOp Examples Solver SolverSpec SolverEnergy KrylovFacts SolverExamples SolverLinks
  KrylovSpec SolverOptimal ScalarQ PropSolver.
Import ListNotations.
Open Scope Z_scope.

(* ---------------------------------------------------------------- C115 *)

(** The number of passes is what the caller can observe: the applications of A, except the one that
    forms the first residual. *)
Theorem C115_passes_are_applications :
  forall (S : scalar), ring_laws S ->
  forall (W : Type) (I : W -> Prop) (A : op S W) (M : option (op S W)) (n : Z) (mA mM : mat S),
  acts_as I A n mA -> prec_applies I M n (mat_list mM n) ->
  forall (par : sparams S) (w : W) (u : pbuf S) (b x : list (car S)) (w' : W * Z) (u' : pbuf S) (x' : list (car S)) (k : Z),
  I w -> zlen b = n -> zlen x = n ->
  pcg_mult (counting A) (option_map beside M) l_inner par (w, 0) u b x = Ok (w', u', x', k) ->
  snd w' = 1 + passes_made mA mM n par b x x' k.
Proof. exact @pcg_passes. Qed.
Print Assumptions C115_passes_are_applications.

(** After m passes x' is x plus a combination of M r, M A M r, ..., m vectors. *)
Theorem C115_in_krylov_space :
  forall (S : scalar), field_laws S -> eqb_laws S -> order_laws S ->
  forall (W : Type) (I : W -> Prop) (A : op S W) (M : option (op S W)) (n : Z) (mA mM : mat S),
  acts_as I A n mA -> prec_applies I M n (mat_list mM n) -> mat_sym n mA -> mat_pos_def n mA -> mat_sym n mM ->
  forall (b x : list (car S)) (par : sparams S) (w : W) (u : pbuf S) (w' : W) (u' : pbuf S) (x' : list (car S)) (k : Z),
  I w -> zlen b = n -> zlen x = n -> slt s0 (tolerance par (res_form mA mM n b x)) = true ->
  pcg_mult A M l_inner par w u b x = Ok (w', u', x', k) ->
  exists c, zlen c = passes_made mA mM n par b x x' k /\
    forall i, 0 <= i < n -> vec_of x' i = (vec_of x i + krylov_sum mA mM n (vec_of (residual mA n b x)) c i)%S.
Proof. exact @pcg_in_space. Qed.
Print Assumptions C115_in_krylov_space.

(** No other combination of these vectors is nearer to the solution, in the energy norm. *)
Theorem C115_optimal :
  forall (S : scalar), field_laws S -> eqb_laws S -> order_laws S -> sum_order_laws S ->
  forall (W : Type) (I : W -> Prop) (A : op S W) (M : option (op S W)) (n : Z) (mA mM : mat S),
  acts_as I A n mA -> prec_applies I M n (mat_list mM n) -> mat_sym n mA -> mat_pos_def n mA -> mat_sym n mM ->
  forall (b x : list (car S)) (par : sparams S) (w : W) (u : pbuf S) (w' : W) (u' : pbuf S) (x' : list (car S)) (k : Z)
         (y : vect S) (c : list (car S)),
  I w -> zlen b = n -> zlen x = n -> slt s0 (tolerance par (res_form mA mM n b x)) = true ->
  pcg_mult A M l_inner par w u b x = Ok (w', u', x', k) ->
  (forall i, 0 <= i < n -> mat_vec mA n y i = vec_of b i) ->
  zlen c = passes_made mA mM n par b x x' k ->
  sle (energy_dist mA n (vec_of x') y)
      (energy_dist mA n (fun i => (vec_of x i + krylov_sum mA mM n (vec_of (residual mA n b x)) c i)%S) y).
Proof. exact @pcg_best. Qed.
Print Assumptions C115_optimal.

(** The residual is orthogonal to all of them. *)
Theorem C115_residual_orthogonal :
  forall (S : scalar), field_laws S -> eqb_laws S -> order_laws S ->
  forall (W : Type) (I : W -> Prop) (A : op S W) (M : option (op S W)) (n : Z) (mA mM : mat S),
  acts_as I A n mA -> prec_applies I M n (mat_list mM n) -> mat_sym n mA -> mat_pos_def n mA -> mat_sym n mM ->
  forall (b x : list (car S)) (par : sparams S) (w : W) (u : pbuf S) (w' : W) (u' : pbuf S) (x' : list (car S)) (k : Z) (j : nat),
  I w -> zlen b = n -> zlen x = n -> slt s0 (tolerance par (res_form mA mM n b x)) = true ->
  pcg_mult A M l_inner par w u b x = Ok (w', u', x', k) ->
  Z.of_nat j < passes_made mA mM n par b x x' k ->
  inner n (vec_of (residual mA n b x')) (krylov mA mM n (vec_of (residual mA n b x)) j) = s0.
Proof. exact @pcg_galerkin. Qed.
Print Assumptions C115_residual_orthogonal.

(** A solution that d of these vectors can reach takes at most d passes. *)
Theorem C115_no_more_passes_than_needed :
  forall (S : scalar), field_laws S -> eqb_laws S -> order_laws S ->
  forall (W : Type) (I : W -> Prop) (A : op S W) (M : option (op S W)) (n : Z) (mA mM : mat S),
  acts_as I A n mA -> prec_applies I M n (mat_list mM n) -> mat_sym n mA -> mat_pos_def n mA -> mat_sym n mM ->
  forall (b x : list (car S)) (par : sparams S) (w : W) (u : pbuf S) (w' : W) (u' : pbuf S) (x' : list (car S)) (k : Z)
         (y : vect S) (c : list (car S)),
  I w -> zlen b = n -> zlen x = n -> slt s0 (tolerance par (res_form mA mM n b x)) = true ->
  pcg_mult A M l_inner par w u b x = Ok (w', u', x', k) ->
  (forall i, 0 <= i < n -> mat_vec mA n y i = vec_of b i) ->
  (forall i, 0 <= i < n -> y i = (vec_of x i + krylov_sum mA mM n (vec_of (residual mA n b x)) c i)%S) ->
  passes_made mA mM n par b x x' k <= zlen c.
Proof. exact @pcg_no_more_passes. Qed.
Print Assumptions C115_no_more_passes_than_needed.

(** With a preconditioner for which M A has d distinct eigenvalues (on the error of the start), at
    most d passes, however large n is. *)
Theorem C115_as_many_passes_as_eigenvalues :
  forall (S : scalar), field_laws S -> eqb_laws S -> order_laws S ->
  forall (W : Type) (I : W -> Prop) (A : op S W) (M : option (op S W)) (n : Z) (mA mM : mat S),
  acts_as I A n mA -> prec_applies I M n (mat_list mM n) -> mat_sym n mA -> mat_pos_def n mA -> mat_sym n mM ->
  forall (b x : list (car S)) (par : sparams S) (w : W) (u : pbuf S) (w' : W) (u' : pbuf S) (x' : list (car S)) (k : Z)
         (y : vect S) (es : list (car S * vect S)) (ls : list (car S)),
  I w -> zlen b = n -> zlen x = n -> slt s0 (tolerance par (res_form mA mM n b x)) = true ->
  pcg_mult A M l_inner par w u b x = Ok (w', u', x', k) ->
  (forall i, 0 <= i < n -> mat_vec mA n y i = vec_of b i) ->
  eigenvectors mA mM n es -> (forall l e, In (l, e) es -> In l ls) ->
  (forall i, 0 <= i < n -> y i = (vec_of x i + eigen_sum es i)%S) ->
  passes_made mA mM n par b x x' k <= zlen ls.
Proof. exact @pcg_eigen_passes. Qed.
Print Assumptions C115_as_many_passes_as_eigenvalues.

(** One pass on a 2 x 2 system, stopped by the limit before the solution. *)
Example C115_instance :
  acts_as (fun _ => True) (sp_op (exSPD Qcs)) 2 (csr_mat (exSPD Qcs)) /\
  prec_applies (W := unit) (S := Qcs) (fun _ => True) None 2 (mat_list id_mat 2) /\
  mat_sym 2 (csr_mat (exSPD Qcs)) /\ mat_pos_def 2 (csr_mat (exSPD Qcs)) /\ mat_sym 2 (@id_mat Qcs) /\
  slt (s := Qcs) s0 (tolerance (parQ 1) (res_form (csr_mat (exSPD Qcs)) id_mat 2 [q 3; q 4] [q 0; q 0])) = true /\
  exists w' u' x' k, pcg_mult (sp_op (exSPD Qcs)) None l_inner (parQ 1) tt bufQ [q 3; q 4] [q 0; q 0] = Ok (w', u', x', k) /\
    passes_made (S := Qcs) (csr_mat (exSPD Qcs)) id_mat 2 (parQ 1) [q 3; q 4] [q 0; q 0] x' k = 1.
Proof.
  split; [apply exSPD_acts, Qcs_field|]. split; [exact (fun x Hx => idm_list Qcs_field 2 x Hx)|].
  split; [apply exSPD_sym, Qcs_field|]. split; [apply (exSPD_pos Qcs Qcs_field Qcs_order Qcs_sum_order Qcs_prod_order)|].
  split; [apply idm_sym|]. split; [vm_compute; reflexivity|].
  destruct (run_check (pcg_mult (sp_op (exSPD Qcs)) None l_inner (parQ 1) tt bufQ [q 3; q 4] [q 0; q 0])
    (fun r => let '(_, x', k) := r in passes_made (S := Qcs) (csr_mat (exSPD Qcs)) id_mat 2 (parQ 1) [q 3; q 4] [q 0; q 0] x' k =? 1))
    as ([[[w' u'] x'] k] & E & H); [vm_compute; reflexivity|].
  apply Z.eqb_eq in H. exists w', u', x', k. split; [exact E|exact H].
Qed.

(** [ 2 1 ]
    [ 1 2 ] has the eigenvector [1 1] with eigenvalue 3: started at 0, the system with the solution
    [1 1] takes one pass. *)
Definition exEig : csr Qcs := @CSR Qcs 2 2 [0; 2; 4] [0; 1; 0; 1] [q 2; q 1; q 1; q 2].

Example C115_eigen_instance :
  eigenvectors (S := Qcs) (csr_mat exEig) id_mat 2 [(q 3, vec_of (S := Qcs) [q 1; q 1])] /\
  (forall i, 0 <= i < 2 -> vec_of (S := Qcs) [q 1; q 1] i =
     sadd (s := Qcs) (vec_of (S := Qcs) [q 0; q 0] i) (eigen_sum (S := Qcs) [(q 3, vec_of (S := Qcs) [q 1; q 1])] i)) /\
  exists w' u' x' k, pcg_mult (sp_op exEig) None l_inner (parQ 10) tt bufQ [q 3; q 3] [q 0; q 0] = Ok (w', u', x', k) /\
    passes_made (S := Qcs) (csr_mat exEig) id_mat 2 (parQ 10) [q 3; q 3] [q 0; q 0] x' k = 1.
Proof.
  split.
  - intros l e [H|[]]. injection H as <- <-. split; [intros H; discriminate H|]. apply two; vm_compute; reflexivity.
  - split; [apply two; vm_compute; reflexivity|].
    destruct (run_check (pcg_mult (sp_op exEig) None l_inner (parQ 10) tt bufQ [q 3; q 3] [q 0; q 0])
      (fun r => let '(_, x', k) := r in passes_made (S := Qcs) (csr_mat exEig) id_mat 2 (parQ 10) [q 3; q 3] [q 0; q 0] x' k =? 1))
      as ([[[w' u'] x'] k] & E & H); [vm_compute; reflexivity|].
    apply Z.eqb_eq in H. exists w', u', x', k. split; [exact E|exact H].
Qed.
