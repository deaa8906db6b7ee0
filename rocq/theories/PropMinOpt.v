(** MINRES and PMINRES are optimal over the Krylov space (C116). *)

From Coq Require Import ZArith List Bool Lia Reals Lra.
From Verif Require Import Base Scalar Spec Block BlockSpec BlockOp Examples Solver SolverSpec SolverEnergy KrylovFacts SolverExamples SolverLinks
  KrylovSpec SolverMinOpt ScalarR PropSolver.
Import ListNotations.
Open Scope Z_scope.

(* ---------------------------------------------------------------- C116 *)

(** The number of passes is what the caller can observe: the applications of A, except the one that
    forms the first residual.  With k the number of iterations the solver reports it is min(k, max_iter). *)
Theorem C116_minres_passes_are_applications :
  forall (S : scalar) (W : Type) (root : car S -> car S) (A : op S W) (dot : @dotp S)
         (par : sparams S) (w : W) (u : mbuf S) (b x : list (car S)) (w' : W * Z) (u' : mbuf S) (l' : mloc S) (x' : list (car S)) (k : Z),
  0 <= sp_max par ->
  minres_mult (W := W * Z) root (counting A) dot par (w, 0) u b x = Ok (w', u', l', x', k) ->
  snd w' = 1 + Z.min k (sp_max par).
Proof. exact @minres_passes. Qed.
Print Assumptions C116_minres_passes_are_applications.

Theorem C116_pminres_passes_are_applications :
  forall (S : scalar) (W : Type) (root : car S -> car S) (A M : op S W) (dot : @dotp S)
         (par : sparams S) (w : W) (u : mbuf S) (b x : list (car S)) (w' : W * Z) (u' : mbuf S) (l' : mloc S) (x' : list (car S)) (k : Z),
  0 <= sp_max par ->
  pminres_mult (W := W * Z) root (counting A) (beside M) dot par (w, 0) u b x = Ok (w', u', l', x', k) ->
  snd w' = 1 + Z.min k (sp_max par).
Proof. exact @pminres_passes. Qed.
Print Assumptions C116_pminres_passes_are_applications.

(** After m passes of MINRES x' is x plus a combination of r, A r, ..., m vectors, and no other such
    combination has a smaller residual. *)
Theorem C116_minres_optimal :
  forall (S : scalar), field_laws S -> eqb_laws S -> order_laws S -> sum_order_laws S -> prod_order_laws S -> abs_laws S ->
  forall (W : Type) (I : W -> Prop) (A : op S W) (n : Z) (mA : mat S),
  acts_as I A n mA -> mat_sym n mA -> forall (root : car S -> car S), mat_nonsingular n mA -> root_laws root ->
  forall (par : sparams S) (w : W) (u : mbuf S) (b x : list (car S)) (w' : W) (u' : mbuf S) (l' : mloc S) (x' : list (car S)) (k : Z),
  minres_state I root A l_inner par n w u -> zlen b = n -> zlen x = n ->
  minres_mult root A l_inner par w u b x = Ok (w', u', l', x', k) ->
  least_residual mA id_mat n b x x' (Z.min k (sp_max par)).
Proof. exact @minres_best. Qed.
Print Assumptions C116_minres_optimal.

(** PMINRES: M r, M A M r, ..., the residual measured by M. *)
Theorem C116_pminres_optimal :
  forall (S : scalar), field_laws S -> eqb_laws S -> order_laws S -> sum_order_laws S -> prod_order_laws S -> abs_laws S ->
  forall (W : Type) (I : W -> Prop) (A : op S W) (n : Z) (mA : mat S),
  acts_as I A n mA -> mat_sym n mA -> forall (root : car S -> car S), mat_nonsingular n mA -> root_laws root ->
  forall (M : op S W) (mM : mat S) (par : sparams S) (w : W) (u : mbuf S) (b x : list (car S)) (w' : W) (u' : mbuf S) (l' : mloc S)
         (x' : list (car S)) (k : Z),
  acts_as I M n mM -> mat_sym n mM -> mat_pos_def n mM ->
  pminres_state I root A M l_inner par n w u -> zlen b = n -> zlen x = n ->
  pminres_mult root A M l_inner par w u b x = Ok (w', u', l', x', k) ->
  least_residual mA mM n b x x' (Z.min k (sp_max par)).
Proof. exact @pminres_best. Qed.
Print Assumptions C116_pminres_optimal.

(** A solution that q of these vectors can reach takes at most q passes. *)
Theorem C116_minres_no_more_passes_than_needed :
  forall (S : scalar), field_laws S -> eqb_laws S -> order_laws S -> sum_order_laws S -> prod_order_laws S -> abs_laws S ->
  forall (W : Type) (I : W -> Prop) (A : op S W) (n : Z) (mA : mat S),
  acts_as I A n mA -> mat_sym n mA -> forall (root : car S -> car S), mat_nonsingular n mA -> root_laws root ->
  forall (par : sparams S) (w : W) (u : mbuf S) (b x : list (car S)) (w' : W) (u' : mbuf S) (l' : mloc S) (x' : list (car S)) (k : Z)
         (y : vect S) (q : Z),
  minres_state I root A l_inner par n w u -> zlen b = n -> zlen x = n ->
  minres_mult root A l_inner par w u b x = Ok (w', u', l', x', k) ->
  (forall e, norm_of n id_mat (residual mA n b x) e -> slt s0 (tolerance par e) = true) ->
  reaches mA id_mat n b x y q -> Z.min k (sp_max par) <= q.
Proof. exact @minres_no_more. Qed.
Print Assumptions C116_minres_no_more_passes_than_needed.

Theorem C116_pminres_no_more_passes_than_needed :
  forall (S : scalar), field_laws S -> eqb_laws S -> order_laws S -> sum_order_laws S -> prod_order_laws S -> abs_laws S ->
  forall (W : Type) (I : W -> Prop) (A : op S W) (n : Z) (mA : mat S),
  acts_as I A n mA -> mat_sym n mA -> forall (root : car S -> car S), mat_nonsingular n mA -> root_laws root ->
  forall (M : op S W) (mM : mat S) (par : sparams S) (w : W) (u : mbuf S) (b x : list (car S)) (w' : W) (u' : mbuf S) (l' : mloc S)
         (x' : list (car S)) (k : Z) (y : vect S) (q : Z),
  acts_as I M n mM -> mat_sym n mM -> mat_pos_def n mM ->
  pminres_state I root A M l_inner par n w u -> zlen b = n -> zlen x = n ->
  pminres_mult root A M l_inner par w u b x = Ok (w', u', l', x', k) ->
  (forall e, norm_of n mM (residual mA n b x) e -> slt s0 (tolerance par e) = true) ->
  reaches mA mM n b x y q -> Z.min k (sp_max par) <= q.
Proof. exact @pminres_no_more. Qed.
Print Assumptions C116_pminres_no_more_passes_than_needed.

(** Never more passes than distinct eigenvalues of M A in the error of the start, whatever n is. *)
Theorem C116_minres_as_many_passes_as_eigenvalues :
  forall (S : scalar), field_laws S -> eqb_laws S -> order_laws S -> sum_order_laws S -> prod_order_laws S -> abs_laws S ->
  forall (W : Type) (I : W -> Prop) (A : op S W) (n : Z) (mA : mat S),
  acts_as I A n mA -> mat_sym n mA -> forall (root : car S -> car S), mat_nonsingular n mA -> root_laws root ->
  forall (par : sparams S) (w : W) (u : mbuf S) (b x : list (car S)) (w' : W) (u' : mbuf S) (l' : mloc S) (x' : list (car S)) (k : Z)
         (y : vect S) (ls : list (car S)),
  minres_state I root A l_inner par n w u -> zlen b = n -> zlen x = n ->
  minres_mult root A l_inner par w u b x = Ok (w', u', l', x', k) ->
  (forall e, norm_of n id_mat (residual mA n b x) e -> slt s0 (tolerance par e) = true) ->
  error_of mA id_mat n b x y ls -> Z.min k (sp_max par) <= zlen ls.
Proof. exact @minres_eigen. Qed.
Print Assumptions C116_minres_as_many_passes_as_eigenvalues.

Theorem C116_pminres_as_many_passes_as_eigenvalues :
  forall (S : scalar), field_laws S -> eqb_laws S -> order_laws S -> sum_order_laws S -> prod_order_laws S -> abs_laws S ->
  forall (W : Type) (I : W -> Prop) (A : op S W) (n : Z) (mA : mat S),
  acts_as I A n mA -> mat_sym n mA -> forall (root : car S -> car S), mat_nonsingular n mA -> root_laws root ->
  forall (M : op S W) (mM : mat S) (par : sparams S) (w : W) (u : mbuf S) (b x : list (car S)) (w' : W) (u' : mbuf S) (l' : mloc S)
         (x' : list (car S)) (k : Z) (y : vect S) (ls : list (car S)),
  acts_as I M n mM -> mat_sym n mM -> mat_pos_def n mM ->
  pminres_state I root A M l_inner par n w u -> zlen b = n -> zlen x = n ->
  pminres_mult root A M l_inner par w u b x = Ok (w', u', l', x', k) ->
  (forall e, norm_of n mM (residual mA n b x) e -> slt s0 (tolerance par e) = true) ->
  error_of mA mM n b x y ls -> Z.min k (sp_max par) <= zlen ls.
Proof. exact @pminres_eigen. Qed.
Print Assumptions C116_pminres_as_many_passes_as_eigenvalues.

(** [ 0 1 ]
    [ 1 0 ] is indefinite, with the eigenvector [1 1]: started at 0, MINRES runs, reaches the solution
    [1 1] in one pass, and one Krylov vector reaches it.  With the right-hand side [1 2] it runs too. *)
Example C116_instance :
  acts_as (fun _ => True) (sp_op (exSwap Rs)) 2 (csr_mat (exSwap Rs)) /\ mat_sym 2 (csr_mat (exSwap Rs)) /\
  mat_nonsingular 2 (csr_mat (exSwap Rs)) /\ root_laws (S := Rs) sqrt /\
  error_of (S := Rs) (csr_mat (exSwap Rs)) id_mat 2 [1%R; 1%R] [0%R; 0%R] (vec_of (S := Rs) [1%R; 1%R]) [1%R] /\
  reaches (S := Rs) (csr_mat (exSwap Rs)) id_mat 2 [1%R; 1%R] [0%R; 0%R] (vec_of (S := Rs) [1%R; 1%R]) 1 /\
  (forall e, slt (s := Rs) s0 (tolerance (parR 2) e) = true) /\
  (exists u w' u' l' x' k, minres_state (S := Rs) (fun _ => True) sqrt (sp_op (exSwap Rs)) l_inner (parR 2) 2 tt u /\
     minres_mult (S := Rs) sqrt (sp_op (exSwap Rs)) l_inner (parR 2) tt u [1%R; 1%R] [0%R; 0%R] = Ok (w', u', l', x', k) /\ k = 1) /\
  (exists u w' u' l' x' k, pminres_state (S := Rs) (fun _ => True) sqrt (sp_op (exSwap Rs)) (sp_op (exSPD Rs)) l_inner (parR 2) 2 tt u /\
     pminres_mult (S := Rs) sqrt (sp_op (exSwap Rs)) (sp_op (exSPD Rs)) l_inner (parR 2) tt u [1%R; 2%R] [0%R; 0%R] = Ok (w', u', l', x', k)).
Proof.
  destruct C76_minres_instance as (HA & Hs & Hn & Hr & HM & Ms & Mp & (u & Hu) & (v & Hv) & Ht).
  assert (He : error_of (S := Rs) (csr_mat (exSwap Rs)) id_mat 2 [1%R; 1%R] [0%R; 0%R] (vec_of (S := Rs) [1%R; 1%R]) [1%R]).
  { split; [apply two; cbv -[Rplus Rmult R0 R1 IZR]; ring|].
    exists [(1%R, vec_of (S := Rs) [1%R; 1%R])]. split; [|split].
    - intros l e [H|[]]. injection H as <- <-. split; [exact R1_neq_R0|]. apply two; cbv -[Rplus Rmult R0 R1 IZR]; ring.
    - intros l e [H|[]]. injection H as <- _. now left.
    - apply two; cbv -[Rplus Rmult R0 R1 IZR]; ring. }
  repeat (split; [assumption|]). split; [|split; [exact Ht|split]].
  - split; [exact (proj1 He)|]. exists [1%R]. split; [reflexivity|]. apply two; cbv -[Rplus Rmult Rminus R0 R1 IZR]; ring.
  - destruct (C76_minres_converges_in_n_passes Rs Rs_field Rs_eqb Rs_order Rs_sum_order Rs_prod_order Rs_abs unit (fun _ => True) _ 2 _ HA Hs sqrt Hn Hr
      (parR 2) tt u [1%R; 1%R] [0%R; 0%R] Hu eq_refl eq_refl) as (w' & u' & l' & x' & k & Er & Hk); [cbn; lia| |auto|].
    + exists 0. split; [lia|]. cbv -[Rplus Rmult Rminus R0 R1 IZR]. lra.
    + exists u, w', u', l', x', k. split; [exact Hu|]. split; [exact Er|].
      pose proof (C116_minres_as_many_passes_as_eigenvalues Rs Rs_field Rs_eqb Rs_order Rs_sum_order Rs_prod_order Rs_abs unit (fun _ => True) _ 2 _ HA Hs sqrt Hn Hr
        (parR 2) tt u [1%R; 1%R] [0%R; 0%R] w' u' l' x' k _ _ Hu eq_refl eq_refl Er (fun e _ => Ht e) He) as H.
      change (sp_max (parR 2)) with 2 in H. change (zlen [1%R]) with 1 in H. lia.
  - destruct (C76_pminres_converges_in_n_passes Rs Rs_field Rs_eqb Rs_order Rs_sum_order Rs_prod_order Rs_abs unit (fun _ => True) _ 2 _ HA Hs sqrt Hn Hr
      _ _ (parR 2) tt v [1%R; 2%R] [0%R; 0%R] HM Ms Mp Hv eq_refl eq_refl) as (w' & u' & l' & x' & k & Er & Hk); [cbn; lia| |auto|].
    + exists 0. split; [lia|]. cbv -[Rplus Rmult Rminus R0 R1 IZR]. lra.
    + exists v, w', u', l', x', k. split; [exact Hv|exact Er].
Qed.
