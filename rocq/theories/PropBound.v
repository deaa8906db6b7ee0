(** How many passes the Krylov solvers need for the tolerance they are given (C118). *)

From Coq Require Import ZArith List Bool Lia Reals Lra.
From Verif Require Import Base Scalar Spec Block BlockSpec BlockOp Examples Solver SolverSpec SolverEnergy KrylovFacts SolverExamples SolverLinks
  KrylovSpec RateSpec SolverBound ScalarR PropSolver PropRate.
Import ListNotations.
Open Scope Z_scope.

(* ---------------------------------------------------------------- C118 *)

(** CG and PCG over the reals, the eigenvalues of M A between lo and hi: as soon as
    4 (hi / lo) ((sqrt hi - sqrt lo) / (sqrt hi + sqrt lo))^(2 m) is below the square of the relative
    tolerance, a call makes at most m passes, whatever the size of the system; and when the limit allows
    m passes, the result is below the tolerance. *)
Theorem C118_pcg_passes :
  forall (W : Type) (I : W -> Prop) (A : op Rs W) (M : option (op Rs W)) (n : Z) (mA mM : mat Rs),
  acts_as I A n mA -> prec_applies I M n (mat_list mM n) -> mat_sym n mA -> mat_pos_def n mA -> mat_sym n mM ->
  forall (b x : list R) (par : sparams Rs) (w : W) (u : pbuf Rs) (w' : W) (u' : pbuf Rs) (x' : list R) (k : Z)
         (y : vect Rs) (lo hi : R) (m : nat),
  I w -> zlen b = n -> zlen x = n -> slt (s := Rs) 0%R (tolerance par (res_form mA mM n b x)) = true ->
  pcg_mult A M l_inner par w u b x = Ok (w', u', x', k) ->
  (forall i, 0 <= i < n -> mat_vec mA n y i = vec_of (S := Rs) b i) ->
  (0 < lo < hi)%R -> prec_eigenvalues_in mA mM n lo hi -> (1 <= m)%nat ->
  (4 * (hi / lo) * ((sqrt hi - sqrt lo) / (sqrt hi + sqrt lo)) ^ (2 * m) < sp_rel par * sp_rel par)%R ->
  passes_made mA mM n par b x x' k <= Z.of_nat m /\
  (Z.of_nat m < sp_max par -> slt (s := Rs) (res_form mA mM n b x') (tolerance par (res_form mA mM n b x)) = true).
Proof. exact @pcg_bound. Qed.
Print Assumptions C118_pcg_passes.

(** MINRES over the reals, A symmetric and possibly indefinite, the magnitudes of its eigenvalues between lo
    and hi: as soon as 2 ((hi - lo) / (hi + lo))^q is below the square of the relative tolerance, a call makes
    at most 2 q passes; and when the limit allows them, the norm of the residual is below the tolerance. *)
Theorem C118_minres_passes :
  forall (W : Type) (I : W -> Prop) (A : op Rs W) (n : Z) (mA : mat Rs),
  acts_as I A n mA -> mat_sym n mA -> mat_nonsingular n mA ->
  forall (par : sparams Rs) (w : W) (u : mbuf Rs) (b x : list R) (w' : W) (u' : mbuf Rs) (l' : mloc Rs) (x' : list R) (k : Z)
         (y : vect Rs) (lo hi : R) (q : nat),
  minres_state (S := Rs) I sqrt A l_inner par n w u -> zlen b = n -> zlen x = n ->
  minres_mult (S := Rs) sqrt A l_inner par w u b x = Ok (w', u', l', x', k) ->
  (forall e, norm_of (S := Rs) n id_mat (residual mA n b x) e -> slt (s := Rs) 0%R (tolerance par e) = true) ->
  (forall i, 0 <= i < n -> mat_vec mA n y i = vec_of (S := Rs) b i) ->
  (0 < lo < hi)%R -> magnitudes_in mA id_mat n lo hi -> (1 <= q)%nat ->
  (2 * ((hi - lo) / (hi + lo)) ^ q < sp_rel par * sp_rel par)%R ->
  k <= 2 * Z.of_nat q /\
  (2 * Z.of_nat q <= sp_max par ->
   exists e0 e : R, norm_of (S := Rs) n id_mat (residual mA n b x) e0 /\ norm_of (S := Rs) n id_mat (residual mA n b x') e /\
     slt (s := Rs) e (tolerance par e0) = true).
Proof. exact @minres_bound_met. Qed.
Print Assumptions C118_minres_passes.

Theorem C118_pminres_passes :
  forall (W : Type) (I : W -> Prop) (A : op Rs W) (n : Z) (mA : mat Rs),
  acts_as I A n mA -> mat_sym n mA -> mat_nonsingular n mA ->
  forall (M : op Rs W) (mM : mat Rs) (par : sparams Rs) (w : W) (u : mbuf Rs) (b x : list R) (w' : W) (u' : mbuf Rs) (l' : mloc Rs)
         (x' : list R) (k : Z) (y : vect Rs) (lo hi : R) (q : nat),
  acts_as I M n mM -> mat_sym n mM -> mat_pos_def n mM ->
  pminres_state (S := Rs) I sqrt A M l_inner par n w u -> zlen b = n -> zlen x = n ->
  pminres_mult (S := Rs) sqrt A M l_inner par w u b x = Ok (w', u', l', x', k) ->
  (forall e, norm_of (S := Rs) n mM (residual mA n b x) e -> slt (s := Rs) 0%R (tolerance par e) = true) ->
  (forall i, 0 <= i < n -> mat_vec mA n y i = vec_of (S := Rs) b i) ->
  (0 < lo < hi)%R -> magnitudes_in mA mM n lo hi -> (1 <= q)%nat ->
  (2 * ((hi - lo) / (hi + lo)) ^ q < sp_rel par * sp_rel par)%R ->
  k <= 2 * Z.of_nat q /\
  (2 * Z.of_nat q <= sp_max par ->
   exists e0 e : R, norm_of (S := Rs) n mM (residual mA n b x) e0 /\ norm_of (S := Rs) n mM (residual mA n b x') e /\
     slt (s := Rs) e (tolerance par e0) = true).
Proof. exact @pminres_bound_met. Qed.
Print Assumptions C118_pminres_passes.

(** For any arithmetic, operators and inner product: a call that ended before its limit is the same call
    under every larger limit. *)
Theorem C118_pcg_larger_limit :
  forall (S : scalar) (W : Type) (A : op S W) (M : option (op S W)) (dot : dotp S) (par : sparams S) (max : Z)
         (w : W) (u : pbuf S) (b x : list (car S)) (w' : W) (u' : pbuf S) (x' : list (car S)) (k : Z),
  sp_max par <= max ->
  pcg_mult A M dot par w u b x = Ok (w', u', x', k) -> k < Z.max 2 (sp_max par) ->
  pcg_mult A M dot (SParams max (sp_rel par) (sp_abs par) (sp_floor par)) w u b x = Ok (w', u', x', k).
Proof. exact @pcg_larger. Qed.
Print Assumptions C118_pcg_larger_limit.

Theorem C118_minres_larger_limit :
  forall (S : scalar) (W : Type) (root : car S -> car S) (A : op S W) (dot : dotp S) (par : sparams S) (max : Z)
         (w : W) (u : mbuf S) (b x : list (car S)) (w' : W) (u' : mbuf S) (l' : mloc S) (x' : list (car S)) (k : Z),
  sp_max par <= max ->
  minres_mult root A dot par w u b x = Ok (w', u', l', x', k) -> k <= sp_max par ->
  minres_mult root A dot (SParams max (sp_rel par) (sp_abs par) (sp_floor par)) w u b x = Ok (w', u', l', x', k).
Proof. exact @minres_larger. Qed.
Print Assumptions C118_minres_larger_limit.

Theorem C118_pminres_larger_limit :
  forall (S : scalar) (W : Type) (root : car S -> car S) (A M : op S W) (dot : dotp S) (par : sparams S) (max : Z)
         (w : W) (u : mbuf S) (b x : list (car S)) (w' : W) (u' : mbuf S) (l' : mloc S) (x' : list (car S)) (k : Z),
  sp_max par <= max ->
  pminres_mult root A M dot par w u b x = Ok (w', u', l', x', k) -> k <= sp_max par ->
  pminres_mult root A M dot (SParams max (sp_rel par) (sp_abs par) (sp_floor par)) w u b x = Ok (w', u', l', x', k).
Proof. exact @pminres_larger. Qed.
Print Assumptions C118_pminres_larger_limit.

(** The systems of C117, with relative tolerance 1/1000: 8 passes of CG and 58 of MINRES are enough.  And a
    run over the integers that ends before its limit. *)
Example C118_instance :
  (4 * (4 / 1) * ((sqrt 4 - sqrt 1) / (sqrt 4 + sqrt 1)) ^ (2 * 8) < sp_rel (parR 3) * sp_rel (parR 3))%R /\
  (2 * ((2 - 1 / 2) / (2 + 1 / 2)) ^ 29 < sp_rel (parR 2) * sp_rel (parR 2))%R /\
  (2 * ((4 - 1) / (4 + 1)) ^ 29 < sp_rel (parR 2) * sp_rel (parR 2))%R /\
  exists w' u' x' k, pcg_mult (sp_op (exSwap Zs)) None l_inner (@SParams Zs 4 0 1 (-1)) tt (@PBuf Zs [] [] [] []) [1; 1] [0; 0] = Ok (w', u', x', k) /\ x' = [1; 1] /\ k < Z.max 2 4.
Proof.
  destruct C117_instance as (_ & _ & _ & _ & -> & _). cbn [sp_rel parR].
  replace ((2 - 1 / 2) / (2 + 1 / 2))%R with (3 / 5)%R by lra. replace ((4 - 1) / (4 + 1))%R with (3 / 5)%R by lra.
  assert (H : (2 * (3 / 5) ^ 29 < 1 / 1000 * (1 / 1000))%R).
  { replace 29%nat with (7 * 4 + 1)%nat by reflexivity. rewrite pow_add, pow_mult. cbn [pow]. lra. }
  split; [cbn [Nat.mul Nat.add pow]; lra|]. split; [exact H|]. split; [exact H|].
  do 4 eexists. split; [vm_compute; reflexivity|]. split; reflexivity.
Qed.
