(** How fast the Krylov solvers converge (C117). *)

From Coq Require Import ZArith List Bool Lia Reals Lra Psatz.
From Verif Require Import Base Scalar Spec Block BlockSpec BlockOp Examples Solver SolverSpec SolverEnergy KrylovFacts SolverExamples SolverLinks
  KrylovSpec RateSpec SolverRate SolverRateR ScalarR PropSolver.
Import ListNotations.
Open Scope Z_scope.

(* ---------------------------------------------------------------- C117 *)

(** PCG on a matrix with the eigenvalues of M A between lo and hi: after m passes the energy of the error
    is at most that of the start divided by T_m((hi + lo) / (hi - lo))^2, T_m the Chebyshev polynomial. *)
Theorem C117_pcg_chebyshev :
  forall (S : scalar), field_laws S -> eqb_laws S -> order_laws S -> sum_order_laws S -> prod_order_laws S ->
  forall (W : Type) (I : W -> Prop) (A : op S W) (M : option (op S W)) (n : Z) (mA mM : mat S),
  acts_as I A n mA -> prec_applies I M n (mat_list mM n) -> mat_sym n mA -> mat_pos_def n mA -> mat_sym n mM ->
  forall (b x : list (car S)) (par : sparams S) (w : W) (u : pbuf S) (w' : W) (u' : pbuf S) (x' : list (car S)) (k : Z)
         (y : vect S) (lo hi : car S),
  I w -> zlen b = n -> zlen x = n -> slt s0 (tolerance par (res_form mA mM n b x)) = true ->
  pcg_mult A M l_inner par w u b x = Ok (w', u', x', k) ->
  (forall i, 0 <= i < n -> mat_vec mA n y i = vec_of b i) ->
  slt lo hi = true -> prec_eigenvalues_in mA mM n lo hi ->
  sle (cheb (Z.to_nat (passes_made mA mM n par b x x' k)) ((hi + lo) / (hi - lo)) *
       cheb (Z.to_nat (passes_made mA mM n par b x x' k)) ((hi + lo) / (hi - lo)) * energy_dist mA n (vec_of x') y)%S
      (energy_dist mA n (vec_of x) y).
Proof. exact @pcg_rate. Qed.
Print Assumptions C117_pcg_chebyshev.

(** Without a preconditioner it is enough to bound the eigenvalues of A. *)
Theorem C117_plain_eigenvalues :
  forall (S : scalar), field_laws S -> order_laws S -> sum_order_laws S -> prod_order_laws S ->
  forall (n : Z) (mA : mat S) (lo hi : car S), mat_sym n mA -> sle s0 lo -> slt lo hi = true ->
  eigenvalues_in mA n lo hi -> prec_eigenvalues_in mA id_mat n lo hi.
Proof. exact @plain_eigenvalues. Qed.
Print Assumptions C117_plain_eigenvalues.

(** Over the reals: the error shrinks by 2 ((sqrt hi - sqrt lo) / (sqrt hi + sqrt lo))^m in the energy norm. *)
Theorem C117_pcg_rate :
  forall (W : Type) (I : W -> Prop) (A : op Rs W) (M : option (op Rs W)) (n : Z) (mA mM : mat Rs),
  acts_as I A n mA -> prec_applies I M n (mat_list mM n) -> mat_sym n mA -> mat_pos_def n mA -> mat_sym n mM ->
  forall (b x : list R) (par : sparams Rs) (w : W) (u : pbuf Rs) (w' : W) (u' : pbuf Rs) (x' : list R) (k : Z)
         (y : vect Rs) (lo hi : R),
  I w -> zlen b = n -> zlen x = n -> slt (s := Rs) 0%R (tolerance par (res_form mA mM n b x)) = true ->
  pcg_mult A M l_inner par w u b x = Ok (w', u', x', k) ->
  (forall i, 0 <= i < n -> mat_vec mA n y i = vec_of (S := Rs) b i) ->
  (0 < lo < hi)%R -> prec_eigenvalues_in mA mM n lo hi ->
  (energy_dist mA n (vec_of (S := Rs) x') y <=
     4 * ((sqrt hi - sqrt lo) / (sqrt hi + sqrt lo)) ^ (2 * Z.to_nat (passes_made mA mM n par b x x' k)) *
     energy_dist mA n (vec_of (S := Rs) x) y)%R.
Proof. exact @pcg_rate_R. Qed.
Print Assumptions C117_pcg_rate.

(** MINRES, A symmetric and possibly indefinite, with the magnitudes of its eigenvalues between lo and hi:
    after 2 q passes or more the square of the residual is at most that of the start divided by
    T_q((hi^2 + lo^2) / (hi^2 - lo^2))^2. *)
Theorem C117_minres_chebyshev :
  forall (S : scalar), field_laws S -> eqb_laws S -> order_laws S -> sum_order_laws S -> prod_order_laws S -> abs_laws S ->
  forall (W : Type) (I : W -> Prop) (A : op S W) (n : Z) (mA : mat S),
  acts_as I A n mA -> mat_sym n mA -> forall (root : car S -> car S), mat_nonsingular n mA -> root_laws root ->
  forall (par : sparams S) (w : W) (u : mbuf S) (b x : list (car S)) (w' : W) (u' : mbuf S) (l' : mloc S) (x' : list (car S)) (k : Z)
         (y : vect S) (lo hi : car S) (q : nat),
  minres_state I root A l_inner par n w u -> zlen b = n -> zlen x = n ->
  minres_mult root A l_inner par w u b x = Ok (w', u', l', x', k) ->
  (forall i, 0 <= i < n -> mat_vec mA n y i = vec_of b i) ->
  slt (lo * lo)%S (hi * hi)%S = true -> magnitudes_in mA id_mat n lo hi -> 2 * Z.of_nat q <= Z.min k (sp_max par) ->
  sle (cheb q ((hi * hi + lo * lo) / (hi * hi - lo * lo)) * cheb q ((hi * hi + lo * lo) / (hi * hi - lo * lo)) *
         res_sq mA id_mat n b (vec_of x'))%S
      (res_sq mA id_mat n b (vec_of x)).
Proof. exact @minres_rate. Qed.
Print Assumptions C117_minres_chebyshev.

Theorem C117_pminres_chebyshev :
  forall (S : scalar), field_laws S -> eqb_laws S -> order_laws S -> sum_order_laws S -> prod_order_laws S -> abs_laws S ->
  forall (W : Type) (I : W -> Prop) (A : op S W) (n : Z) (mA : mat S),
  acts_as I A n mA -> mat_sym n mA -> forall (root : car S -> car S), mat_nonsingular n mA -> root_laws root ->
  forall (M : op S W) (mM : mat S) (par : sparams S) (w : W) (u : mbuf S) (b x : list (car S)) (w' : W) (u' : mbuf S) (l' : mloc S)
         (x' : list (car S)) (k : Z) (y : vect S) (lo hi : car S) (q : nat),
  acts_as I M n mM -> mat_sym n mM -> mat_pos_def n mM ->
  pminres_state I root A M l_inner par n w u -> zlen b = n -> zlen x = n ->
  pminres_mult root A M l_inner par w u b x = Ok (w', u', l', x', k) ->
  (forall i, 0 <= i < n -> mat_vec mA n y i = vec_of b i) ->
  slt (lo * lo)%S (hi * hi)%S = true -> magnitudes_in mA mM n lo hi -> 2 * Z.of_nat q <= Z.min k (sp_max par) ->
  sle (cheb q ((hi * hi + lo * lo) / (hi * hi - lo * lo)) * cheb q ((hi * hi + lo * lo) / (hi * hi - lo * lo)) *
         res_sq mA mM n b (vec_of x'))%S
      (res_sq mA mM n b (vec_of x)).
Proof. exact @pminres_rate. Qed.
Print Assumptions C117_pminres_chebyshev.

(** Over the reals: the residual shrinks by 2 ((hi - lo) / (hi + lo))^q in 2 q passes. *)
Theorem C117_minres_rate :
  forall (W : Type) (I : W -> Prop) (A : op Rs W) (n : Z) (mA : mat Rs),
  acts_as I A n mA -> mat_sym n mA -> mat_nonsingular n mA ->
  forall (par : sparams Rs) (w : W) (u : mbuf Rs) (b x : list R) (w' : W) (u' : mbuf Rs) (l' : mloc Rs) (x' : list R) (k : Z)
         (y : vect Rs) (lo hi : R) (q : nat),
  minres_state (S := Rs) I sqrt A l_inner par n w u -> zlen b = n -> zlen x = n ->
  minres_mult (S := Rs) sqrt A l_inner par w u b x = Ok (w', u', l', x', k) ->
  (forall i, 0 <= i < n -> mat_vec mA n y i = vec_of (S := Rs) b i) ->
  (0 < lo < hi)%R -> magnitudes_in mA id_mat n lo hi -> 2 * Z.of_nat q <= Z.min k (sp_max par) ->
  (res_sq mA id_mat n b (vec_of (S := Rs) x') <= 4 * ((hi - lo) / (hi + lo)) ^ (2 * q) * res_sq mA id_mat n b (vec_of (S := Rs) x))%R.
Proof. exact @minres_rate_R. Qed.
Print Assumptions C117_minres_rate.

Theorem C117_pminres_rate :
  forall (W : Type) (I : W -> Prop) (A : op Rs W) (n : Z) (mA : mat Rs),
  acts_as I A n mA -> mat_sym n mA -> mat_nonsingular n mA ->
  forall (M : op Rs W) (mM : mat Rs) (par : sparams Rs) (w : W) (u : mbuf Rs) (b x : list R) (w' : W) (u' : mbuf Rs) (l' : mloc Rs)
         (x' : list R) (k : Z) (y : vect Rs) (lo hi : R) (q : nat),
  acts_as I M n mM -> mat_sym n mM -> mat_pos_def n mM ->
  pminres_state (S := Rs) I sqrt A M l_inner par n w u -> zlen b = n -> zlen x = n ->
  pminres_mult (S := Rs) sqrt A M l_inner par w u b x = Ok (w', u', l', x', k) ->
  (forall i, 0 <= i < n -> mat_vec mA n y i = vec_of (S := Rs) b i) ->
  (0 < lo < hi)%R -> magnitudes_in mA mM n lo hi -> 2 * Z.of_nat q <= Z.min k (sp_max par) ->
  (res_sq mA mM n b (vec_of (S := Rs) x') <= 4 * ((hi - lo) / (hi + lo)) ^ (2 * q) * res_sq mA mM n b (vec_of (S := Rs) x))%R.
Proof. exact @pminres_rate_R. Qed.
Print Assumptions C117_pminres_rate.

(** The matrices of C76: the eigenvalues of [2 1; 1 3] are between 1 and 4, those of [0 1; 1 0] have
    magnitude 1, with [2 1; 1 3] as preconditioner between 1 and 4. *)
Example C117_instance :
  eigenvalues_in (S := Rs) (csr_mat (exSPD Rs)) 2 1%R 4%R /\ prec_eigenvalues_in (S := Rs) (csr_mat (exSPD Rs)) id_mat 2 1%R 4%R /\
  magnitudes_in (S := Rs) (csr_mat (exSwap Rs)) id_mat 2 (1 / 2)%R 2%R /\
  magnitudes_in (S := Rs) (csr_mat (exSwap Rs)) (csr_mat (exSPD Rs)) 2 1%R 4%R /\
  ((sqrt 4 - sqrt 1) / (sqrt 4 + sqrt 1) = 1 / 3)%R /\
  exists w' u' x' k, pcg_mult (sp_op (exSPD Rs)) None l_inner (parR 3) tt (@PBuf Rs [] [] [] []) [3%R; 4%R] [0%R; 0%R] = Ok (w', u', x', k).
Proof.
  pose proof (idm_vec Rs_field 2) as Hid.
  assert (H1 : eigenvalues_in (S := Rs) (csr_mat (exSPD Rs)) 2 1%R 4%R).
  { intros v. rewrite !Rle_sle. unfold inner, mat_vec. rewrite !(sum2 Rs Rs_field), (mat_00 Rs Rs_field), (mat_01 Rs Rs_field), (mat_10 Rs Rs_field), (mat_11 Rs Rs_field).
    cbn. set (p := v 0). set (r := v 1). change (car Rs) with R in *. split; nra. }
  split; [exact H1|]. split.
  { apply (C117_plain_eigenvalues Rs Rs_field Rs_order Rs_sum_order Rs_prod_order 2 (csr_mat (exSPD Rs)) 1%R 4%R (exSPD_sym Rs Rs_field)); [apply (Rle_sle 0 1); lra| |exact H1].
    cbn. destruct (Rlt_dec 1 4); [reflexivity|lra]. }
  split; [|split; [|split]].
  - intros v. rewrite !Rle_sle.
    assert (Ei : forall z, inner (S := Rs) 2 z (mat_vec id_mat 2 z) = inner (S := Rs) 2 z z) by (intros z; apply inner_ext; [reflexivity|intros; now apply Hid]).
    rewrite !Ei. unfold inner, mat_vec. rewrite !(sum2 Rs Rs_field), (sw_00 Rs Rs_field), (sw_01 Rs Rs_field), (sw_10 Rs Rs_field), (sw_11 Rs Rs_field).
    cbn. set (p := v 0). set (r := v 1). change (car Rs) with R in *. split; nra.
  - intros v. rewrite !Rle_sle. unfold inner, mat_vec.
    rewrite !(sum2 Rs Rs_field), ?(sw_00 Rs Rs_field), ?(sw_01 Rs Rs_field), ?(sw_10 Rs Rs_field), ?(sw_11 Rs Rs_field),
      ?(mat_00 Rs Rs_field), ?(mat_01 Rs Rs_field), ?(mat_10 Rs Rs_field), ?(mat_11 Rs Rs_field).
    cbn. set (p := v 0). set (r := v 1). change (car Rs) with R in *. 
    pose proof (Rle_0_sqr (2 * (2 * p + r) + (p + 3 * r))). pose proof (Rle_0_sqr (p + 3 * r)). pose proof (Rle_0_sqr (11 * (2 * p + r) - 7 * (p + 3 * r))).
    unfold Rsqr in *. split; nra.
  - replace 4%R with (2 * 2)%R by ring. rewrite sqrt_square, sqrt_1 by lra. lra.
  - destruct (C76_pcg_converges_in_n_passes Rs Rs_field Rs_eqb Rs_order unit (fun _ => True) (sp_op (exSPD Rs)) 2 (csr_mat (exSPD Rs))
      (exSPD_acts Rs Rs_field) (exSPD_sym Rs Rs_field) None id_mat (parR 3) tt (@PBuf Rs [] [] [] []) [3%R; 4%R] [0%R; 0%R]
      (exSPD_pos Rs Rs_field Rs_order Rs_sum_order Rs_prod_order) (fun x Hx => idm_list Rs_field 2 x Hx) (idm_sym 2) Logic.I eq_refl eq_refl)
      as (w' & u' & x' & k & Er & _).
    + destruct C76_minres_instance as (_ & _ & _ & _ & _ & _ & _ & _ & _ & Ht). apply Ht.
    + cbn. destruct (Rlt_dec (-1000000000000) 0); [reflexivity|lra].
    + cbn. lia.
    + now exists w', u', x', k.
Qed.
