(** The convergence rates over the real numbers. *)

From Coq Require Import ZArith List Bool Lia Reals Lra Psatz.
From Verif Require Import Base Scalar Spec Block BlockSpec Solver SolverSpec SolverEnergy KrylovFacts SolverLinks KrylovSpec SolverMinOpt RateSpec SolverRate ScalarR.
Import ListNotations.
Open Scope R_scope.

Lemma cheb_pow z sg m : 2 * sg * z = z * z + 1 -> 2 * z ^ m * cheb (S := Rs) m sg = z ^ m * z ^ m + 1 /\ 2 * z ^ (Datatypes.S m) * cheb (S := Rs) (Datatypes.S m) sg = z ^ (Datatypes.S m) * z ^ (Datatypes.S m) + 1.
Proof.
  intros Hz. induction m as [|m (IH0 & IH1)].
  - cbn. lra.
  - split; [exact IH1|].
    change (cheb (S := Rs) (Datatypes.S (Datatypes.S m)) sg) with ((1 + 1) * sg * cheb (S := Rs) (Datatypes.S m) sg - cheb (S := Rs) m sg).
    set (c1 := cheb (S := Rs) (Datatypes.S m) sg) in *. set (c0 := cheb (S := Rs) m sg) in *. change (car Rs) with R in *.
    cbn [pow] in *. set (p := z ^ m) in *.
    replace (2 * (z * (z * p)) * ((1 + 1) * sg * c1 - c0)) with ((2 * sg * z) * (2 * (z * p) * c1) - z * z * (2 * p * c0)) by ring.
    rewrite IH0, IH1, Hz. ring.
Qed.

(** with 2 sg z = z z + 1 the bound by the polynomial is one by a power *)
Lemma rate_power z sg m e e' : 2 * sg * z = z * z + 1 -> 0 <= z -> 0 <= e' -> cheb (S := Rs) m sg * cheb (S := Rs) m sg * e' <= e -> e' <= 4 * (z ^ m * z ^ m) * e.
Proof.
  intros Hz H0 He' H. destruct (cheb_pow z sg m Hz) as (K & _). set (c := cheb (S := Rs) m sg) in *. change (car Rs) with R in *. set (p := z ^ m) in *.
  assert (Hp : 0 <= p * p) by nra.
  apply Rle_trans with (4 * (p * p) * (c * c * e')); [|apply Rmult_le_compat_l; lra].
  replace (4 * (p * p) * (c * c * e')) with ((2 * p * c) * (2 * p * c) * e') by ring. rewrite K.
  assert (1 <= (p * p + 1) * (p * p + 1)) by nra. nra.
Qed.

Section RateR.
Context {W : Type} (I : W -> Prop).

Lemma pcg_rate_R (A : op Rs W) (M : option (op Rs W)) n (mA mM : mat Rs) : acts_as I A n mA -> prec_applies I M n (mat_list mM n) ->
  mat_sym n mA -> mat_pos_def n mA -> mat_sym n mM ->
  forall (b x : list R) (par : sparams Rs) (w : W) (u : pbuf Rs) (w' : W) (u' : pbuf Rs) (x' : list R) (k : Z) (y : vect Rs) (lo hi : R),
  I w -> zlen b = n -> zlen x = n -> slt (s := Rs) 0 (tolerance par (res_form mA mM n b x)) = true ->
  pcg_mult A M l_inner par w u b x = Ok (w', u', x', k) ->
  (forall i, (0 <= i < n)%Z -> mat_vec mA n y i = vec_of (S := Rs) b i) ->
  0 < lo < hi -> prec_eigenvalues_in mA mM n lo hi ->
  energy_dist mA n (vec_of (S := Rs) x') y <=
    4 * ((sqrt hi - sqrt lo) / (sqrt hi + sqrt lo)) ^ (2 * Z.to_nat (passes_made mA mM n par b x x' k)) * energy_dist mA n (vec_of (S := Rs) x) y.
Proof.
  intros HA HM As Ap Ms b x par w u w' u' x' k y lo hi Hw Hb Hx Ht Er Hy (Hl0 & Hlh) He.
  assert (Hs : slt (s := Rs) lo hi = true) by (cbn; destruct (Rlt_dec lo hi); [reflexivity|contradiction]).
  pose proof (pcg_rate Rs_field Rs_eqb Rs_order Rs_sum_order Rs_prod_order I A M n mA mM HA HM As Ap Ms b x par w u w' u' x' k y lo hi Hw Hb Hx Ht Er Hy Hs He) as H.
  apply Rle_sle in H. set (m := Z.to_nat _) in *.
  assert (Hq : 0 < sqrt lo < sqrt hi) by (split; [now apply sqrt_lt_R0|apply sqrt_lt_1; lra]).
  assert (El : sqrt lo * sqrt lo = lo) by (apply sqrt_sqrt; lra). assert (Eh : sqrt hi * sqrt hi = hi) by (apply sqrt_sqrt; lra).
  replace (2 * m)%nat with (m + m)%nat by lia. rewrite pow_add.
  apply (rate_power _ ((hi + lo) / (hi - lo))).
  - set (p := sqrt lo) in *. set (q := sqrt hi) in *. clearbody p q. rewrite <- El, <- Eh. field. split; nra.
  - apply Rlt_le, Rdiv_lt_0_compat; lra.
  - apply (Rle_sle 0). apply (form_nn Rs_field Rs_eqb Rs_order n mA _ Ap).
  - exact H.
Qed.

Lemma least_rate_R n (mA mM : mat Rs) : mat_sym n mA -> mat_sym n mM -> mat_pos_def n mM ->
  forall (b x x' : list R) (m : Z) (y : vect Rs) (lo hi : R) (q : nat),
  least_residual mA mM n b x x' m -> (forall i, (0 <= i < n)%Z -> mat_vec mA n y i = vec_of (S := Rs) b i) ->
  0 < lo < hi -> magnitudes_in mA mM n lo hi -> (2 * Z.of_nat q <= m)%Z ->
  res_sq mA mM n b (vec_of (S := Rs) x') <= 4 * ((hi - lo) / (hi + lo)) ^ (2 * q) * res_sq mA mM n b (vec_of (S := Rs) x).
Proof.
  intros As Ms Mp b x x' m y lo hi q Hlr Hy (Hl0 & Hlh) He Hq.
  assert (Hs : slt (s := Rs) (lo * lo) (hi * hi) = true) by (cbn; destruct (Rlt_dec (lo * lo) (hi * hi)); [reflexivity|nra]).
  pose proof (least_rate Rs_field Rs_eqb Rs_order Rs_sum_order Rs_prod_order n mA mM As Ms Mp b x x' m y lo hi q Hlr Hy Hs He Hq) as H.
  apply Rle_sle in H. replace (2 * q)%nat with (q + q)%nat by lia. rewrite pow_add.
  apply (rate_power _ ((hi * hi + lo * lo) / (hi * hi - lo * lo))).
  - field. split; nra.
  - apply Rlt_le, Rdiv_lt_0_compat; lra.
  - apply (Rle_sle 0). apply (form_nn Rs_field Rs_eqb Rs_order n mM _ Mp).
  - exact H.
Qed.

End RateR.

Lemma minres_rate {S : scalar} (F : field_laws S) (E : eqb_laws S) (O : order_laws S) (OS : sum_order_laws S) (OP : prod_order_laws S) (AL : abs_laws S)
  {W : Type} (I : W -> Prop) (A : op S W) n mA : acts_as I A n mA -> mat_sym n mA -> forall (root : car S -> car S), mat_nonsingular n mA -> root_laws root ->
  forall (par : sparams S) (w : W) (u : mbuf S) (b x : list (car S)) (w' : W) (u' : mbuf S) (l' : mloc S) (x' : list (car S)) (k : Z)
         (y : vect S) (lo hi : car S) (q : nat),
  minres_state I root A l_inner par n w u -> zlen b = n -> zlen x = n -> minres_mult root A l_inner par w u b x = Ok (w', u', l', x', k) ->
  (forall i, (0 <= i < n)%Z -> mat_vec mA n y i = vec_of b i) -> slt (lo * lo)%S (hi * hi)%S = true -> magnitudes_in mA id_mat n lo hi ->
  (2 * Z.of_nat q <= Z.min k (sp_max par))%Z ->
  sle (cheb q ((hi * hi + lo * lo) / (hi * hi - lo * lo)) * cheb q ((hi * hi + lo * lo) / (hi * hi - lo * lo)) * res_sq mA id_mat n b (vec_of x'))%S
      (res_sq mA id_mat n b (vec_of x)).
Proof.
  intros HA As root An Hr par w u b x w' u' l' x' k y lo hi q Hs Hb Hx Er Hy Hl He Hq.
  exact (least_rate F E O OS OP n mA id_mat As (idm_sym n) (idm_pos F O OS OP n) b x x' _ y lo hi q
    (minres_best F E O OS OP AL I A n mA HA As root An Hr par w u b x w' u' l' x' k Hs Hb Hx Er) Hy Hl He Hq).
Qed.

Lemma pminres_rate {S : scalar} (F : field_laws S) (E : eqb_laws S) (O : order_laws S) (OS : sum_order_laws S) (OP : prod_order_laws S) (AL : abs_laws S)
  {W : Type} (I : W -> Prop) (A : op S W) n mA : acts_as I A n mA -> mat_sym n mA -> forall (root : car S -> car S), mat_nonsingular n mA -> root_laws root ->
  forall (M : op S W) (mM : mat S) (par : sparams S) (w : W) (u : mbuf S) (b x : list (car S)) (w' : W) (u' : mbuf S) (l' : mloc S) (x' : list (car S)) (k : Z)
         (y : vect S) (lo hi : car S) (q : nat),
  acts_as I M n mM -> mat_sym n mM -> mat_pos_def n mM ->
  pminres_state I root A M l_inner par n w u -> zlen b = n -> zlen x = n -> pminres_mult root A M l_inner par w u b x = Ok (w', u', l', x', k) ->
  (forall i, (0 <= i < n)%Z -> mat_vec mA n y i = vec_of b i) -> slt (lo * lo)%S (hi * hi)%S = true -> magnitudes_in mA mM n lo hi ->
  (2 * Z.of_nat q <= Z.min k (sp_max par))%Z ->
  sle (cheb q ((hi * hi + lo * lo) / (hi * hi - lo * lo)) * cheb q ((hi * hi + lo * lo) / (hi * hi - lo * lo)) * res_sq mA mM n b (vec_of x'))%S
      (res_sq mA mM n b (vec_of x)).
Proof.
  intros HA As root An Hr M mM par w u b x w' u' l' x' k y lo hi q HM Ms Mp Hs Hb Hx Er Hy Hl He Hq.
  exact (least_rate F E O OS OP n mA mM As Ms Mp b x x' _ y lo hi q
    (pminres_best F E O OS OP AL I A n mA HA As root An Hr M mM par w u b x w' u' l' x' k HM Ms Mp Hs Hb Hx Er) Hy Hl He Hq).
Qed.

Lemma minres_rate_R {W : Type} (I : W -> Prop) (A : op Rs W) n mA : acts_as I A n mA -> mat_sym n mA -> mat_nonsingular n mA ->
  forall (par : sparams Rs) (w : W) (u : mbuf Rs) (b x : list R) (w' : W) (u' : mbuf Rs) (l' : mloc Rs) (x' : list R) (k : Z)
         (y : vect Rs) (lo hi : R) (q : nat),
  minres_state (S := Rs) I sqrt A l_inner par n w u -> zlen b = n -> zlen x = n -> minres_mult (S := Rs) sqrt A l_inner par w u b x = Ok (w', u', l', x', k) ->
  (forall i, (0 <= i < n)%Z -> mat_vec mA n y i = vec_of (S := Rs) b i) -> 0 < lo < hi -> magnitudes_in mA id_mat n lo hi ->
  (2 * Z.of_nat q <= Z.min k (sp_max par))%Z ->
  res_sq mA id_mat n b (vec_of (S := Rs) x') <= 4 * ((hi - lo) / (hi + lo)) ^ (2 * q) * res_sq mA id_mat n b (vec_of (S := Rs) x).
Proof.
  intros HA As An par w u b x w' u' l' x' k y lo hi q Hs Hb Hx Er Hy Hl He Hq.
  exact (least_rate_R n mA id_mat As (idm_sym n) (idm_pos Rs_field Rs_order Rs_sum_order Rs_prod_order n) b x x' _ y lo hi q
    (minres_best Rs_field Rs_eqb Rs_order Rs_sum_order Rs_prod_order Rs_abs I A n mA HA As sqrt An Rs_root par w u b x w' u' l' x' k Hs Hb Hx Er) Hy Hl He Hq).
Qed.

Lemma pminres_rate_R {W : Type} (I : W -> Prop) (A : op Rs W) n mA : acts_as I A n mA -> mat_sym n mA -> mat_nonsingular n mA ->
  forall (M : op Rs W) (mM : mat Rs) (par : sparams Rs) (w : W) (u : mbuf Rs) (b x : list R) (w' : W) (u' : mbuf Rs) (l' : mloc Rs) (x' : list R) (k : Z)
         (y : vect Rs) (lo hi : R) (q : nat),
  acts_as I M n mM -> mat_sym n mM -> mat_pos_def n mM ->
  pminres_state (S := Rs) I sqrt A M l_inner par n w u -> zlen b = n -> zlen x = n -> pminres_mult (S := Rs) sqrt A M l_inner par w u b x = Ok (w', u', l', x', k) ->
  (forall i, (0 <= i < n)%Z -> mat_vec mA n y i = vec_of (S := Rs) b i) -> 0 < lo < hi -> magnitudes_in mA mM n lo hi ->
  (2 * Z.of_nat q <= Z.min k (sp_max par))%Z ->
  res_sq mA mM n b (vec_of (S := Rs) x') <= 4 * ((hi - lo) / (hi + lo)) ^ (2 * q) * res_sq mA mM n b (vec_of (S := Rs) x).
Proof.
  intros HA As An M mM par w u b x w' u' l' x' k y lo hi q HM Ms Mp Hs Hb Hx Er Hy Hl He Hq.
  exact (least_rate_R n mA mM As Ms Mp b x x' _ y lo hi q
    (pminres_best Rs_field Rs_eqb Rs_order Rs_sum_order Rs_prod_order Rs_abs I A n mA HA As sqrt An Rs_root M mM par w u b x w' u' l' x' k HM Ms Mp Hs Hb Hx Er) Hy Hl He Hq).
Qed.
