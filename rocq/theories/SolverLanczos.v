(** Exact arithmetic: the number MINRES and PMINRES compare with the tolerance is the norm of the
    residual, which never grows; they need at most n passes. *)

From Coq Require Import ZArith List Bool Lia Ring Field.
From Verif Require Import Base Scalar Spec Vec SumFacts LoopFacts Block BlockSpec BlockOp
  Solver SolverSpec SolverProofs SolverMinres SolverMore SolverEnergy KrylovFacts.
Import ListNotations.
Open Scope Z_scope.

Section Lanczos.
Context {S : scalar}.
Notation T := (car S).
Context (F : field_laws S) (E : eqb_laws S) (O : order_laws S) (OS : sum_order_laws S) (OP : prod_order_laws S).
Let R : ring_laws S := field_ring S F.
Let Fth : field_theory (@s0 S) s1 sadd smul ssub sopp sdiv (fun x => sdiv s1 x) (@eq (car S)) := F.
Add Field SFieldL : Fth.
Local Open Scope S_scope.

Context (n : Z) (mA mM : mat S) (root : T -> T) (b : list T).
Context (Hn : (0 <= n)%Z).
Context (Asym : mat_sym n mA) (Msym : mat_sym n mM) (Mpos : mat_pos_def n mM).
Context (Anons : mat_nonsingular n mA) (Hroot : root_laws root).

Notation d := (fun x y : list T => inner n (vec_of x) (vec_of y)).
Notation fA := (mat_list mA n).
Notation fM := (mat_list mM n).
Notation ipM := (ip n mM).
Definition LL (v : vect S) : vect S := mat_vec mA n (mat_vec mM n v).

Definition perp (y : vect S) (hist : list (vect S)) : Prop := forall h, In h hist -> ipM y h = s0.

Definition hist_ok (v0 v1 : vect S) (hist : list (vect S)) : Prop :=
  match hist with
  | [] => forall i, (0 <= i < n)%Z -> v0 i = s0
  | h :: older => h = v0 /\ ipM h h = s1 /\ (forall y, perp y hist -> ipM y (LL h) = ipM y v1) /\
      forall g, In g older -> forall y, perp y hist -> ipM y (LL g) = s0
  end.

Record Minv (e0 : T) (hist : list (vect S)) (tp tpp : vect S) (s : mst) : Prop := {
  mi_u : a_u s = fM (a_v1 s);
  mi_beta : m_beta (a_l s) * m_beta (a_l s) = ipM (vec_of (a_v1 s)) (vec_of (a_v1 s));
  mi_g : m_g (a_l s) * m_g (a_l s) + m_s (a_l s) * m_s (a_l s) = s1;
  mi_g2 : m_g2 (a_l s) * m_g2 (a_l s) + m_s2 (a_l s) * m_s2 (a_l s) = s1;
  mi_t : forall i, (0 <= i < n)%Z -> tp i = m_g (a_l s) * vec_of (a_v0 s) i - m_s (a_l s) * tpp i;
  mi_w0 : forall i, (0 <= i < n)%Z -> mat_vec mA n (vec_of (a_w0 s)) i = m_g (a_l s) * tpp i + m_s (a_l s) * vec_of (a_v0 s) i;
  mi_w1 : forall i, (0 <= i < n)%Z -> m_beta (a_l s) * mat_vec mA n (vec_of (a_w1 s)) i =
            m_beta (a_l s) * m_g2 (a_l s) * tp i + m_s2 (a_l s) * vec_of (a_v1 s) i;
  mi_tp : m_s2 (a_l s) * m_s2 (a_l s) * ipM tp tp = m_s2 (a_l s) * m_s2 (a_l s);
  mi_orth : perp (vec_of (a_v1 s)) hist;
  mi_ortho : ortho n mM hist;
  mi_hist : hist_ok (vec_of (a_v0 s)) (vec_of (a_v1 s)) hist;
  mi_span : forall y, perp y hist -> ipM y tp = s0 /\ inner n y (vec_of (a_w0 s)) = s0 /\ inner n y (vec_of (a_w1 s)) = s0;
  mi_res : forall i, (0 <= i < n)%Z -> m_beta (a_l s) * vec_of (residual mA n b (a_x s)) i =
             m_eta (a_l s) * (m_g2 (a_l s) * vec_of (a_v1 s) i - m_s2 (a_l s) * m_beta (a_l s) * tp i);
  mi_eta : m_eta (a_l s) * m_eta (a_l s) = ipM (vec_of (residual mA n b (a_x s))) (vec_of (residual mA n b (a_x s)));
  mi_mono : sle (m_eta (a_l s) * m_eta (a_l s)) e0
}.

Lemma ip_nonneg (x : vect S) : sle s0 (ipM x x).
Proof.
  destruct (zero_or_not E n x) as [Hz|Hnz].
  - rewrite (ip_0_l F n mM x x Hz). apply (sle_refl O).
  - apply (slt_sle O). apply Mpos, Hnz.
Qed.
Lemma ip_definite (x : vect S) : ipM x x = s0 -> forall i, (0 <= i < n)%Z -> x i = s0.
Proof.
  intros H. destruct (zero_or_not E n x) as [Hz|Hnz]; [exact Hz|].
  exfalso. pose proof (Mpos x Hnz) as Hp. apply (slt_neq O) in Hp. apply Hp. symmetry. exact H.
Qed.

Lemma LL_sym x y : ipM (LL x) y = ipM x (LL y).
Proof.
  unfold ip, LL.
  rewrite <- (inner_sym R n mA (mat_vec mM n x) (mat_vec mM n y) Asym).
  rewrite (inner_sym R n mM x _ Msym). reflexivity.
Qed.

Lemma sq_zero (a : T) : a * a = s0 -> a = s0.
Proof.
  intros H. destruct (seqb a s0) eqn:Ea; [apply E; exact Ea|].
  apply (mul_cancel F a a H). intros Hz. apply E in Hz. congruence.
Qed.

Lemma add_nonneg_zero (a c : T) : sle s0 a -> sle s0 c -> a + c = s0 -> a = s0 /\ c = s0.
Proof.
  intros Ha Hc H.
  assert (Ha0 : sle a s0).
  { pose proof (sle_add _ OS a a s0 c (sle_refl O _) Hc) as H1. rewrite H in H1.
    replace (a + s0) with a in H1 by ring. exact H1. }
  pose proof (sle_antisym O _ _ Ha0 Ha) as ->. split; [reflexivity|].
  transitivity (s0 + c); [ring|exact H].
Qed.


(* ---------------------------------------------------------------- one pass *)

Section Step.
Context (e0 : T) (hist : list (vect S)) (tp tpp : vect S) (s : mst (S := S)).
Context (HL : mlens n s) (HI : Minv e0 hist tp tpp s).
Notation beta := (m_beta (a_l s)).
Notation g := (m_g (a_l s)).
Notation sg := (m_s (a_l s)).
Notation g2 := (m_g2 (a_l s)).
Notation sg2 := (m_s2 (a_l s)).
Notation eta := (m_eta (a_l s)).
Context (Hb : beta <> s0).
Notation V0 := (vec_of (a_v0 s)).
Notation V1 := (vec_of (a_v1 s)).
Notation vn := (vec_of (n_v s)).
Notation un := (vec_of (n_u s)).
Notation alpha := (n_alpha fA d s).
Notation delta := (n_delta fA d s).
Notation rho1 := (n_rho1 n fA fM d root s).
Notation beta' := (n_beta n fA fM d root s).
Notation VV := (vec_of (n_v0 n fA d s)).
Notation nw := (vec_of (n_w n fA fM d root s)).

Lemma vn_at i : (0 <= i < n)%Z -> vn i = V1 i / beta.
Proof.
  intros Hi. unfold n_v, vec_of. rewrite (zn_map s0) by (rewrite (ml_v1 _ _ HL); lia). reflexivity.
Qed.
Lemma V1_at i : (0 <= i < n)%Z -> V1 i = beta * vn i.
Proof. intros Hi. rewrite vn_at by exact Hi. field. exact Hb. Qed.

Lemma un_at i : (0 <= i < n)%Z -> un i = mat_vec mM n vn i.
Proof.
  intros Hi. transitivity (vec_of (a_u s) i / beta).
  - unfold n_u, vec_of. rewrite (zn_map s0) by (rewrite (ml_u _ _ HL); lia). reflexivity.
  - rewrite (mi_u _ _ _ _ _ HI), mat_list_at by exact Hi.
    rewrite (mat_vec_ext mM mM n vn (fun j => s0 + (s1 / beta) * V1 j)); [|reflexivity|].
    + rewrite (mat_vec_axpy R mM n (fun _ => s0)).
      replace (mat_vec mM n (fun _ => s0) i) with (s0 : T); [field; exact Hb|].
      symmetry. apply (sum_range_0 R). intros j _. ring.
    + intros j Hj. rewrite vn_at by exact Hj. field. exact Hb.
Qed.

Lemma q_at i : (0 <= i < n)%Z -> vec_of (n_q fA s) i = LL vn i.
Proof.
  intros Hi. unfold n_q. rewrite mat_list_at by exact Hi. apply mat_vec_ext; [reflexivity|]. intros j Hj. apply un_at, Hj.
Qed.

Lemma alpha_eq : alpha = ipM vn (LL vn).
Proof.
  unfold n_alpha. rewrite (inner_ext n un (mat_vec mM n vn) (vec_of (n_q fA s)) (LL vn) un_at q_at).
  unfold ip. rewrite (inner_sym R n mM vn _ Msym). reflexivity.
Qed.

Lemma VV_at i : (0 <= i < n)%Z -> VV i = LL vn i - beta * V0 i - alpha * vn i.
Proof.
  intros Hi. unfold n_v0. unfold vec_of at 1. rewrite zn_map_zrange by lia. rewrite q_at by exact Hi. reflexivity.
Qed.

Lemma ip_V1 y : ipM y V1 = beta * ipM y vn.
Proof.
  rewrite (ip_sym F n mM Msym), (ip_sym F n mM Msym y).
  rewrite (ip_ext n mM V1 (fun i => beta * vn i) y y V1_at ltac:(reflexivity)).
  apply (ip_mul_l F n mM).
Qed.

Lemma vn_norm : ipM vn vn = s1.
Proof.
  pose proof (mi_beta _ _ _ _ _ HI) as H. rewrite ip_V1, (ip_sym F n mM Msym), ip_V1 in H.
  assert (H1 : beta * (beta * (s1 - ipM vn vn)) = s0).
  { transitivity (beta * beta - beta * (beta * ipM vn vn)); [ring|]. rewrite <- H. ring. }
  assert (H2 : s1 - ipM vn vn = s0).
  { apply (mul_cancel F _ beta); [|exact Hb]. apply (mul_cancel F _ beta); [|exact Hb]. rewrite <- H1. ring. }
  transitivity (s1 - (s1 - ipM vn vn)); [ring|]. rewrite H2. ring.
Qed.

Lemma vn_perp : perp vn hist.
Proof.
  intros h Hh. pose proof (mi_orth _ _ _ _ _ HI h Hh) as H.
  rewrite (ip_sym F n mM Msym), ip_V1 in H.
  rewrite (ip_sym F n mM Msym). apply (mul_cancel F _ beta); [|exact Hb]. rewrite <- H. ring.
Qed.

Lemma V0_perp y : perp y hist -> ipM y V0 = s0.
Proof.
  intros H. pose proof (mi_hist _ _ _ _ _ HI) as Hh. destruct hist as [|h older] eqn:Eh.
  - cbn in Hh. apply (ip_0_r F n mM Msym). exact Hh.
  - destruct Hh as (<- & _). apply H. left. reflexivity.
Qed.

Lemma ip_VV y : ipM y VV = ipM y (LL vn) - beta * ipM y V0 - alpha * ipM y vn.
Proof.
  rewrite (ip_ext n mM y y VV (fun i => (LL vn i + (- beta) * V0 i) + (- alpha) * vn i) ltac:(reflexivity)).
  - rewrite (ip_lin_r F n mM Msym y (fun i => LL vn i + - beta * V0 i) vn), (ip_lin_r F n mM Msym). ring.
  - intros i Hi. rewrite VV_at by exact Hi. ring.
Qed.

Lemma VV_perp : perp VV (vn :: hist).
Proof.
  intros h [<-|Hh]; rewrite (ip_sym F n mM Msym), ip_VV.
  - rewrite (V0_perp vn vn_perp), vn_norm, <- alpha_eq. ring.
  - rewrite (ip_sym F n mM Msym h vn), (vn_perp h Hh), <- (LL_sym h vn), (ip_sym F n mM Msym (LL h)).
    pose proof (mi_hist _ _ _ _ _ HI) as H. pose proof (mi_ortho _ _ _ _ _ HI) as Ho.
    pose proof vn_perp as Hp. pose proof vn_norm as Hnn. pose proof (ip_V1 vn) as HV1.
    destruct hist as [|h0 older] eqn:Eh; [destruct Hh|]. destruct H as (E1 & E2 & E3 & E4).
    destruct Ho as (O1 & O2 & O3). destruct Hh as [<-|Hh].
    + rewrite (E3 vn Hp), HV1, Hnn, <- E1, E2. ring.
    + rewrite (E4 h Hh vn Hp), <- E1, (ip_sym F n mM Msym), (O1 h Hh). ring.
Qed.

Lemma perp_tail y : perp y (vn :: hist) -> perp y hist.
Proof. intros H h Hh. apply H. right. exact Hh. Qed.
Lemma perp_head y : perp y (vn :: hist) -> ipM y vn = s0.
Proof. intros H. apply H. left. reflexivity. Qed.

Lemma hist_next : hist_ok vn VV (vn :: hist).
Proof.
  cbn [hist_ok]. split; [reflexivity|]. split; [exact vn_norm|]. split.
  - intros y Hy. rewrite ip_VV, (V0_perp y (perp_tail y Hy)), (perp_head y Hy). ring.
  - intros h Hh y Hy. pose proof (mi_hist _ _ _ _ _ HI) as H. pose proof (perp_head y Hy) as Hy0. pose proof (perp_tail y Hy) as Hy'.
    pose proof (ip_V1 y) as HV1.
    destruct hist as [|h0 older] eqn:Eh; [destruct Hh|]. destruct H as (E1 & E2 & E3 & E4). destruct Hh as [<-|Hh].
    + rewrite (E3 y Hy'), HV1, Hy0. ring.
    + apply (E4 h Hh y Hy').
Qed.

Lemma ortho_next : ortho n mM (vn :: hist).
Proof.
  cbn [ortho]. split; [exact vn_perp|]. split; [rewrite vn_norm; apply F|exact (mi_ortho _ _ _ _ _ HI)].
Qed.

(** The direction of the residual. *)
Definition tt_ (i : Z) : T := g2 * vn i - sg2 * tp i.

Lemma w1_at i : (0 <= i < n)%Z -> mat_vec mA n (vec_of (a_w1 s)) i = g2 * tp i + sg2 * vn i.
Proof.
  intros Hi. pose proof (mi_w1 _ _ _ _ _ HI i Hi) as H. rewrite V1_at in H by exact Hi.
  transitivity (beta * mat_vec mA n (vec_of (a_w1 s)) i / beta); [field; exact Hb|]. rewrite H. field. exact Hb.
Qed.

Lemma res_at i : (0 <= i < n)%Z -> vec_of (residual mA n b (a_x s)) i = eta * tt_ i.
Proof.
  intros Hi. pose proof (mi_res _ _ _ _ _ HI i Hi) as H. rewrite V1_at in H by exact Hi.
  transitivity (beta * vec_of (residual mA n b (a_x s)) i / beta); [field; exact Hb|]. rewrite H. unfold tt_. field. exact Hb.
Qed.

Definition wt (i : Z) : T := (un i + (- n_rho3 s) * vec_of (a_w0 s) i) + (- n_rho2 fA d s) * vec_of (a_w1 s) i.

Lemma A_wt i : (0 <= i < n)%Z -> mat_vec mA n wt i = delta * tt_ i + VV i.
Proof.
  intros Hi. unfold wt. rewrite (mat_vec_axpy R mA n (fun j => un j + - n_rho3 s * vec_of (a_w0 s) j)), (mat_vec_axpy R).
  rewrite (mi_w0 _ _ _ _ _ HI i Hi), (w1_at i Hi), VV_at by exact Hi.
  rewrite (mat_vec_ext mA mA n un (mat_vec mM n vn)); [|reflexivity|intros; apply un_at; assumption].
  fold (LL vn). change (mat_vec mA n (mat_vec mM n vn) i) with (LL vn i).
  unfold tt_, n_delta, n_rho2, n_rho3. generalize (LL vn i). intros q.
  pose proof (mi_g _ _ _ _ _ HI) as H1. pose proof (mi_g2 _ _ _ _ _ HI) as H2. pose proof (mi_t _ _ _ _ _ HI i Hi) as H3.
  set (X := (s1 - (g * g + sg * sg)) * (beta * V0 i)).
  set (Y := (s1 - (g2 * g2 + sg2 * sg2)) * (alpha * vn i + g * beta * tp i)).
  match goal with |- _ = ?r => transitivity (r + X + Y) end.
  - unfold X, Y. rewrite H3. ring.
  - unfold X, Y. rewrite H1, H2. ring.
Qed.

Lemma ip_tt y : ipM y tt_ = g2 * ipM y vn - sg2 * ipM y tp.
Proof.
  rewrite (ip_ext n mM y y tt_ (fun i => (s0 + g2 * vn i) + (- sg2) * tp i) ltac:(reflexivity)).
  - rewrite (ip_lin_r F n mM Msym y (fun i => s0 + g2 * vn i) tp), (ip_lin_r F n mM Msym y (fun _ => s0) vn).
    rewrite (ip_0_r F n mM Msym y (fun _ => s0)) by reflexivity. ring.
  - intros i _. unfold tt_. ring.
Qed.

Lemma vn_tp : ipM vn tp = s0.
Proof. apply (mi_span _ _ _ _ _ HI vn vn_perp). Qed.

Lemma tt_norm : ipM tt_ tt_ = s1.
Proof.
  rewrite ip_tt, (ip_sym F n mM Msym tt_ vn), (ip_sym F n mM Msym tt_ tp), !ip_tt, vn_norm, vn_tp,
    (ip_sym F n mM Msym tp vn), vn_tp.
  pose proof (mi_tp _ _ _ _ _ HI) as H1. pose proof (mi_g2 _ _ _ _ _ HI) as H2.
  transitivity (g2 * g2 + sg2 * sg2 * ipM tp tp); [ring|]. rewrite H1. exact H2.
Qed.

Lemma tt_perp y : perp y (vn :: hist) -> ipM y tt_ = s0.
Proof.
  intros H. rewrite ip_tt, (perp_head y H). rewrite (proj1 (mi_span _ _ _ _ _ HI y (perp_tail y H))). ring.
Qed.

Lemma beta_sq : beta' * beta' = ipM VV VV.
Proof.
  unfold n_beta. set (q := inner n _ _).
  assert (Eq : q = ipM VV VV).
  { apply inner_ext; [reflexivity|]. intros i Hi. unfold n_mv. apply mat_list_at. exact Hi. }
  destruct (Hroot q) as (_ & H); [rewrite Eq; apply ip_nonneg|]. rewrite H. exact Eq.
Qed.

Lemma rho_sq : rho1 * rho1 = delta * delta + beta' * beta'.
Proof.
  unfold n_rho1. apply Hroot.
  pose proof (sle_add _ OS s0 (delta * delta) s0 (beta' * beta') (sq_nonneg R O OS OP _) (sq_nonneg R O OS OP _)) as H.
  replace (s0 + s0) with (s0 : T) in H by ring. exact H.
Qed.

Lemma wt_perp y : perp y (vn :: hist) -> inner n y wt = s0.
Proof.
  intros H. destruct (mi_span _ _ _ _ _ HI y (perp_tail y H)) as (_ & H0 & H1).
  unfold wt. rewrite (inner_lin_r R n y (fun i => un i + - n_rho3 s * vec_of (a_w0 s) i)), (inner_lin_r R), H0, H1.
  rewrite (inner_ext n y y un (mat_vec mM n vn) ltac:(reflexivity) un_at).
  change (inner n y (mat_vec mM n vn)) with (ipM y vn). rewrite (perp_head y H). ring.
Qed.

Lemma wt_vn : inner n vn wt = s1.
Proof.
  destruct (mi_span _ _ _ _ _ HI vn vn_perp) as (_ & H0 & H1).
  unfold wt. rewrite (inner_lin_r R n vn (fun i => un i + - n_rho3 s * vec_of (a_w0 s) i)), (inner_lin_r R), H0, H1.
  rewrite (inner_ext n vn vn un (mat_vec mM n vn) ltac:(reflexivity) un_at).
  change (inner n vn (mat_vec mM n vn)) with (ipM vn vn). rewrite vn_norm. ring.
Qed.

Lemma rho_nz : rho1 <> s0.
Proof.
  intros Hz. pose proof rho_sq as H. rewrite Hz in H.
  destruct (add_nonneg_zero (delta * delta) (beta' * beta') (sq_nonneg R O OS OP _) (sq_nonneg R O OS OP _)) as (Hd & Hb').
  { rewrite <- H. ring. }
  apply sq_zero in Hd. rewrite beta_sq in Hb'.
  assert (Hw : forall i, (0 <= i < n)%Z -> wt i = s0).
  { apply Anons. intros i Hi. rewrite A_wt, Hd, (ip_definite VV Hb') by exact Hi. ring. }
  pose proof wt_vn as H1. rewrite (inner_0_r R n vn wt Hw) in H1.
  apply (F_1_neq_0 F). symmetry. exact H1.
Qed.

Lemma nw_at i : (0 <= i < n)%Z -> nw i = (s1 / rho1) * wt i.
Proof.
  intros Hi. unfold n_w. unfold vec_of at 1. rewrite zn_map_zrange by lia. unfold wt. field. exact rho_nz.
Qed.

Lemma A_nw i : (0 <= i < n)%Z -> mat_vec mA n nw i = (delta * tt_ i + VV i) / rho1.
Proof.
  intros Hi. rewrite (mat_vec_ext mA mA n nw (fun j => s0 + (s1 / rho1) * wt j)); [|reflexivity|].
  - rewrite (mat_vec_axpy R mA n (fun _ => s0)).
    replace (mat_vec mA n (fun _ => s0) i) with (s0 : T).
    + rewrite A_wt by exact Hi. field. exact rho_nz.
    + symmetry. apply (sum_range_0 R). intros j _. ring.
  - intros j Hj. rewrite nw_at by exact Hj. ring.
Qed.

Lemma res_next i : (0 <= i < n)%Z ->
  vec_of (residual mA n b (n_x n fA fM d root s)) i =
  eta * (beta' * beta' * tt_ i - delta * VV i) / (rho1 * rho1).
Proof.
  intros Hi. rewrite residual_at by exact Hi.
  rewrite (mat_vec_ext mA mA n (vec_of (n_x n fA fM d root s)) (fun j => vec_of (a_x s) j + (delta / rho1 * eta) * nw j)); [|reflexivity|].
  - rewrite (mat_vec_axpy R), A_nw by exact Hi.
    pose proof (res_at i Hi) as Hr. rewrite residual_at in Hr by exact Hi.
    transitivity ((vec_of b i - mat_vec mA n (vec_of (a_x s)) i) - delta / rho1 * eta * ((delta * tt_ i + VV i) / rho1)); [ring|].
    rewrite Hr. pose proof rho_sq as Hq.
    transitivity (eta * ((rho1 * rho1 - delta * delta) * tt_ i - delta * VV i) / (rho1 * rho1)).
    + field. exact rho_nz.
    + rewrite Hq. replace (delta * delta + beta' * beta' - delta * delta) with (beta' * beta') by ring. reflexivity.
  - intros j Hj. unfold n_x. unfold vec_of at 1. rewrite zn_map_zrange by lia. reflexivity.
Qed.

Lemma ip_res_next :
  ipM (vec_of (residual mA n b (n_x n fA fM d root s))) (vec_of (residual mA n b (n_x n fA fM d root s))) =
  (beta' / rho1 * eta) * (beta' / rho1 * eta).
Proof.
  set (r := vec_of (residual mA n b (n_x n fA fM d root s))).
  set (c1 := eta * (beta' * beta') / (rho1 * rho1)). set (c2 := - (eta * delta) / (rho1 * rho1)).
  assert (Er : forall i, (0 <= i < n)%Z -> r i = (s0 + c1 * tt_ i) + c2 * VV i).
  { intros i Hi. unfold r. rewrite res_next by exact Hi. unfold c1, c2. field. exact rho_nz. }
  assert (Hy : forall y, ipM y r = c1 * ipM y tt_ + c2 * ipM y VV).
  { intros y. rewrite (ip_ext n mM y y r _ ltac:(reflexivity) Er).
    rewrite (ip_lin_r F n mM Msym y (fun i => s0 + c1 * tt_ i) VV), (ip_lin_r F n mM Msym y (fun _ => s0) tt_).
    rewrite (ip_0_r F n mM Msym y (fun _ => s0)) by reflexivity. ring. }
  rewrite Hy, (ip_sym F n mM Msym r tt_), (ip_sym F n mM Msym r VV), !Hy.
  rewrite tt_norm, <- beta_sq, (ip_sym F n mM Msym tt_ VV), (tt_perp VV VV_perp).
  transitivity (eta * eta * (beta' * beta') * (delta * delta + beta' * beta') / (rho1 * rho1 * (rho1 * rho1))).
  - unfold c1, c2. field. exact rho_nz.
  - rewrite <- rho_sq. field. exact rho_nz.
Qed.

Lemma Minv_next : Minv e0 (vn :: hist) tt_ tp (m_next n fA fM d root s).
Proof.
  constructor; cbn [m_next a_u a_v1 a_v0 a_w0 a_w1 a_x a_l n_l m_beta m_eta m_g m_g2 m_s m_s2].
  - reflexivity.
  - exact beta_sq.
  - exact (mi_g2 _ _ _ _ _ HI).
  - transitivity ((delta * delta + beta' * beta') / (rho1 * rho1)); [field; exact rho_nz|].
    rewrite <- rho_sq. field. exact rho_nz.
  - intros i Hi. reflexivity.
  - intros i Hi. apply w1_at, Hi.
  - intros i Hi. rewrite A_nw by exact Hi. field. exact rho_nz.
  - rewrite tt_norm. ring.
  - exact VV_perp.
  - exact ortho_next.
  - exact hist_next.
  - intros y Hy. split; [apply tt_perp, Hy|]. split.
    + apply (mi_span _ _ _ _ _ HI y (perp_tail y Hy)).
    + rewrite (inner_ext n y y nw (fun i => s0 + (s1 / rho1) * wt i) ltac:(reflexivity)).
      * rewrite (inner_lin_r R n y (fun _ => s0)), (wt_perp y Hy), (inner_0_r R n y (fun _ => s0)) by reflexivity. ring.
      * intros i Hi. rewrite nw_at by exact Hi. ring.
  - intros i Hi. rewrite res_next by exact Hi. unfold n_eta. field. exact rho_nz.
  - rewrite ip_res_next. unfold n_eta. ring.
  - apply (sle_trans O _ (eta * eta)); [|exact (mi_mono _ _ _ _ _ HI)].
    unfold n_eta. replace (- (beta' / rho1) * eta * (- (beta' / rho1) * eta)) with (eta * eta - (delta / rho1 * eta) * (delta / rho1 * eta)).
    + apply (sub_nonneg_le R O OS). apply (sq_nonneg R O OS OP).
    + transitivity (eta * eta * (rho1 * rho1 - delta * delta) / (rho1 * rho1)); [field; exact rho_nz|].
      rewrite rho_sq. replace (delta * delta + beta' * beta' - delta * delta) with (beta' * beta') by ring. 
      rewrite <- rho_sq. field. exact rho_nz.
Qed.

(** When the Lanczos process ends, the residual is zero. *)
Lemma eta_zero : beta' = s0 -> n_eta n fA fM d root s = s0.
Proof. intros H. unfold n_eta. rewrite H. field. exact rho_nz. Qed.

End Step.

Lemma Minv_start x :
  zlen b = n -> zlen x = n ->
  let s := m_start fA fM d root n b x in
  Minv (m_beta (a_l s) * m_beta (a_l s)) [] (fun _ => s0) (fun _ => s0) s.
Proof.
  intros Hb Hx s.
  assert (Er : a_v1 s = residual mA n b x) by (apply residual_start; exact Hb).
  assert (Hz : forall i, (0 <= i < n)%Z -> vec_of (repeat (s0 : T) (Z.to_nat n)) i = s0) by (intros i Hi; unfold vec_of; apply zn_repeat; lia).
  assert (Ez : forall i, (0 <= i < n)%Z -> mat_vec mA n (vec_of (repeat (s0 : T) (Z.to_nat n))) i = s0).
  { intros i Hi. apply (sum_range_0 R). intros j Hj. rewrite Hz by lia. ring. }
  assert (Hbeta : m_beta (a_l s) * m_beta (a_l s) = ipM (vec_of (a_v1 s)) (vec_of (a_v1 s))).
  { cbn [s m_start a_l m_beta a_v1]. set (r := zipw ssub b (fA x)).
    assert (Eq : inner n (vec_of (fM r)) (vec_of r) = ipM (vec_of r) (vec_of r)).
    { rewrite (inner_comm R). apply inner_ext; [reflexivity|]. intros i Hi. apply mat_list_at. exact Hi. }
    rewrite Eq. apply Hroot. apply ip_nonneg. }
  constructor.
  - reflexivity.
  - exact Hbeta.
  - cbn [s m_start a_l m_g m_s]. ring.
  - cbn [s m_start a_l m_g2 m_s2]. ring.
  - intros i Hi. cbn [s m_start a_l m_g m_s a_v0]. rewrite Hz by exact Hi. ring.
  - intros i Hi. cbn [s m_start a_l m_g m_s a_v0 a_w0]. rewrite Hz, Ez by exact Hi. ring.
  - intros i Hi. cbn [s m_start a_l m_g2 m_s2 m_beta a_w1 a_v1]. rewrite Ez by exact Hi. ring.
  - cbn [s m_start a_l m_s2]. ring.
  - intros h [].
  - exact Logic.I.
  - cbn [hist_ok]. exact Hz.
  - intros y _. split; [apply (ip_0_r F n mM Msym); reflexivity|]. split; apply (inner_0_r R); exact Hz.
  - intros i Hi. change (a_x s) with x. rewrite <- Er. cbn [s m_start a_l m_g2 m_s2 m_beta m_eta a_v1]. ring.
  - change (a_x s) with x. rewrite <- Er, <- Hbeta. reflexivity.
  - apply (sle_refl O).
Qed.


(* ---------------------------------------------------------------- the whole call *)

Section Run.
Context {W : Type} (I : W -> Prop) (K : mbuf S -> mst (S := S) -> Prop) (step : T -> mstep (S := S) (W := W)).
Context (AL : abs_laws S) (AQ : abs_square_law S).

Notation start x := (m_start fA fM d root n b x).

Lemma start_norm x : zlen b = n -> zlen x = n -> norm_of n mM (residual mA n b x) (m_beta (a_l (start x))).
Proof.
  intros Hb Hx. split.
  - cbn [m_start a_l m_beta]. apply Hroot. rewrite (inner_comm R).
    rewrite (inner_ext n _ (vec_of (zipw ssub b (fA x))) _ (mat_vec mM n (vec_of (zipw ssub b (fA x))))).
    + apply ip_nonneg.
    + reflexivity.
    + intros i Hi. apply mat_list_at. exact Hi.
  - rewrite (mi_beta _ _ _ _ _ (Minv_start x Hb Hx)).
    replace (a_v1 (start x)) with (residual mA n b x); [reflexivity|]. symmetry. apply residual_start. exact Hb.
Qed.

Lemma beta_dec (s : mst (S := S)) : seqb (m_beta (a_l s)) s0 = false -> m_beta (a_l s) <> s0.
Proof. intros H Hz. apply E in Hz. congruence. Qed.

Lemma run_residual par x run : mult_is_loop I n fA fM d root K step par (start x) run ->
  zlen b = n -> zlen x = n -> (0 <= sp_max par)%Z ->
  run = Fail FAssert \/
  exists w' u' l' x' k, run = Ok (w', u', l', x', k) /\ I w' /\ mbuf_ok n u' /\ zlen x' = n /\
    exists e0 e, norm_of n mM (residual mA n b x) e0 /\ norm_of n mM (residual mA n b x') e /\ sle (e * e) (e0 * e0) /\
    sabs (m_eta l') = e /\ (1 <= k <= sp_max par + 1)%Z /\
    ((k <= sp_max par)%Z -> slt e (tolerance par e0) = true).
Proof.
  intros Hrun Hb Hx Hm.
  set (e0 := m_beta (a_l (start x))).
  destruct (mult_loop_inv I n fA fM d root (fun s => exists hist tp tpp, Minv (e0 * e0) hist tp tpp s)
              K step par (start x) run Hrun Hm) as [Hf|Hok].
  - exists [], (fun _ => s0), (fun _ => s0). exact (Minv_start x Hb Hx).
  - intros s Hl (hist & tp & tpp & HI) Eb.
    exists (vec_of (n_v s) :: hist), (tt_ tp s), tp. exact (Minv_next _ _ _ _ s Hl HI (beta_dec s Eb)).
  - left. exact Hf.
  - right. destruct Hok as (w' & u' & s' & k & Ek & Hw' & HU' & Hl' & (hist & tp & tpp & HI) & Hk & Hst).
    exists w', u', (a_l s'), (a_x s'), k. split; [exact Ek|]. split; [exact Hw'|]. split; [exact HU'|]. split; [apply Hl'|].
    exists e0, (sabs (m_eta (a_l s'))). split; [exact (start_norm x Hb Hx)|].
    split; [split; [apply AL|rewrite AQ; exact (mi_eta _ _ _ _ _ HI)]|].
    split; [rewrite AQ; exact (mi_mono _ _ _ _ _ HI)|]. split; [reflexivity|]. split; [exact Hk|exact Hst].
Qed.

Lemma loop_terminates tol stp max : step_ok I n fA fM d root K stp tol -> slt s0 tol = true -> (n <= max)%Z ->
  forall left w u s e0 hist tp tpp, I w -> mlens n s -> K u s -> Minv e0 hist tp tpp s -> m_beta (a_l s) <> s0 ->
  (max <= Z.of_nat (length hist) + Z.of_nat left)%Z ->
  exists w' u' l' x' k, mloop left stp max (Z.of_nat (length hist) + 1) w u (a_l s) (a_x s) = Ok (w', u', l', x', k) /\
    (1 <= k <= n)%Z.
Proof.
  intros Hstep Ht Hmax. induction left as [|left IH]; intros w u s e0 hist tp tpp Hw Hl HK HI Hb Hleft;
    pose proof (ortho_length F E n mM Msym _ Hn (ortho_next _ _ _ _ s Hl HI Hb)) as Hlen; cbn [length] in Hlen; [lia|].
  cbn [mloop]. replace (Z.of_nat (length hist) + 1 <=? max)%Z with true by lia.
  pose proof (Hstep w u s Hw Hl HK) as H.
  destruct (seqb (m_beta (a_l s)) s0) eqn:Eb; [exfalso; apply Hb; apply E; exact Eb|].
  destruct H as (Hl' & w' & u' & Es & Hw' & _ & HK'). rewrite Es. cbn [bind].
  pose proof (Minv_next _ _ _ _ s Hl HI Hb) as HI'.
  destruct (m_stop n fA fM d root s tol) eqn:Est.
  - do 5 eexists. split; [reflexivity|lia].
  - assert (Hb' : m_beta (a_l (m_next n fA fM d root s)) <> s0).
    { intros Hz. pose proof (eta_zero _ _ _ _ s Hl HI Hb Hz) as He. unfold m_stop in Est. rewrite He in Est.
      rewrite (proj2 (sabs_zero _ AL s0) eq_refl) in Est. congruence. }
    destruct (IH w' u' (m_next n fA fM d root s) e0 (vec_of (n_v s) :: hist) _ _ Hw' Hl' (HK' eq_refl) HI' Hb')
      as (w2 & u2 & l2 & x2 & k & Ek & Hk).
    + cbn [length]. lia.
    + exists w2, u2, l2, x2, k. split; [|exact Hk]. rewrite <- Ek. cbn [length].
      replace (Z.of_nat (Datatypes.S (length hist)) + 1)%Z with (Z.of_nat (length hist) + 1 + 1)%Z by lia. reflexivity.
Qed.

Lemma run_terminates par x run : mult_is_loop I n fA fM d root K step par (start x) run ->
  zlen b = n -> zlen x = n -> (n <= sp_max par)%Z ->
  (exists i, (0 <= i < n)%Z /\ vec_of (residual mA n b x) i <> s0) ->
  (forall e, norm_of n mM (residual mA n b x) e -> slt s0 (tolerance par e) = true) ->
  exists w' u' l' x' k, run = Ok (w', u', l', x', k) /\ (1 <= k <= n)%Z.
Proof.
  intros (Hstep & Hl & w & u & Hw & _ & HK & ->) Hb Hx Hm Hne Ht.
  pose proof (start_norm x Hb Hx) as Hnorm.
  apply (loop_terminates (tolerance par (m_beta (a_l (start x)))) _ _ Hstep (Ht _ Hnorm) Hm
           (Z.to_nat (sp_max par)) w u (start x) _ [] _ _ Hw Hl HK (Minv_start x Hb Hx)).
  - intros Hz. destruct Hnorm as (_ & Hsq). rewrite Hz in Hsq.
    destruct Hne as (i & Hi & Hne). apply Hne.
    apply (ip_definite (vec_of (residual mA n b x))); [|exact Hi]. unfold ip. rewrite <- Hsq. ring.
  - cbn [length]. lia.
Qed.

End Run.

End Lanczos.
