(** MINRES and PMINRES return the vector of their Krylov space with the smallest residual. *)

From Coq Require Import ZArith List Bool Lia Ring Field.
From Verif Require Import Base Scalar Spec Vec SumFacts LoopFacts HistoryProofs Block BlockSpec BlockOp
  Solver SolverSpec SolverProofs SolverMinres SolverMore SolverEnergy KrylovFacts SolverLanczos SolverLinks KrylovSpec SolverOptimal.
Import ListNotations.
Open Scope Z_scope.

Section MinOpt.
Context {S : scalar}.
Notation T := (car S).
Context (F : field_laws S) (E : eqb_laws S) (O : order_laws S) (OS : sum_order_laws S) (OP : prod_order_laws S).
Let R : ring_laws S := field_ring S F.
Let Fth : field_theory (@s0 S) s1 sadd smul ssub sopp sdiv (fun x => sdiv s1 x) (@eq (car S)) := F.
Add Field SFieldMO : Fth.
Local Open Scope S_scope.

Context (n : Z) (mA mM : mat S) (root : T -> T) (b x0 : list T).
Context (Asym : mat_sym n mA) (Msym : mat_sym n mM) (Mpos : mat_pos_def n mM).
Context (Anons : mat_nonsingular n mA) (Hroot : root_laws root).

Notation d := (fun x y : list T => inner n (vec_of x) (vec_of y)).
Notation fA := (mat_list mA n).
Notation fM := (mat_list mM n).
Notation ipM := (ip n mM).
Notation LL := (LL n mA mM).
Notation perp := (perp n mM).
Notation r0 := (vec_of (residual mA n b x0)).
Notation kv := (krylov mA mM n r0).
Notation ks := (krylov_sum mA mM n r0).
Notation inK := (inK mA mM n r0).
Notation Minv := (Minv n mA mM b).
Notation MV v := (mat_vec mM n v).
Notation AV v := (mat_vec mA n v).

Record Oinv (hist : list (vect S)) (tp : vect S) (s : mst (S := S)) : Prop := {
  oi_v0 : inK (length hist) (MV (vec_of (a_v0 s)));
  oi_v1 : inK (Datatypes.S (length hist)) (MV (vec_of (a_v1 s)));
  oi_w0 : inK (length hist) (vec_of (a_w0 s));
  oi_w1 : inK (length hist) (vec_of (a_w1 s));
  oi_x : inK (length hist) (fun i => vec_of (a_x s) i - vec_of x0 i);
  oi_t : forall h, In h hist -> m_g2 (a_l s) * ipM (vec_of (a_v1 s)) (LL h) - m_s2 (a_l s) * m_beta (a_l s) * ipM tp (LL h) = s0;
  oi_t0 : m_g2 (a_l s) * ipM (vec_of (a_v1 s)) (AV (vec_of (a_w0 s))) - m_s2 (a_l s) * m_beta (a_l s) * ipM tp (AV (vec_of (a_w0 s))) = s0;
  oi_t1 : m_g2 (a_l s) * ipM (vec_of (a_v1 s)) (AV (vec_of (a_w1 s))) - m_s2 (a_l s) * m_beta (a_l s) * ipM tp (AV (vec_of (a_w1 s))) = s0;
  oi_y : forall y, perp y hist -> ipM y (AV (vec_of (a_w0 s))) = s0;
  oi_r : forall h, In h hist -> ipM (vec_of (residual mA n b (a_x s))) (LL h) = s0;
  oi_k : forall z, perp z hist -> forall j, (j < length hist)%nat -> inner n z (kv j) = s0;
  oi_0 : hist = [] -> forall i, (0 <= i < n)%Z -> vec_of (a_v1 s) i = r0 i
}.

Lemma inK_scale m v k : inK m v -> inK m (fun i => k * v i).
Proof.
  intros H. apply (inK_ext mA mM n r0 m (fun i => s0 + k * v i)); [intros; ring|]. apply (inK_lin R); [apply (inK_0 R)|exact H].
Qed.

Section Step.
Context (e0 : T) (hist : list (vect S)) (tp tpp : vect S) (s : mst (S := S)).
Context (HL : mlens n s) (HI : Minv e0 hist tp tpp s) (HO : Oinv hist tp s).
Notation beta := (m_beta (a_l s)).
Notation g2 := (m_g2 (a_l s)).
Notation sg2 := (m_s2 (a_l s)).
Notation eta := (m_eta (a_l s)).
Context (Hb : beta <> s0).
Notation V0 := (vec_of (a_v0 s)).
Notation V1 := (vec_of (a_v1 s)).
Notation W0 := (vec_of (a_w0 s)).
Notation W1 := (vec_of (a_w1 s)).
Notation vn := (vec_of (n_v s)).
Notation un := (vec_of (n_u s)).
Notation alpha := (n_alpha fA d s).
Notation delta := (n_delta fA d s).
Notation rho1 := (n_rho1 n fA fM d root s).
Notation beta' := (n_beta n fA fM d root s).
Notation VV := (vec_of (n_v0 n fA d s)).
Notation nw := (vec_of (n_w n fA fM d root s)).
Notation tt := (tt_ tp s).

Let VVp : perp VV (vn :: hist) := VV_perp F n mA mM b Asym Msym e0 hist tp tpp s HL HI Hb.
Let Hrho : rho1 <> s0 := rho_nz F E O OS OP n mA mM root b Msym Mpos Anons Hroot e0 hist tp tpp s HL HI Hb.

Lemma ip_V1_l X : ipM V1 X = beta * ipM vn X.
Proof.
  rewrite (ip_ext n mM V1 (fun i => beta * vn i) X X); [apply (ip_mul_l F)|intros i Hi; exact (V1_at F n s HL Hb i Hi)|reflexivity].
Qed.

Lemma tt_of X : g2 * ipM V1 X - sg2 * beta * ipM tp X = s0 -> ipM tt X = s0.
Proof.
  intros H. apply (mul_cancel F _ beta); [|exact Hb]. rewrite (ip_sym F n mM Msym tt X), (ip_tt F n mM Msym tp s), (ip_sym F n mM Msym X vn), (ip_sym F n mM Msym X tp).
  rewrite ip_V1_l in H. rewrite <- H. ring.
Qed.

Lemma VV_w1 : ipM VV (AV W1) = s0.
Proof.
  rewrite (ip_ext n mM VV VV (AV W1) (fun i => (s0 + g2 * tp i) + sg2 * vn i)); [|reflexivity|].
  - rewrite (ip_lin_r F n mM Msym VV (fun i => s0 + g2 * tp i)), (ip_lin_r F n mM Msym VV (fun _ => s0)), (ip_0_r F n mM Msym VV (fun _ => s0)) by reflexivity.
    rewrite (VVp vn (or_introl eq_refl)). rewrite (proj1 (mi_span _ _ _ _ _ _ _ _ _ HI VV (fun h H => VVp h (or_intror H)))). ring.
  - intros i Hi. rewrite (w1_at F n mA mM b e0 hist tp tpp s HL HI Hb i Hi). ring.
Qed.

Lemma y_w1 y : perp y (vn :: hist) -> ipM y (AV W1) = s0.
Proof.
  intros Hy. rewrite (ip_ext n mM y y (AV W1) (fun i => (s0 + g2 * tp i) + sg2 * vn i)); [|reflexivity|].
  - rewrite (ip_lin_r F n mM Msym y (fun i => s0 + g2 * tp i)), (ip_lin_r F n mM Msym y (fun _ => s0)), (ip_0_r F n mM Msym y (fun _ => s0)) by reflexivity.
    rewrite (Hy vn (or_introl eq_refl)). rewrite (proj1 (mi_span _ _ _ _ _ _ _ _ _ HI y (fun h H => Hy h (or_intror H)))). ring.
  - intros i Hi. rewrite (w1_at F n mA mM b e0 hist tp tpp s HL HI Hb i Hi). ring.
Qed.

Lemma VV_w0 : ipM VV (AV W0) = s0.
Proof. apply (oi_y _ _ _ HO). intros h H. apply VVp. now right. Qed.

Lemma VV_tt : ipM VV tt = s0.
Proof. exact (tt_perp F n mA mM b Msym e0 hist tp tpp s HI VV VVp). Qed.

Lemma VV_VV : ipM VV VV = beta' * beta'.
Proof. symmetry. exact (beta_sq F E O n mA mM root Mpos Hroot s). Qed.

Lemma tt_tt : ipM tt tt = s1.
Proof. exact (tt_norm F n mA mM b Msym e0 hist tp tpp s HL HI Hb). Qed.

(** the products with A wt, wt the new direction before scaling *)
Lemma ip_Awt y : ipM y (AV (wt n mA s)) = delta * ipM y tt + ipM y VV.
Proof.
  rewrite (ip_ext n mM y y (AV (wt n mA s)) (fun i => (s0 + delta * tt i) + s1 * VV i)); [|reflexivity|].
  - rewrite (ip_lin_r F n mM Msym y (fun i => s0 + delta * tt i)), (ip_lin_r F n mM Msym y (fun _ => s0)), (ip_0_r F n mM Msym y (fun _ => s0)) by reflexivity. ring.
  - intros i Hi. rewrite (A_wt F n mA mM b e0 hist tp tpp s HL HI Hb i Hi). ring.
Qed.

Lemma ip_Anw y : ipM y (AV nw) = (delta * ipM y tt + ipM y VV) / rho1.
Proof.
  rewrite (ip_ext n mM y y (AV nw) (fun i => (s0 + (delta / rho1) * tt i) + (s1 / rho1) * VV i)); [|reflexivity|].
  - rewrite (ip_lin_r F n mM Msym y (fun i => s0 + (delta / rho1) * tt i)), (ip_lin_r F n mM Msym y (fun _ => s0)), (ip_0_r F n mM Msym y (fun _ => s0)) by reflexivity. field. exact Hrho.
  - intros i Hi. rewrite (A_nw F E O OS OP n mA mM root b Msym Mpos Anons Hroot e0 hist tp tpp s HL HI Hb i Hi). field. exact Hrho.
Qed.

(** LL vn = A un *)
Lemma ip_LLvn y : ipM y (LL vn) = delta * ipM y tt + ipM y VV + n_rho3 s * ipM y (AV W0) + n_rho2 fA d s * ipM y (AV W1).
Proof.
  transitivity (ipM y (fun i => (AV (wt n mA s) i + n_rho3 s * AV W0 i) + n_rho2 fA d s * AV W1 i)).
  - apply ip_ext; [reflexivity|]. intros i Hi. unfold SolverLanczos.LL.
    rewrite <- (mat_vec_axpy R), <- (mat_vec_axpy R). apply mat_vec_ext; [reflexivity|]. intros j Hj.
    rewrite <- (un_at F n mA mM b e0 hist tp tpp s HL HI Hb j Hj). unfold wt. ring.
  - rewrite (ip_lin_r F n mM Msym y (fun i => AV (wt n mA s) i + n_rho3 s * AV W0 i)), (ip_lin_r F n mM Msym y (AV (wt n mA s))), ip_Awt. ring.
Qed.

Lemma VV_LL h : In h hist -> ipM VV (LL h) = s0.
Proof.
  intros Hh. pose proof (mi_hist _ _ _ _ _ _ _ _ _ HI) as H. unfold hist_ok in H. destruct hist as [|h0 older]; [destruct Hh|].
  destruct H as (-> & _ & H1 & H2). assert (Hp : perp VV (V0 :: older)) by (intros g Hg; apply VVp; now right). destruct Hh as [<-|Hh].
  - rewrite (H1 VV Hp). rewrite (ip_sym F n mM Msym), ip_V1_l, (ip_sym F n mM Msym), (VVp vn (or_introl eq_refl)). ring.
  - exact (H2 h Hh VV Hp).
Qed.

(** delta VV - beta'^2 tt is orthogonal to all of A K *)
Lemma new_LL h : In h (vn :: hist) -> delta * ipM VV (LL h) - beta' * beta' * ipM tt (LL h) = s0.
Proof.
  intros [<-|Hh].
  - rewrite !ip_LLvn, (ip_sym F n mM Msym tt VV), VV_tt, VV_VV, tt_tt, VV_w0, VV_w1, (tt_of _ (oi_t0 _ _ _ HO)), (tt_of _ (oi_t1 _ _ _ HO)). ring.
  - rewrite (VV_LL h Hh), (tt_of _ (oi_t _ _ _ HO h Hh)). ring.
Qed.

Lemma new_nw : delta * ipM VV (AV nw) - beta' * beta' * ipM tt (AV nw) = s0.
Proof. rewrite !ip_Anw, (ip_sym F n mM Msym tt VV), VV_tt, VV_VV, tt_tt. field. exact Hrho. Qed.

Lemma res_new h : In h (vn :: hist) -> ipM (vec_of (residual mA n b (n_x n fA fM d root s))) (LL h) = s0.
Proof.
  intros Hh. set (k := eta / (rho1 * rho1)).
  rewrite (ip_ext n mM _ (fun i => (s0 + k * (beta' * beta') * tt i) + (- (k * delta)) * VV i) (LL h) (LL h)); [| |reflexivity].
  - rewrite (ip_lin_l F n mM (LL h) (fun i => s0 + k * (beta' * beta') * tt i)), (ip_lin_l F n mM (LL h) (fun _ => s0)), (ip_0_l F n mM (fun _ => s0)) by reflexivity.
    transitivity ((- k) * (delta * ipM VV (LL h) - beta' * beta' * ipM tt (LL h))); [ring|]. rewrite (new_LL h Hh). ring.
  - intros i Hi. rewrite (res_next F E O OS OP n mA mM root b Msym Mpos Anons Hroot e0 hist tp tpp s HL HI Hb i Hi). unfold k. field. exact Hrho.
Qed.

(** what is orthogonal to the Lanczos vectors is orthogonal to the Krylov vectors *)
Lemma new_k z : perp z (vn :: hist) -> forall j, (j < Datatypes.S (length hist))%nat -> inner n z (kv j) = s0.
Proof.
  intros Hz j Hj. assert (Hz' : perp z hist) by (intros h H; apply Hz; now right).
  assert (HzV : ipM z V1 = s0) by (rewrite (ip_sym F n mM Msym), ip_V1_l, (ip_sym F n mM Msym), (Hz vn (or_introl eq_refl)); ring).
  destruct j as [|j].
  - destruct hist as [|h older] eqn:Eh.
    + cbn [krylov]. change (inner n z (mat_vec mM n r0)) with (ipM z r0). rewrite <- HzV. apply ip_ext; [reflexivity|]. intros i Hi. symmetry. now apply (oi_0 _ _ _ HO).
    + apply (oi_k _ _ _ HO z Hz'). cbn. lia.
  - cbn [krylov]. rewrite (inner_sym R n mM z _ Msym), (inner_sym R n mA _ _ Asym). apply (oi_k _ _ _ HO (LL z)); [|lia].
    intros h Hh. rewrite (LL_sym F n mA mM Asym Msym). pose proof (mi_hist _ _ _ _ _ _ _ _ _ HI) as H. unfold hist_ok in H.
    destruct hist as [|h0 older]; [destruct Hh|]. destruct H as (-> & _ & H1 & H2). destruct Hh as [<-|Hh]; [rewrite (H1 z Hz'); exact HzV|exact (H2 h Hh z Hz')].
Qed.

Lemma un_inK : inK (Datatypes.S (length hist)) un.
Proof.
  apply (inK_ext mA mM n r0 _ (fun i => (s1 / beta) * MV V1 i)); [|apply inK_scale, (oi_v1 _ _ _ HO)].
  intros i Hi. rewrite (un_at F n mA mM b e0 hist tp tpp s HL HI Hb i Hi).
  assert (H : MV V1 i = beta * MV vn i).
  { transitivity (MV (fun j => s0 + beta * vn j) i); [apply mat_vec_ext; [reflexivity|]; intros j Hj; rewrite (V1_at F n s HL Hb j Hj); ring|].
    rewrite (mat_vec_axpy R mM n (fun _ => s0)), (mat_vec_0 R) by reflexivity. ring. }
  rewrite H. field. exact Hb.
Qed.

Lemma nw_inK : inK (Datatypes.S (length hist)) nw.
Proof.
  apply (inK_ext mA mM n r0 _ (fun i => (s1 / rho1) * wt n mA s i)).
  - intros i Hi. symmetry. exact (nw_at F E O OS OP n mA mM root b Msym Mpos Anons Hroot e0 hist tp tpp s HL HI Hb i Hi).
  - apply inK_scale. unfold wt. apply (inK_lin R); [apply (inK_lin R); [exact un_inK|apply (inK_mono R), (oi_w0 _ _ _ HO)]|apply (inK_mono R), (oi_w1 _ _ _ HO)].
Qed.

Lemma Oinv_next : Oinv (vn :: hist) tt (m_next n fA fM d root s).
Proof.
  constructor; cbn [m_next a_u a_v1 a_v0 a_w0 a_w1 a_x a_l n_l m_beta m_eta m_g m_g2 m_s m_s2 length].
  - apply (inK_ext mA mM n r0 _ un); [exact (un_at F n mA mM b e0 hist tp tpp s HL HI Hb)|exact un_inK].
  - apply (inK_ext mA mM n r0 _ (fun i => (MV (AV un) i + (- beta) * MV V0 i) + (- alpha) * un i)).
    + intros i Hi. rewrite (un_at F n mA mM b e0 hist tp tpp s HL HI Hb i Hi).
      rewrite <- (mat_vec_axpy R mM n (AV un)), <- (mat_vec_axpy R). apply mat_vec_ext; [reflexivity|]. intros j Hj.
      rewrite (VV_at F n mA mM b e0 hist tp tpp s HL HI Hb j Hj). unfold SolverLanczos.LL.
      rewrite (mat_vec_ext mA mA n un (MV vn) j); [ring|reflexivity|exact (un_at F n mA mM b e0 hist tp tpp s HL HI Hb)].
    + apply (inK_lin R); [apply (inK_lin R)|].
      * apply (inK_MA R), un_inK.
      * apply (inK_mono R), (inK_mono R), (oi_v0 _ _ _ HO).
      * apply (inK_mono R), un_inK.
  - apply (inK_mono R), (oi_w1 _ _ _ HO).
  - exact nw_inK.
  - apply (inK_ext mA mM n r0 _ (fun i => (vec_of (a_x s) i - vec_of x0 i) + (delta / rho1 * eta) * nw i)).
    + intros i Hi. assert (Ex : vec_of (n_x n fA fM d root s) i = vec_of (a_x s) i + (delta / rho1 * eta) * nw i) by (unfold n_x; unfold vec_of at 1; rewrite zn_map_zrange by lia; reflexivity).
      rewrite Ex. ring.
    + apply (inK_lin R); [apply (inK_mono R), (oi_x _ _ _ HO)|exact nw_inK].
  - intros h Hh. transitivity ((delta * ipM VV (LL h) - beta' * beta' * ipM tt (LL h)) / rho1); [field; exact Hrho|]. rewrite (new_LL h Hh). field. exact Hrho.
  - rewrite VV_w1, (tt_of _ (oi_t1 _ _ _ HO)). ring.
  - transitivity ((delta * ipM VV (AV nw) - beta' * beta' * ipM tt (AV nw)) / rho1); [field; exact Hrho|]. rewrite new_nw. field. exact Hrho.
  - exact y_w1.
  - exact res_new.
  - exact new_k.
  - discriminate.
Qed.

End Step.

Notation start := (m_start fA fM d root n b x0).

Lemma Oinv_start : zlen b = n -> zlen x0 = n -> Oinv [] (fun _ => s0) start.
Proof.
  intros Hb Hx.
  assert (Er : a_v1 start = residual mA n b x0) by (apply residual_start; exact Hb).
  assert (Hz : forall i, (0 <= i < n)%Z -> vec_of (repeat (s0 : T) (Z.to_nat n)) i = s0) by (intros i Hi; unfold vec_of; apply zn_repeat; lia).
  assert (Hz0 : forall y, ipM y (AV (vec_of (repeat (s0 : T) (Z.to_nat n)))) = s0) by (intros y; apply (ip_0_r F n mM Msym); intros i Hi; now apply (mat_vec_0 R)).
  constructor; cbn [length].
  - apply (inK_ext mA mM n r0 _ (fun _ => s0)); [|apply (inK_0 R)]. intros i Hi. symmetry. now apply (mat_vec_0 R).
  - rewrite Er. apply (inK_v0 R).
  - apply (inK_ext mA mM n r0 _ (fun _ => s0)); [|apply (inK_0 R)]. intros i Hi. symmetry. now apply Hz.
  - apply (inK_ext mA mM n r0 _ (fun _ => s0)); [|apply (inK_0 R)]. intros i Hi. symmetry. now apply Hz.
  - apply (inK_ext mA mM n r0 _ (fun _ => s0)); [|apply (inK_0 R)]. intros i Hi. cbn [m_start a_x]. ring.
  - intros h [].
  - cbn [m_start a_w0]. rewrite !Hz0. ring.
  - cbn [m_start a_w1]. rewrite !Hz0. ring.
  - intros y _. cbn [m_start a_w0]. apply Hz0.
  - intros h [].
  - intros; lia.
  - intros _ i Hi. now rewrite Er.
Qed.

(** the result after m passes *)
Definition MFin (m : nat) (x : list T) : Prop :=
  inK m (fun i => vec_of x i - vec_of x0 i) /\ forall j, (j < m)%nat -> ipM (vec_of (residual mA n b x)) (AV (kv j)) = s0.

Lemma Oinv_fin hist tp s : Oinv hist tp s -> MFin (length hist) (a_x s).
Proof.
  intros HO. split; [exact (oi_x _ _ _ HO)|]. intros j Hj. set (r := vec_of (residual mA n b (a_x s))).
  unfold ip. rewrite (inner_sym R n mM r _ Msym), (inner_sym R n mA _ _ Asym). apply (oi_k _ _ _ HO (LL r)); [|exact Hj].
  intros h Hh. rewrite (LL_sym F n mA mM Asym Msym). exact (oi_r _ _ _ HO h Hh).
Qed.

Lemma MFin_orth m x e : MFin m x -> inK m e -> ipM (vec_of (residual mA n b x)) (AV e) = s0.
Proof.
  intros (_ & Ho) He. set (r := vec_of (residual mA n b x)) in *. unfold ip. rewrite (inner_sym R n mM r _ Msym), (inner_sym R n mA _ _ Asym).
  apply (inner_inK R mA mM n r0 m e _ He). intros j Hj. rewrite <- (inner_sym R n mA _ _ Asym), <- (inner_sym R n mM r _ Msym). exact (Ho j Hj).
Qed.

Lemma MFin_best m x c : MFin m x -> length c = m ->
  sle (res_sq mA mM n b (vec_of x)) (res_sq mA mM n b (fun i => vec_of x0 i + ks c i)).
Proof.
  intros Hf Hc. set (e := fun i => ks c i + (- s1) * (vec_of x i - vec_of x0 i)).
  assert (He : inK m e) by (apply (inK_lin R); [exists c; auto|exact (proj1 Hf)]).
  set (r := vec_of (residual mA n b x)).
  assert (E1 : res_sq mA mM n b (vec_of x) = ipM r r).
  { unfold res_sq. apply ip_ext; intros i Hi; unfold r; now rewrite residual_at. }
  assert (E2 : res_sq mA mM n b (fun i => vec_of x0 i + ks c i) = ipM r r + ipM (AV e) (AV e)).
  { transitivity (ipM (fun i => r i + (- s1) * AV e i) (fun i => r i + (- s1) * AV e i)).
    - unfold res_sq. assert (Hr : forall i, (0 <= i < n)%Z -> vec_of b i - AV (fun i => vec_of x0 i + ks c i) i = r i + - s1 * AV e i).
      { intros i Hi. unfold r. rewrite residual_at by exact Hi.
        assert (H : AV (fun i => vec_of x0 i + ks c i) i = AV (vec_of x) i + s1 * AV e i) by (rewrite <- (mat_vec_axpy R); apply mat_vec_ext; [reflexivity|]; intros j _; unfold e; ring).
        rewrite H. ring. }
      apply ip_ext; exact Hr.
    - rewrite (ip_lin_r F n mM Msym), !(ip_lin_l F n mM), (ip_sym F n mM Msym (AV e) r). assert (Ho : ipM r (AV e) = s0) by exact (MFin_orth m x e Hf He). rewrite Ho. ring. }
  rewrite E1, E2. replace (ipM r r) with ((ipM r r + ipM (AV e) (AV e)) - ipM (AV e) (AV e)) at 1 by ring.
  apply (sub_nonneg_le R O OS). apply (ip_nonneg F E O n mM Mpos).
Qed.

Lemma MFin_solution m x y c : MFin m x -> (forall i, (0 <= i < n)%Z -> mat_vec mA n y i = vec_of b i) -> (length c <= m)%nat ->
  (forall i, (0 <= i < n)%Z -> y i = vec_of x0 i + ks c i) -> forall i, (0 <= i < n)%Z -> vec_of (residual mA n b x) i = s0.
Proof.
  intros Hf Hy Hc Hyc. set (e := fun i => ks c i + (- s1) * (vec_of x i - vec_of x0 i)).
  assert (Hc' : inK m (ks c)).
  { replace m with (length c + (m - length c))%nat by lia. induction (m - length c)%nat as [|q IH]; [rewrite Nat.add_0_r; exists c; auto|]. rewrite Nat.add_succ_r. now apply (inK_mono R). }
  assert (He : inK m e) by (apply (inK_lin R); [exact Hc'|exact (proj1 Hf)]).
  assert (Er : forall i, (0 <= i < n)%Z -> vec_of (residual mA n b x) i = AV e i).
  { intros i Hi. rewrite residual_at by exact Hi. rewrite <- (Hy i Hi). transitivity (AV y i + (- s1) * AV (vec_of x) i); [ring|].
    rewrite <- (mat_vec_axpy R). apply mat_vec_ext; [reflexivity|]. intros j Hj. rewrite (Hyc j Hj). unfold e. ring. }
  apply (ip_definite E O n mM Mpos). rewrite <- (MFin_orth m x e Hf He). apply ip_ext; [reflexivity|exact Er].
Qed.

Section Run.
Context {W : Type} (I : W -> Prop) (K : mbuf S -> mst (S := S) -> Prop) (step : T -> mstep (S := S) (W := W)).
Context (AL : abs_laws S).

Notation reach := (reach n mA mM b x0).

Lemma loop_minopt tol stp max : step_ok I n fA fM d root K stp tol -> (0 <= max)%Z ->
  forall left w u s e0 hist tp tpp w' u' l' x' k, I w -> mlens n s -> K u s -> Minv e0 hist tp tpp s -> Oinv hist tp s ->
  (slt (sabs (m_eta (a_l s))) tol = false \/ m_eta (a_l s) = m_beta (a_l s)) -> (Z.of_nat (length hist) <= max)%Z ->
  mloop left stp max (Z.of_nat (length hist) + 1) w u (a_l s) (a_x s) = Ok (w', u', l', x', k) ->
  exists m, MFin m x' /\ Z.of_nat m = Z.min k max /\
    (slt s0 tol = true -> forall q, reach q -> (m <= Nat.max (length hist) q)%nat).
Proof.
  intros Hstep Hm0. induction left as [|left IH]; intros w u s e0 hist tp tpp w' u' l' x' k Hw Hl HK HI HO Hne Hlen Er; cbn [mloop] in Er.
  - destruct (Z.leb_spec (Z.of_nat (length hist) + 1) max); [discriminate|]. injection Er as <- <- <- <- <-.
    exists (length hist). split; [exact (Oinv_fin hist tp s HO)|]. split; [lia|]. intros _ q _. lia.
  - destruct (Z.leb_spec (Z.of_nat (length hist) + 1) max) as [Hle|Hgt].
    + pose proof (Hstep w u s Hw Hl HK) as H. destruct (seqb (m_beta (a_l s)) s0) eqn:Eb; [rewrite H in Er; discriminate|].
      destruct H as (Hl' & w1 & u1 & Es & Hw1 & _ & HK'). rewrite Es in Er. cbn [bind] in Er.
      pose proof (beta_dec E s Eb) as Hb.
      pose proof (Minv_next F E O OS OP n mA mM root b Asym Msym Mpos Anons Hroot e0 hist tp tpp s Hl HI Hb) as HI'.
      pose proof (Oinv_next e0 hist tp tpp s Hl HI HO Hb) as HO'.
      assert (Hq : slt s0 tol = true -> forall q, reach q -> (length hist < q)%nat).
      { intros Ht q (y & c & Hy & Hc & Hyc). destruct (Nat.lt_ge_cases (length hist) q) as [|Hge]; [assumption|]. exfalso.
        pose proof (MFin_solution _ _ y c (Oinv_fin hist tp s HO) Hy ltac:(lia) Hyc) as Hz.
        assert (He : m_eta (a_l s) = s0).
        { apply (sq_zero F E). rewrite (mi_eta _ _ _ _ _ _ _ _ _ HI). now apply (ip_0_l F). }
        destruct Hne as [Hne|Hne]; [|congruence]. rewrite He, (proj2 (sabs_zero _ AL s0) eq_refl) in Hne. congruence. }
      destruct (m_stop n fA fM d root s tol) eqn:Est.
      * injection Er as <- <- <- <- <-. exists (Datatypes.S (length hist)). split; [exact (Oinv_fin _ _ _ HO')|]. split; [lia|].
        intros Ht q Hr. specialize (Hq Ht q Hr). lia.
      * destruct (IH w1 u1 (m_next n fA fM d root s) e0 (vec_of (n_v s) :: hist) (tt_ tp s) tp w' u' l' x' k Hw1 Hl' (HK' eq_refl) HI' HO') as (m & Hf & Em & Hm).
        -- left. exact Est.
        -- cbn [length]. lia.
        -- rewrite <- Er. cbn [length]. replace (Z.of_nat (Datatypes.S (length hist)) + 1)%Z with (Z.of_nat (length hist) + 1 + 1)%Z by lia. reflexivity.
        -- exists m. split; [exact Hf|]. split; [exact Em|]. intros Ht q Hr. specialize (Hq Ht q Hr). specialize (Hm Ht q Hr). cbn [length] in Hm. lia.
    + injection Er as <- <- <- <- <-. exists (length hist). split; [exact (Oinv_fin hist tp s HO)|]. split; [lia|]. intros _ q _. lia.
Qed.

Lemma run_minopt par run w' u' l' x' k : mult_is_loop I n fA fM d root K step par start run ->
  zlen b = n -> zlen x0 = n -> (0 <= sp_max par)%Z -> run = Ok (w', u', l', x', k) ->
  exists m, MFin m x' /\ Z.of_nat m = Z.min k (sp_max par) /\
    ((forall e, norm_of n mM (residual mA n b x0) e -> slt s0 (tolerance par e) = true) -> forall q, reach q -> (m <= q)%nat).
Proof.
  intros (Hstep & Hl & w & u & Hw & _ & HK & ->) Hb Hx Hm Er.
  pose proof (start_norm F E O n mA mM root b Msym Mpos Hroot x0 Hb Hx) as Hnorm.
  destruct (loop_minopt _ _ _ Hstep Hm (Z.to_nat (sp_max par)) w u start _ [] _ _ w' u' l' x' k Hw Hl HK
              (Minv_start F E O n mA mM root b Msym Mpos Hroot x0 Hb Hx) (Oinv_start Hb Hx)) as (m & Hf & Em & Hq).
  - right. reflexivity.
  - cbn [length]. lia.
  - exact Er.
  - exists m. split; [exact Hf|]. split; [exact Em|]. intros Ht q Hr. specialize (Hq (Ht _ Hnorm) q Hr). cbn [length] in Hq. lia.
Qed.

End Run.

End MinOpt.

(* ---------------------------------------------------------------- the two solvers *)

Section Solvers.
Context {S : scalar}.
Notation T := (car S).
Context (F : field_laws S) (E : eqb_laws S) (O : order_laws S) (OS : sum_order_laws S) (OP : prod_order_laws S) (AL : abs_laws S).
Let R : ring_laws S := field_ring S F.
Let Rth : ring_theory (@s0 S) s1 sadd smul ssub sopp (@eq (car S)) := R.
Add Ring SRingMS : Rth.
Context {W : Type} (I : W -> Prop) (A : op S W) (n : Z) (mA : mat S) (HA : acts_as I A n mA) (Asym : mat_sym n mA).
Context (root : T -> T) (Anons : mat_nonsingular n mA) (Hroot : root_laws root).

Notation tol_pos mM par b x := (forall e, norm_of n mM (residual mA n b x) e -> slt s0 (tolerance par e) = true).

(** what run_minopt gives, in the words of the specification *)
Lemma minopt_spec mM par b x x' k m : mat_sym n mM -> mat_pos_def n mM ->
  MFin n mA mM b x m x' -> Z.of_nat m = Z.min k (sp_max par) -> (tol_pos mM par b x -> forall q, reach n mA mM b x q -> (m <= q)%nat) ->
  least_residual mA mM n b x x' (Z.min k (sp_max par)) /\
  (tol_pos mM par b x -> forall y q, reaches mA mM n b x y q -> Z.min k (sp_max par) <= q) /\
  (tol_pos mM par b x -> forall y ls, error_of mA mM n b x y ls -> Z.min k (sp_max par) <= zlen ls).
Proof.
  intros Ms Mp Hf Em Hq. rewrite <- Em.
  assert (H2 : tol_pos mM par b x -> forall y q, reaches mA mM n b x y q -> Z.of_nat m <= q).
  { intros Ht y q (Hy & c & Hc & Hyc). rewrite <- Hc. unfold zlen. apply inj_le, (Hq Ht). exists y, c. auto. }
  split; [|split; [exact H2|]].
  - split.
    + destruct Hf as ((c & Hc & Ec) & _). exists c. split; [unfold zlen; now rewrite Hc|]. intros i Hi. rewrite <- (Ec i Hi). ring.
    + intros c Hc. apply (MFin_best F E O OS n mA mM b x Asym Ms Mp m x' c Hf). unfold zlen in Hc. lia.
  - intros Ht y ls (Hy & es & He & Hl & Hs). apply (H2 Ht y). split; [exact Hy|].
    destruct (cut_space F n mA mM b x y ls Hy) as (c & Hc & Ec). exists c. split; [unfold zlen; now rewrite Hc|]. intros i Hi. rewrite <- (Ec i Hi).
    rewrite (cut_ext n mA mM ls _ (eigen_sum es)); [|intros j Hj; rewrite (Hs j Hj); ring|exact Hi].
    rewrite (cut_sum F n mA mM ls es Hl He i Hi). ring.
Qed.

Lemma minres_minopt par w u b x w' u' l' x' k :
  minres_state I root A l_inner par n w u -> zlen b = n -> zlen x = n ->
  minres_mult root A l_inner par w u b x = Ok (w', u', l', x', k) ->
  least_residual mA id_mat n b x x' (Z.min k (sp_max par)) /\
  (tol_pos id_mat par b x -> forall y q, reaches mA id_mat n b x y q -> Z.min k (sp_max par) <= q) /\
  (tol_pos id_mat par b x -> forall y ls, error_of mA id_mat n b x y ls -> Z.min k (sp_max par) <= zlen ls).
Proof.
  intros Hst Hb Hx Er.
  destruct (minres_state_ok F I A n mA HA root par w u Hst) as (Hw & Hu & Hm). destruct HA as (E1 & E2 & H).
  pose proof (minres_mult_loop I A l_inner n (mat_list mA n) (mat_list id_mat n) _ root E1 E2 H (l_inner_gives R n) par w u b x
                (idm_list F n) Hw Hu Hb Hx) as HL.
  destruct (run_minopt F E O OS OP n mA id_mat root b x Asym (idm_sym n) (idm_pos F O OS OP n) Anons Hroot I _ _ AL par _ w' u' l' x' k HL Hb Hx Hm Er) as (m & Hf & Em & Hq).
  exact (minopt_spec id_mat par b x x' k m (idm_sym n) (idm_pos F O OS OP n) Hf Em Hq).
Qed.

Lemma pminres_minopt (M : op S W) mM par w u b x w' u' l' x' k :
  acts_as I M n mM -> mat_sym n mM -> mat_pos_def n mM ->
  pminres_state I root A M l_inner par n w u -> zlen b = n -> zlen x = n ->
  pminres_mult root A M l_inner par w u b x = Ok (w', u', l', x', k) ->
  least_residual mA mM n b x x' (Z.min k (sp_max par)) /\
  (tol_pos mM par b x -> forall y q, reaches mA mM n b x y q -> Z.min k (sp_max par) <= q) /\
  (tol_pos mM par b x -> forall y ls, error_of mA mM n b x y ls -> Z.min k (sp_max par) <= zlen ls).
Proof.
  intros (HrM & HcM & HM) Ms Mp Hst Hb Hx Er.
  destruct (pminres_state_ok F I A n mA HA root M _ par w u HrM HcM HM Hst) as (Hw & Hu & Hm). destruct HA as (E1 & E2 & H).
  pose proof (pminres_mult_loop I A l_inner n (mat_list mA n) (mat_list mM n) _ root E1 E2 H (l_inner_gives R n) M par w u b x HrM HcM HM Hw Hu Hb Hx) as HL.
  destruct (run_minopt F E O OS OP n mA mM root b x Asym Ms Mp Anons Hroot I _ _ AL par _ w' u' l' x' k HL Hb Hx Hm Er) as (m & Hf & Em & Hq).
  exact (minopt_spec mM par b x x' k m Ms Mp Hf Em Hq).
Qed.

Lemma minres_best par w u b x w' u' l' x' k : minres_state I root A l_inner par n w u -> zlen b = n -> zlen x = n ->
  minres_mult root A l_inner par w u b x = Ok (w', u', l', x', k) ->
  least_residual mA id_mat n b x x' (Z.min k (sp_max par)).
Proof. intros Hs Hb Hx Er. exact (proj1 (minres_minopt par w u b x w' u' l' x' k Hs Hb Hx Er)). Qed.
Lemma minres_no_more par w u b x w' u' l' x' k y q : minres_state I root A l_inner par n w u -> zlen b = n -> zlen x = n ->
  minres_mult root A l_inner par w u b x = Ok (w', u', l', x', k) ->
  (forall e, norm_of n id_mat (residual mA n b x) e -> slt s0 (tolerance par e) = true) -> reaches mA id_mat n b x y q -> Z.min k (sp_max par) <= q.
Proof. intros Hs Hb Hx Er Ht. exact (proj1 (proj2 (minres_minopt par w u b x w' u' l' x' k Hs Hb Hx Er)) Ht y q). Qed.
Lemma minres_eigen par w u b x w' u' l' x' k y ls : minres_state I root A l_inner par n w u -> zlen b = n -> zlen x = n ->
  minres_mult root A l_inner par w u b x = Ok (w', u', l', x', k) ->
  (forall e, norm_of n id_mat (residual mA n b x) e -> slt s0 (tolerance par e) = true) -> error_of mA id_mat n b x y ls -> Z.min k (sp_max par) <= zlen ls.
Proof. intros Hs Hb Hx Er Ht. exact (proj2 (proj2 (minres_minopt par w u b x w' u' l' x' k Hs Hb Hx Er)) Ht y ls). Qed.

Lemma pminres_best (M : op S W) mM par w u b x w' u' l' x' k : acts_as I M n mM -> mat_sym n mM -> mat_pos_def n mM ->
  pminres_state I root A M l_inner par n w u -> zlen b = n -> zlen x = n ->
  pminres_mult root A M l_inner par w u b x = Ok (w', u', l', x', k) ->
  least_residual mA mM n b x x' (Z.min k (sp_max par)).
Proof. intros HM Ms Mp Hs Hb Hx Er. exact (proj1 (pminres_minopt M mM par w u b x w' u' l' x' k HM Ms Mp Hs Hb Hx Er)). Qed.
Lemma pminres_no_more (M : op S W) mM par w u b x w' u' l' x' k y q : acts_as I M n mM -> mat_sym n mM -> mat_pos_def n mM ->
  pminres_state I root A M l_inner par n w u -> zlen b = n -> zlen x = n ->
  pminres_mult root A M l_inner par w u b x = Ok (w', u', l', x', k) ->
  (forall e, norm_of n mM (residual mA n b x) e -> slt s0 (tolerance par e) = true) -> reaches mA mM n b x y q -> Z.min k (sp_max par) <= q.
Proof. intros HM Ms Mp Hs Hb Hx Er Ht. exact (proj1 (proj2 (pminres_minopt M mM par w u b x w' u' l' x' k HM Ms Mp Hs Hb Hx Er)) Ht y q). Qed.
Lemma pminres_eigen (M : op S W) mM par w u b x w' u' l' x' k y ls : acts_as I M n mM -> mat_sym n mM -> mat_pos_def n mM ->
  pminres_state I root A M l_inner par n w u -> zlen b = n -> zlen x = n ->
  pminres_mult root A M l_inner par w u b x = Ok (w', u', l', x', k) ->
  (forall e, norm_of n mM (residual mA n b x) e -> slt s0 (tolerance par e) = true) -> error_of mA mM n b x y ls -> Z.min k (sp_max par) <= zlen ls.
Proof. intros HM Ms Mp Hs Hb Hx Er Ht. exact (proj2 (proj2 (pminres_minopt M mM par w u b x w' u' l' x' k HM Ms Mp Hs Hb Hx Er)) Ht y ls). Qed.

End Solvers.

(** the passes are the applications of A after the first *)
Lemma minres_passes {S : scalar} {W : Type} (root : car S -> car S) (A : op S W) dot par w u b x w' u' l' x' k : 0 <= sp_max par ->
  minres_mult (W := W * Z) root (counting A) dot par (w, 0) u b x = Ok (w', u', l', x', k) -> snd w' = 1 + Z.min k (sp_max par).
Proof.
  intros Hm. unfold minres_mult. intros H. do 2 (apply bind_Ok in H; destruct H as (? & _ & H)).
  apply bind_Ok in H. destruct H as ((w1, q) & E1 & H). apply counting_vec in E1. cbn [snd] in E1.
  do 2 (apply bind_Ok in H; destruct H as (? & _ & H)).
  apply mloop_count in H; [|intros *; apply minres_step_count|lia]. destruct (Z.le_gt_cases k (sp_max par)); lia.
Qed.

Lemma pminres_passes {S : scalar} {W : Type} (root : car S -> car S) (A M : op S W) dot par w u b x w' u' l' x' k : 0 <= sp_max par ->
  pminres_mult (W := W * Z) root (counting A) (beside M) dot par (w, 0) u b x = Ok (w', u', l', x', k) -> snd w' = 1 + Z.min k (sp_max par).
Proof.
  intros Hm. unfold pminres_mult. intros H. do 2 (apply bind_Ok in H; destruct H as (? & _ & H)).
  apply bind_Ok in H. destruct H as ((w1, q) & E1 & H). apply counting_vec in E1. cbn [snd] in E1.
  apply bind_Ok in H; destruct H as (? & _ & H).
  apply bind_Ok in H. destruct H as ((w2, q2) & E2 & H). apply beside_vec in E2.
  apply bind_Ok in H; destruct H as (? & _ & H).
  apply mloop_count in H; [|intros *; apply pminres_step_count|lia]. destruct (Z.le_gt_cases k (sp_max par)); lia.
Qed.
