(** Exact arithmetic: PCG reaches its tolerance in at most n passes. *)

From Coq Require Import ZArith List Bool Lia Ring Field_theory.
From Verif Require Import Base Scalar Spec Vec SumFacts LoopFacts Block BlockSpec BlockOp
  Solver SolverSpec SolverProofs SolverMore SolverEnergy KrylovFacts.
Import ListNotations.
Open Scope Z_scope.

Section Converge.
Context {S : scalar}.
Notation T := (car S).
Context (F : field_laws S) (E : eqb_laws S) (O : order_laws S) (OS : sum_order_laws S) (OP : prod_order_laws S).
Let R : ring_laws S := field_ring S F.
Let Rth : ring_theory (@s0 S) s1 sadd smul ssub sopp (@eq (car S)) := R.
Add Ring SRingC : Rth.
Local Open Scope S_scope.

Context {W : Type} (I : W -> Prop) (A : op S W) (M : option (op S W)) (n : Z).
Context (mA mM : mat S).
Context (HA : acts_as I A n mA) (HM : prec_applies I M n (mat_list mM n)).
Context (Asym : mat_sym n mA) (Apos : mat_pos_def n mA) (Msym : mat_sym n mM).

Notation d := (fun x y : list T => inner n (vec_of x) (vec_of y)).
Notation fA := (mat_list mA n).
Notation fM := (mat_list mM n).
Notation ipM := (ip n mM).

Record Kst (hist : list (vect S * vect S)) (u : pbuf S) : Prop := {
  k_z : pb_z u = fM (pb_r u);
  k_rp : inner n (vec_of (pb_r u)) (vec_of (pb_p u)) = inner n (vec_of (pb_r u)) (vec_of (pb_z u));
  k_1 : forall h, In h hist -> inner n (vec_of (pb_r u)) (snd h) = s0;
  k_2 : forall h, In h hist -> inner n (vec_of (pb_p u)) (mat_vec mA n (snd h)) = s0;
  k_3 : forall y, (forall h, In h hist -> inner n y (snd h) = s0) -> inner n y (vec_of (pb_p u)) = s0 ->
        ipM y (vec_of (pb_r u)) = s0 /\ forall h, In h hist -> ipM y (fst h) = s0;
  k_4 : forall y, (forall h, In h hist -> inner n y (fst h) = s0) -> inner n y (vec_of (pb_r u)) = s0 ->
        forall h, In h hist -> inner n y (mat_vec mA n (snd h)) = s0;
  k_5 : forall h, In h hist -> ipM (vec_of (pb_r u)) (fst h) = s0;
  k_6 : ortho n mM (map fst hist)
}.

Lemma fM_at r i : (0 <= i < n)%Z -> vec_of (fM r) i = mat_vec mM n (vec_of r) i.
Proof. apply mat_list_at. Qed.

Lemma inner_fM y r : inner n y (vec_of (fM r)) = ipM y (vec_of r).
Proof. apply inner_ext; [reflexivity|]. intros i Hi. apply fM_at. exact Hi. Qed.

Lemma Kst_step hist u x tol :
  plens n u x -> Kst hist u -> slt s0 tol = true ->
  slt (d (pb_z u) (pb_r u)) tol = false -> p_stop fA fM d tol u = false ->
  Kst ((vec_of (pb_r u), vec_of (pb_p u)) :: hist) (p_next fA fM d tol u).
Proof.
  intros [Lr Lp Lz Lx] [Kz Krp K1 K2 K3 K4 K5 K6] Ht Hns Hst.
  set (r := vec_of (pb_r u)) in *. set (p := vec_of (pb_p u)) in *. set (z := vec_of (pb_z u)) in *.
  set (al := p_alpha fA d u). set (r' := vec_of (p_r fA d u)). set (z' := vec_of (p_z fA fM d u)).
  set (be := p_beta fA fM d u).
  assert (Hrz : slt s0 (inner n r z) = true).
  { apply (slt_sle_trans O _ tol); [exact Ht|]. rewrite (inner_comm R). exact Hns. }
  assert (Hrz0 : inner n r z <> s0) by (apply not_eq_sym, (slt_neq O), Hrz).
  assert (Hp : exists i, (0 <= i < n)%Z /\ p i <> s0).
  { destruct (zero_or_not E n p) as [Hz|Hnz]; [|exact Hnz]. exfalso. apply Hrz0. rewrite <- Krp. apply (inner_0_r R), Hz. }
  pose proof (Apos p Hp) as HpAp. set (pAp := inner n p (mat_vec mA n p)) in *.
  assert (HpAp0 : pAp <> s0) by (apply not_eq_sym, (slt_neq O), HpAp).
  assert (Eal : al * pAp = inner n r z).
  { unfold al, p_alpha. fold r p z. replace (inner n p (vec_of (fA (pb_p u)))) with pAp.
    - apply (div_mul F), HpAp0.
    - apply inner_ext; [reflexivity|]. intros i Hi. rewrite mat_list_at by lia. reflexivity. }
  assert (Hal0 : al <> s0) by (intros H; apply Hrz0; rewrite <- Eal, H; ring).
  assert (Hr' : forall i, (0 <= i < n)%Z -> r' i = r i + (- al) * mat_vec mA n p i).
  { intros i Hi. unfold r', p_r. rewrite zipw_at by lia. rewrite mat_list_at by lia. fold al r p. ring. }
  assert (Hr'y : forall y, inner n r' y = inner n r y + (- al) * inner n (mat_vec mA n p) y).
  { intros y. rewrite <- (inner_lin_l R). apply inner_ext; [exact Hr'|reflexivity]. }
  assert (Hp' : forall i, (0 <= i < n)%Z -> vec_of (p_p fA fM d u) i = z' i + be * p i).
  { intros i Hi. unfold p_p. rewrite zipw_at by (rewrite zlen_map; lia). unfold vec_of at 1.
    rewrite (zn_map s0 s0) by lia. fold (vec_of (pb_p u) i). fold be p z'. ring. }
  assert (Hp'y : forall y, inner n y (vec_of (p_p fA fM d u)) = inner n y z' + be * inner n y p).
  { intros y. rewrite <- (inner_lin_r R). apply inner_ext; [reflexivity|exact Hp']. }
  assert (Ez' : forall y, inner n y z' = ipM y r') by (intros y; apply inner_fM).
  (* r' is orthogonal to all directions *)
  assert (H1 : forall h, In h hist -> inner n r' (snd h) = s0).
  { intros h Hh. rewrite Hr'y, (K1 h Hh). rewrite <- (inner_sym R n mA p (snd h) Asym), (K2 h Hh). ring. }
  assert (H1p : inner n r' p = s0).
  { rewrite Hr'y, Krp, (inner_comm R n (mat_vec mA n p)). fold pAp. rewrite <- Eal. ring. }
  destruct (K3 r' H1 H1p) as (H5r & H5).
  (* so z' is orthogonal to all residuals *)
  assert (Hz'r : inner n z' r = s0) by (rewrite (inner_comm R), Ez', (ip_sym F n mM Msym); exact H5r).
  assert (Hz'h : forall h, In h hist -> inner n z' (fst h) = s0).
  { intros h Hh. rewrite (inner_comm R), Ez', (ip_sym F n mM Msym). apply H5, Hh. }
  pose proof (K4 z' Hz'h Hz'r) as Hz'A.
  assert (HAp : forall y, al * inner n y (mat_vec mA n p) = inner n y r - inner n y r').
  { intros y. rewrite (inner_comm R n y r'), Hr'y, (inner_comm R n r y), (inner_comm R n (mat_vec mA n p)). ring. }
  unfold p_next. rewrite Hst. constructor; cbn [pb_r pb_p pb_z].
  - reflexivity.
  - fold r' z'. rewrite Hp'y, H1p. ring.
  - fold r'. intros h [<-|Hh]; [exact H1p|apply H1, Hh].
  - intros h [<-|Hh]; cbn [snd].
    + apply (mul_cancel F _ al); [|exact Hal0].
      rewrite (inner_comm R), Hp'y, (inner_comm R n _ p). fold pAp.
      transitivity (al * inner n z' (mat_vec mA n p) + be * (al * pAp)); [rewrite (inner_comm R n _ z'); ring|].
      rewrite HAp, Hz'r, Eal. unfold be, p_beta. cbv beta. fold z' r' z r.
      rewrite (inner_comm R n z r), (div_mul F) by exact Hrz0. ring.
    + rewrite (inner_comm R), Hp'y, (inner_comm R n _ z'), (Hz'A h Hh), (inner_comm R n _ p), (K2 h Hh). ring.
  - intros y Hy Hyp. rewrite Hp'y in Hyp.
    assert (Hyp0 : inner n y p = s0) by (exact (Hy _ (or_introl eq_refl))).
    destruct (K3 y (fun h Hh => Hy h (or_intror Hh)) Hyp0) as (Hy1 & Hy2). fold r'. split.
    + rewrite <- Ez'. rewrite Hyp0 in Hyp. transitivity (inner n y z' + be * s0); [ring|exact Hyp].
    + intros h [<-|Hh]; [exact Hy1|apply Hy2, Hh].
  - fold r'. intros y Hy Hyr'. assert (Hyr : inner n y r = s0) by (exact (Hy _ (or_introl eq_refl))).
    intros h [<-|Hh]; cbn [snd].
    + apply (mul_cancel F _ al); [|exact Hal0].
      transitivity (al * inner n y (mat_vec mA n p)); [ring|]. rewrite HAp, Hyr, Hyr'. ring.
    + apply (K4 y); auto. intros h' Hh'. apply Hy. right. exact Hh'.
  - fold r'. intros h [<-|Hh]; [exact H5r|apply H5, Hh].
  - cbn [map ortho fst]. split; [|split; [|exact K6]].
    + intros v Hv. apply in_map_iff in Hv. destruct Hv as (h & <- & Hh). apply K5, Hh.
    + intros H. apply Hrz0. rewrite <- H. unfold z, r. rewrite Kz. apply inner_fM.
Qed.

Lemma Kst_len hist u tol : (0 <= n)%Z -> Kst hist u -> slt s0 tol = true -> slt (d (pb_z u) (pb_r u)) tol = false ->
  (Z.of_nat (length hist) + 1 <= n)%Z.
Proof.
  intros Hn K Ht Hns.
  assert (Ho : ortho n mM (vec_of (pb_r u) :: map fst hist)).
  { cbn [ortho]. split; [|split; [|apply (k_6 _ _ K)]].
    - intros v Hv. apply in_map_iff in Hv. destruct Hv as (h & <- & Hh). apply (k_5 _ _ K), Hh.
    - intros H. cbv beta in Hns. rewrite (inner_comm R), (k_z _ _ K), inner_fM, H in Hns. congruence. }
  pose proof (ortho_length F E n mM Msym _ Hn Ho) as Hl. cbn [length] in Hl. rewrite map_length in Hl. lia.
Qed.

Lemma pcg_loop_converges par tol : slt s0 tol = true -> slt (sp_floor par) s0 = true -> (n < sp_max par)%Z ->
  forall fuel hist w u x, I w -> plens n u x -> Kst hist u ->
  slt (d (pb_z u) (pb_r u)) tol = false ->
  (sp_max par <= Z.of_nat (length hist) + 2 + Z.of_nat fuel)%Z ->
  exists w' u' x' k, pcg_loop fuel A M l_inner par tol (Z.of_nat (length hist) + 1) w u x = Ok (w', u', x', k) /\ (1 <= k <= n)%Z.
Proof.
  intros Ht Hfl Hmax. pose proof (acts_n I A n mA HA) as Hn. destruct HA as (E1 & E2 & H).
  induction fuel as [|fuel IH]; intros hist w u x Hw Hl K Hns Hf;
    pose proof (Kst_len hist u tol Hn K Ht Hns) as Hlen;
    (destruct (p_step_case I A M l_inner n fA fM d E1 E2 H HM (l_inner_gives R n) par tol w u x Hw Hl)
       as (Hl' & [(_ & w' & Es & Hw')|(Ef & _)]);
     [|exfalso]).
  2, 4:
    assert (Hp : exists i, (0 <= i < n)%Z /\ vec_of (pb_p u) i <> s0) by
      (destruct (zero_or_not E n (vec_of (pb_p u))) as [Hz|Hnz]; [|exact Hnz]; exfalso;
       cbv beta in Hns; rewrite (inner_comm R), <- (k_rp _ _ K), (inner_0_r R) in Hns by exact Hz; congruence);
    pose proof (Apos _ Hp) as HpAp;
    cbv beta in Ef; rewrite (inner_ext n _ (vec_of (pb_p u)) _ (mat_vec mA n (vec_of (pb_p u)))) in Ef
      by (auto; intros i Hi; apply mat_list_at; exact Hi);
    rewrite (slt_trans _ O _ _ _ Hfl HpAp) in Ef; discriminate.
  - cbn [pcg_loop]. rewrite Es. cbn [bind]. destruct (p_stop fA fM d tol u) eqn:Est.
    + do 4 eexists. split; [reflexivity|lia].
    + exfalso. pose proof (Kst_step hist u x tol Hl K Ht Hns Est) as K'.
      pose proof (Kst_len _ _ tol Hn K' Ht Est) as Hlen'. cbn [length] in Hlen'. lia.
  - cbn [pcg_loop]. rewrite Es. cbn [bind]. destruct (p_stop fA fM d tol u) eqn:Est.
    + do 4 eexists. split; [reflexivity|lia].
    + pose proof (Kst_step hist u x tol Hl K Ht Hns Est) as K'.
      pose proof (Kst_len _ _ tol Hn K' Ht Est) as Hlen'. cbn [length] in Hlen'.
      rewrite (proj2 (Z.ltb_lt _ _)) by lia.
      destruct (IH _ w' (p_next fA fM d tol u) (p_x fA d u x) Hw' Hl' K' Est) as (w2 & u2 & x2 & k & Ek & Hk);
        [cbn [length]; lia|].
      exists w2, u2, x2, k. split; [|exact Hk]. rewrite <- Ek. f_equal. cbn [length]. lia.
Qed.

Lemma Kst_start b x : zlen b = n -> Kst [] (p_start fA fM b x).
Proof.
  intros Hb. constructor; cbn [p_start pb_r pb_p pb_z];
    [reflexivity|reflexivity|intros h []|intros h []| |intros y _ _ h []|intros h []|exact Logic.I].
  intros y _ Hy. split; [|intros h []]. rewrite inner_fM in Hy. exact Hy.
Qed.

Theorem pcg_converges par w u b x : I w -> zlen b = n -> zlen x = n ->
  slt s0 (tolerance par (d (fM (residual mA n b x)) (residual mA n b x))) = true ->
  slt (sp_floor par) s0 = true -> (n < sp_max par)%Z ->
  exists w' u' x' k, pcg_mult A M l_inner par w u b x = Ok (w', u', x', k) /\ (1 <= k <= Z.max 1 n)%Z.
Proof.
  intros Hw Hb Hx Ht Hfl Hmax. pose proof (acts_n I A n mA HA) as Hn. destruct HA as (E1 & E2 & H).
  destruct (pcg_mult_case I A M l_inner n fA fM d E1 E2 H HM (l_inner_gives R n) par w u b x Hw Hb Hx) as (w' & Hw' & Eq).
  assert (Ht' : slt s0 (p_tol fA fM d par b x) = true).
  { unfold p_tol, p_start. cbn [pb_z pb_r]. rewrite residual_start by auto. exact Ht. }
  rewrite Eq. clear Eq. destruct (slt (d (pb_z (p_start fA fM b x)) (pb_r (p_start fA fM b x))) (p_tol fA fM d par b x)) eqn:Es.
  - do 4 eexists. split; [reflexivity|lia].
  - destruct (pcg_loop_converges par (p_tol fA fM d par b x) Ht' Hfl Hmax (Z.to_nat (sp_max par)) [] w' (p_start fA fM b x) x)
      as (w2 & u2 & x2 & k & Ek & Hk); auto.
    + exact (p_start_lens I A M n fA fM E1 E2 H HM w b x Hw Hb Hx).
    + apply Kst_start, Hb.
    + cbn [length]. lia.
    + exists w2, u2, x2, k. split; [exact Ek|lia].
Qed.

End Converge.
