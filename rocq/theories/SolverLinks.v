(** The solver lemmas in the form in which PropSolver states them. *)

From Coq Require Import ZArith List Bool Lia Ring.
From Verif Require Import Base Scalar Spec Vec SumFacts LoopFacts HistoryProofs Block BlockSpec BlockOp
  Solver SolverSpec SolverProofs SolverMinres SolverMore SolverEnergy KrylovFacts SolverConverge SolverLanczos SolverReuse.
Import ListNotations.
Open Scope Z_scope.

Section Links.
Context {S : scalar}.
Notation T := (car S).

(** Any operator that represents a square matrix will do. *)
Lemma matrix_acts {W : Type} (I : W -> Prop) (o : op S W) n (A : mat S) :
  op_matrix I o A -> o_rows o = n -> o_cols o = n -> acts_as I o n A.
Proof.
  intros H Hr Hc. destruct H as (H0 & _ & H & _). refine (conj Hr (conj Hc (conj H0 _))).
  intros w x out Hw Hx Ho. pose proof (H w x out Hw Hx Ho) as Hc0.
  assert (Ef : mat_list A n x = map (mat_vec A (o_cols o) (vec_of x)) (zrange 0 (o_rows o))) by (unfold mat_list; now rewrite Hr, Hc).
  rewrite Ef. exact Hc0.
Qed.

Section Pcg.
Context {W : Type} (I : W -> Prop) (A : op S W) (M : option (op S W)) (dot : dotp S) (n : Z).
Context (mA : mat S) (fM : list T -> list T) (d : list T -> list T -> T).
Context (HA : acts_as I A n mA) (HM : prec_applies I M n fM) (Hd : dot_gives dot n d).

Lemma pcg_residual_end (R : ring_laws S) par w u b x w' u' x' k : I w -> zlen b = n -> zlen x = n ->
  pcg_mult A M dot par w u b x = Ok (w', u', x', k) ->
  zlen x' = n /\ pb_r u' = residual mA n b x' /\ pb_z u' = fM (residual mA n b x').
Proof.
  intros Hw Hb Hx E.
  destruct (pcg_residual I A M dot n mA fM d HA HM Hd R par w u b x w' u' x' k Hw Hb Hx E) as (H1 & _ & H2 & H3 & _). auto.
Qed.

Lemma pcg_stopping (R : ring_laws S) par w u b x w' u' x' k : I w -> zlen b = n -> zlen x = n ->
  pcg_mult A M dot par w u b x = Ok (w', u', x', k) -> k < sp_max par \/ k = 1 ->
  slt (d (fM (residual mA n b x')) (residual mA n b x')) (tolerance par (d (fM (residual mA n b x)) (residual mA n b x))) = true.
Proof.
  intros Hw Hb Hx E Hk.
  destruct (pcg_residual I A M dot n mA fM d HA HM Hd R par w u b x w' u' x' k Hw Hb Hx E) as (_ & _ & _ & _ & H4 & H5).
  apply H5. lia.
Qed.

End Pcg.

Section Exact.
Context (F : field_laws S) (E : eqb_laws S) (O : order_laws S) (OS : sum_order_laws S) (OP : prod_order_laws S)
  (AL : abs_laws S) (AQ : abs_square_law S).
Let R : ring_laws S := field_ring S F.
Context {W : Type} (I : W -> Prop) (A : op S W) (n : Z) (mA : mat S) (HA : acts_as I A n mA) (Asym : mat_sym n mA).

Lemma pcg_converges_within (M : option (op S W)) (mM : mat S) par w u b x :
  mat_pos_def n mA -> prec_applies I M n (mat_list mM n) -> mat_sym n mM ->
  I w -> zlen b = n -> zlen x = n ->
  slt s0 (tolerance par (inner n (vec_of (mat_list mM n (residual mA n b x))) (vec_of (residual mA n b x)))) = true ->
  slt (sp_floor par) s0 = true -> n < sp_max par ->
  exists w' u' x' k, pcg_mult A M l_inner par w u b x = Ok (w', u', x', k) /\ 1 <= k <= Z.max 1 n /\
    slt (inner n (vec_of (mat_list mM n (residual mA n b x'))) (vec_of (residual mA n b x')))
        (tolerance par (inner n (vec_of (mat_list mM n (residual mA n b x))) (vec_of (residual mA n b x)))) = true.
Proof.
  intros Ap HM Ms Hw Hb Hx Ht Hf Hm.
  destruct (pcg_converges F E O I A M n mA mM HA HM Asym Ap Ms par w u b x Hw Hb Hx Ht Hf Hm) as (w' & u' & x' & k & Ek & Hk).
  exists w', u', x', k. split; [exact Ek|]. split; [exact Hk|].
  exact (proj2 (proj2 (proj2 (proj2 (proj2 (pcg_residual I A M l_inner n mA (mat_list mM n) _ HA HM (l_inner_gives R n) R par w u b x w' u' x' k Hw Hb Hx Ek))))) ltac:(lia)).
Qed.

Context (root : T -> T) (Anons : mat_nonsingular n mA) (Hroot : root_laws root).

Lemma minres_state_ok par w u : minres_state I root A l_inner par n w u -> I w /\ mbuf_ok n u /\ 0 <= sp_max par.
Proof.
  intros (l & w0 & u0 & Hw & En & Hl & Ec). destruct (minres_new_ok I A n (mat_list mA n) HA None par u0 En) as (Hu & Hm).
  destruct (minres_calls_inv I A l_inner n (mat_list mA n) (fun v => v) _ HA (l_inner_gives R n) root (fun v _ => eq_refl)
              par l Hm w0 u0 w u Hw Hu Hl Ec) as (H1 & H2). auto.
Qed.
Lemma pminres_state_ok (M : op S W) fM par w u : o_rows M = n -> o_cols M = n -> op_applies I M fM ->
  pminres_state I root A M l_inner par n w u -> I w /\ mbuf_ok n u /\ 0 <= sp_max par.
Proof.
  intros HrM HcM HM (l & w0 & u0 & Hw & En & Hl & Ec). destruct (minres_new_ok I A n (mat_list mA n) HA (Some M) par u0 En) as (Hu & Hm).
  destruct (pminres_calls_inv I A l_inner n (mat_list mA n) fM _ HA (l_inner_gives R n) root
              M par l HrM HcM HM Hm w0 u0 w u Hw Hu Hl Ec) as (H1 & H2). auto.
Qed.

Lemma pminres_residual (M : op S W) mM par w u b x w' u' l' x' k :
  acts_as I M n mM -> mat_sym n mM -> mat_pos_def n mM ->
  pminres_state I root A M l_inner par n w u -> zlen b = n -> zlen x = n ->
  pminres_mult root A M l_inner par w u b x = Ok (w', u', l', x', k) ->
  zlen x' = n /\ exists e0 e, norm_of n mM (residual mA n b x) e0 /\ norm_of n mM (residual mA n b x') e /\
    sabs (m_eta l') = e /\ sle (smul e e) (smul e0 e0) /\
    (k <= sp_max par -> slt e (tolerance par e0) = true).
Proof.
  intros (HrM & HcM & HM) Ms Mp Hst Hb Hx Er.
  destruct (pminres_state_ok M _ par w u HrM HcM HM Hst) as (Hw & Hu & Hm). destruct HA as (E1 & E2 & H).
  pose proof (pminres_mult_loop I A l_inner n (mat_list mA n) (mat_list mM n) _ root E1 E2 H (l_inner_gives R n) M par w u b x HrM HcM HM Hw Hu Hb Hx) as HL.
  destruct (run_residual F E O OS OP n mA mM root b Asym Ms Mp Anons Hroot I _ _ AL AQ par x _ HL Hb Hx Hm) as [Hf|Hok]; [congruence|].
  destruct Hok as (w2 & u2 & l2 & x2 & k2 & E3 & _ & _ & Hl & e0 & e & H1 & H2 & H3 & H4 & _ & H5).
  rewrite Er in E3. injection E3 as <- <- <- <- <-. split; [exact Hl|]. exists e0, e. auto.
Qed.

Lemma minres_residual par w u b x w' u' l' x' k :
  minres_state I root A l_inner par n w u -> zlen b = n -> zlen x = n ->
  minres_mult root A l_inner par w u b x = Ok (w', u', l', x', k) ->
  zlen x' = n /\ exists e0 e, norm_of n id_mat (residual mA n b x) e0 /\ norm_of n id_mat (residual mA n b x') e /\
    sabs (m_eta l') = e /\ sle (smul e e) (smul e0 e0) /\
    (k <= sp_max par -> slt e (tolerance par e0) = true).
Proof.
  intros Hst Hb Hx Er.
  destruct (minres_state_ok par w u Hst) as (Hw & Hu & Hm). destruct HA as (E1 & E2 & H).
  pose proof (minres_mult_loop I A l_inner n (mat_list mA n) (mat_list id_mat n) _ root E1 E2 H (l_inner_gives R n) par w u b x
                (idm_list F n) Hw Hu Hb Hx) as HL.
  destruct (run_residual F E O OS OP n mA id_mat root b Asym (idm_sym n) (idm_pos F O OS OP n) Anons Hroot I _ _ AL AQ par x _ HL Hb Hx Hm) as [Hf|Hok]; [congruence|].
  destruct Hok as (w2 & u2 & l2 & x2 & k2 & E3 & _ & _ & Hl & e0 & e & H1 & H2 & H3 & H4 & _ & H5).
  rewrite Er in E3. injection E3 as <- <- <- <- <-. split; [exact Hl|]. exists e0, e. auto.
Qed.

Lemma minres_terminates par w u b x :
  minres_state I root A l_inner par n w u -> zlen b = n -> zlen x = n -> n <= sp_max par ->
  (exists i, 0 <= i < n /\ vec_of (residual mA n b x) i <> s0) ->
  (forall e, norm_of n id_mat (residual mA n b x) e -> slt s0 (tolerance par e) = true) ->
  exists w' u' l' x' k, minres_mult root A l_inner par w u b x = Ok (w', u', l', x', k) /\ 1 <= k <= n.
Proof.
  intros Hst Hb Hx Hm Hne Ht.
  destruct (minres_state_ok par w u Hst) as (Hw & Hu & _). pose proof (acts_n I A n mA HA) as Hn. destruct HA as (E1 & E2 & H).
  pose proof (minres_mult_loop I A l_inner n (mat_list mA n) (mat_list id_mat n) _ root E1 E2 H (l_inner_gives R n) par w u b x
                (idm_list F n) Hw Hu Hb Hx) as HL.
  exact (run_terminates F E O OS OP n mA id_mat root b Hn Asym (idm_sym n) (idm_pos F O OS OP n) Anons Hroot I _ _ AL par x _ HL Hb Hx Hm Hne Ht).
Qed.

Lemma pminres_terminates (M : op S W) mM par w u b x :
  acts_as I M n mM -> mat_sym n mM -> mat_pos_def n mM ->
  pminres_state I root A M l_inner par n w u -> zlen b = n -> zlen x = n -> n <= sp_max par ->
  (exists i, 0 <= i < n /\ vec_of (residual mA n b x) i <> s0) ->
  (forall e, norm_of n mM (residual mA n b x) e -> slt s0 (tolerance par e) = true) ->
  exists w' u' l' x' k, pminres_mult root A M l_inner par w u b x = Ok (w', u', l', x', k) /\ 1 <= k <= n.
Proof.
  intros (HrM & HcM & HM) Ms Mp Hst Hb Hx Hm Hne Ht.
  destruct (pminres_state_ok M _ par w u HrM HcM HM Hst) as (Hw & Hu & _). pose proof (acts_n I A n mA HA) as Hn. destruct HA as (E1 & E2 & H).
  pose proof (pminres_mult_loop I A l_inner n (mat_list mA n) (mat_list mM n) _ root E1 E2 H (l_inner_gives R n) M par w u b x HrM HcM HM Hw Hu Hb Hx) as HL.
  exact (run_terminates F E O OS OP n mA mM root b Hn Asym Ms Mp Anons Hroot I _ _ AL par x _ HL Hb Hx Hm Hne Ht).
Qed.

End Exact.

(** Fresh solvers from an exact start. *)
Lemma minres_run_exact {W : Type} (I : W -> Prop) (A : op S W) dot n (mA : mat S) d root par w b x :
  acts_as I A n mA -> dot_gives dot n d -> I w -> zlen b = n -> zlen x = n ->
  (forall i, 0 <= i < n -> (vec_of b i - mat_vec mA n (vec_of x) i)%S = s0) ->
  (forall r, zlen r = n -> all_zero r -> root (d r r) = s0) -> seqb (s0 : T) s0 = true -> 1 <= sp_max par ->
  minres_run root A dot par w b x = Fail FAssert.
Proof.
  intros HA Hd Hw Hb Hx H0 Hr Hs Hm. unfold minres_run.
  destruct HA as (E1 & E2 & H) eqn:EA. clear EA.
  assert (En : exists u, minres_new A None par = Ok u).
  { unfold minres_new, solver_checks, assert_. replace (0 <=? sp_max par) with true by lia. cbn [bind].
    rewrite E1, E2, Z.eqb_refl. cbn [bind]. destruct H as (H & _). rewrite vec_ok by lia. cbn [bind]. eauto. }
  destruct En as (u & En). rewrite En. cbn [bind].
  destruct (minres_new_ok I A n (mat_list mA n) (conj E1 (conj E2 H)) None par u En) as (Hu & _).
  exact (minres_exact_start I A dot n root mA d (conj E1 (conj E2 H)) Hd par w u b x Hw Hu Hb Hx H0 Hr Hs Hm).
Qed.
Lemma pminres_run_exact {W : Type} (I : W -> Prop) (A M : op S W) dot n (mA : mat S) fM d root par w b x :
  acts_as I A n mA -> o_rows M = n -> o_cols M = n -> op_applies I M fM ->
  dot_gives dot n d -> I w -> zlen b = n -> zlen x = n ->
  (forall i, 0 <= i < n -> (vec_of b i - mat_vec mA n (vec_of x) i)%S = s0) ->
  (forall r, zlen r = n -> all_zero r -> root (d (fM r) r) = s0) -> seqb (s0 : T) s0 = true -> 1 <= sp_max par ->
  pminres_run root A M dot par w b x = Fail FAssert.
Proof.
  intros HA HrM HcM HM Hd Hw Hb Hx H0 Hr Hs Hm. unfold pminres_run.
  destruct HA as (E1 & E2 & H) eqn:EA. clear EA.
  assert (En : exists u, minres_new A (Some M) par = Ok u).
  { unfold minres_new, solver_checks, assert_. replace (0 <=? sp_max par) with true by lia. cbn [bind].
    rewrite E1, E2, Z.eqb_refl. cbn [bind]. rewrite HcM, HrM, Z.eqb_refl. cbn [bind].
    destruct H as (H & _). rewrite vec_ok by lia. cbn [bind]. eauto. }
  destruct En as (u & En). rewrite En. cbn [bind].
  destruct (minres_new_ok I A n (mat_list mA n) (conj E1 (conj E2 H)) (Some M) par u En) as (Hu & _).
  exact (pminres_exact_start I A dot n root mA d (conj E1 (conj E2 H)) Hd M fM par w u b x HrM HcM HM Hw Hu Hb Hx H0 Hr Hs Hm).
Qed.

Lemma pcg_count_partial {W : Type} (A : op S W) (M : option (op S W)) dot par w u b x w' u' x' k : 2 <= sp_max par ->
  pcg_mult (counting A) (option_map beside M) dot par (w, 0) u b x = Ok (w', u', x', k) ->
  snd w' <= sp_max par /\ k <= sp_max par.
Proof. intros Hm H. apply pcg_mult_count in H. cbn [snd] in H. lia. Qed.
Lemma minres_count_partial {W : Type} root (A : op S W) dot par w u b x w' u' l' x' k : 0 <= sp_max par ->
  minres_mult (W := W * Z) root (counting A) dot par (w, 0) u b x = Ok (w', u', l', x', k) ->
  snd w' <= sp_max par + 1 /\ k <= sp_max par + 1.
Proof. intros Hm H. apply minres_mult_count in H; [|exact Hm]. cbn [snd] in H. lia. Qed.
Lemma pminres_count_partial {W : Type} root (A M : op S W) dot par w u b x w' u' l' x' k : 0 <= sp_max par ->
  pminres_mult (W := W * Z) root (counting A) (beside M) dot par (w, 0) u b x = Ok (w', u', l', x', k) ->
  snd w' <= sp_max par + 1 /\ k <= sp_max par + 1.
Proof. intros Hm H. apply pminres_mult_count in H; [|exact Hm]. cbn [snd] in H. lia. Qed.

(** With max_iter 0 or 1, PCG makes its first pass all the same. *)
Lemma pcg_ignores_limit {W : Type} (A : op S W) (M : option (op S W)) dot par w u b x w' u' x' k : sp_max par <= 1 ->
  pcg_mult (counting A) (option_map beside M) dot par (w, 0) u b x = Ok (w', u', x', k) -> x' <> x ->
  snd w' = 2.
Proof. intros Hm H Hx. apply pcg_first_pass in H; [|exact Hm]. destruct H as [(_ & _ & E)|(E & _)]; [contradiction|]. cbn [snd] in E. lia. Qed.

(** The advertised tolerance when rel_tol and abs_tol are at most one: MINRES is stricter. *)
Context (F : field_laws S) (O : order_laws S) (OS : sum_order_laws S) (OP : prod_order_laws S).
Let R2 : ring_laws S := field_ring S F.
Let Rth2 : ring_theory (@s0 S) s1 sadd smul ssub sopp (@eq (car S)) := R2.
Add Ring SRingLinks : Rth2.
Local Open Scope S_scope.

Lemma mul_le_one (a q : T) : sle s0 a -> sle q s1 -> sle (a * q) a.
Proof.
  intros Ha Hq. assert (H : sle s0 (a * (s1 - q))).
  { apply OP; [exact Ha|]. pose proof (sle_add _ OS q s1 (- q) (- q) Hq (sle_refl O _)) as H.
    replace (q + - q) with (s0 : T) in H by ring. replace (s1 + - q) with (s1 - q) in H by ring. exact H. }
  pose proof (sub_nonneg_le R2 O OS a _ H) as H1. replace (a - a * (s1 - q)) with (a * q) in H1 by ring. exact H1.
Qed.

Lemma tolerance_advertised par (e0 e : T) : sle s0 e0 -> sle s0 (sp_rel par) -> sle (sp_rel par) s1 ->
  sle s0 (sp_abs par) -> sle (sp_abs par) s1 ->
  slt e (tolerance par e0) = true -> slt e (larger (e0 * sp_rel par) (sp_abs par)) = true.
Proof.
  intros H0 Hr0 Hr1 Ha0 Ha1 H. unfold tolerance, larger in H.
  assert (L1 : sle (e0 * sp_rel par * sp_rel par) (e0 * sp_rel par)) by (apply mul_le_one; [apply OP; assumption|exact Hr1]).
  assert (L2 : sle (sp_abs par * sp_abs par) (sp_abs par)) by (apply mul_le_one; assumption).
  assert (L3 : sle (e0 * sp_rel par) (larger (e0 * sp_rel par) (sp_abs par))).
  { unfold larger. destruct (slt (e0 * sp_rel par) (sp_abs par)) eqn:Hc; [apply (slt_sle O); exact Hc|apply (sle_refl O)]. }
  assert (L4 : sle (sp_abs par) (larger (e0 * sp_rel par) (sp_abs par))).
  { unfold larger. destruct (slt (e0 * sp_rel par) (sp_abs par)) eqn:Hc; [apply (sle_refl O)|exact Hc]. }
  destruct (slt (e0 * sp_rel par * sp_rel par) (sp_abs par * sp_abs par)).
  - exact (slt_sle_trans O _ _ _ H (sle_trans O _ _ _ L2 L4)).
  - exact (slt_sle_trans O _ _ _ H (sle_trans O _ _ _ L1 L3)).
Qed.

End Links.
