(** The Chebyshev bound of the conjugate gradients. *)

From Coq Require Import ZArith List Bool Lia Ring Field.
From Verif Require Import Base Scalar Spec Vec SumFacts LoopFacts Block BlockSpec BlockOp
  Solver SolverSpec SolverProofs SolverMinres SolverMore SolverEnergy KrylovFacts SolverLanczos SolverLinks KrylovSpec SolverOptimal SolverMinOpt RateSpec.
Import ListNotations.
Open Scope Z_scope.

Section Order.
Context {S : scalar} (R : ring_laws S) (O : order_laws S) (OS : sum_order_laws S).
Notation T := (car S).
Let Rth : ring_theory (@s0 S) s1 sadd smul ssub sopp (@eq (car S)) := R.
Add Ring SRingR0 : Rth.
Local Open Scope S_scope.

Lemma le_sub (a b : T) : sle a b <-> sle s0 (b - a).
Proof.
  split; intros H.
  - pose proof (sle_add _ OS a b (- a) (- a) H (sle_refl O _)) as K. replace (a + - a) with (@s0 S) in K by ring. replace (b + - a) with (b - a) in K by ring. exact K.
  - pose proof (sle_add _ OS s0 (b - a) a a H (sle_refl O _)) as K. replace (s0 + a) with a in K by ring. replace (b - a + a) with b in K by ring. exact K.
Qed.
Lemma nn_add (a b : T) : sle s0 a -> sle s0 b -> sle s0 (a + b).
Proof. intros Ha Hb. pose proof (sle_add _ OS _ _ _ _ Ha Hb) as K. replace (s0 + s0) with (@s0 S) in K by ring. exact K. Qed.
Lemma nn_half (a : T) : sle s0 (a + a) -> sle s0 a.
Proof.
  intros H. unfold sle in *. destruct (slt a s0) eqn:E; [|reflexivity].
  pose proof (slt_sle O _ _ E) as K. pose proof (sle_add _ OS _ _ _ _ K K) as K2. replace (s0 + s0) with (@s0 S) in K2 by ring.
  assert (Z0 : a + a = s0) by (apply (sle_antisym O); assumption).
  assert (Ha : a = - a) by (replace (- a) with (a - (a + a)) by ring; rewrite Z0; ring).
  assert (K3 : sle s0 a). { apply (le_sub a s0) in K. replace (s0 - a) with (- a) in K by ring. rewrite Ha. exact K. }
  unfold sle in K3. congruence.
Qed.
End Order.

(* ---------------------------------------------------------------- Chebyshev polynomials of an operator *)

Section Cheb.
Context {S : scalar} (R : ring_laws S) (O : order_laws S) (OS : sum_order_laws S).
Notation T := (car S).
Let Rth : ring_theory (@s0 S) s1 sadd smul ssub sopp (@eq (car S)) := R.
Add Ring SRingR1 : Rth.
Local Open Scope S_scope.

(** the scalars: T_(m+1) = t T_m + (t t - 1) U_m, U_(m+1) = t U_m + T_m *)
Fixpoint cTU (m : nat) (t : T) : T * T :=
  match m with
  | 0%nat => (s1, s0)
  | Datatypes.S k => let (c, u) := cTU k t in (t * c + (t * t - s1) * u, t * u + c)
  end.

Lemma cheb_TU m t : cheb m t = fst (cTU m t) /\ cheb (Datatypes.S m) t = fst (cTU (Datatypes.S m) t).
Proof.
  induction m as [|m (IH0 & IH1)]; [split; cbn; ring|]. split; [exact IH1|].
  change (cheb (Datatypes.S (Datatypes.S m)) t) with ((s1 + s1) * t * cheb (Datatypes.S m) t - cheb m t). rewrite IH0, IH1.
  cbn [cTU]. destruct (cTU m t) as (c, u). cbn [fst]. ring.
Qed.

Context (n : Z) (B : vect S -> vect S -> T) (G : vect S -> vect S).
Notation eqv v w := (forall i, (0 <= i < n)%Z -> v i = w i).
Context (Bext : forall v v' w w', eqv v v' -> eqv w w' -> B v w = B v' w').
Context (Blin : forall v v' w c, B (fun i => v i + c * v' i) w = B v w + c * B v' w).
Context (Bsym : forall v w, B v w = B w v).
Context (Glin : forall v v' c, eqv (G (fun i => v i + c * v' i)) (fun i => G v i + c * G v' i)).
Context (Gext : forall v v', eqv v v' -> eqv (G v) (G v')).
Context (Gself : forall v w, B (G v) w = B v (G w)).
Context (Gup : forall v, sle (B v (G v)) (B v v)) (Glo : forall v, sle (- B v v) (B v (G v))).

Lemma Blin_r v w w' c : B v (fun i => w i + c * w' i) = B v w + c * B v w'.
Proof. rewrite Bsym, Blin, !(Bsym v). ring. Qed.

Lemma contract v : sle (B (G v) (G v)) (B v v).
Proof.
  apply (le_sub R O OS). apply (nn_half R O OS).
  set (p := fun i => v i + s1 * G v i). set (q := fun i => v i + - s1 * G v i).
  assert (Gp : forall w, B w (G p) = B w (G v) + s1 * B w (G (G v))).
  { intros w. unfold p. rewrite (Bext w w _ _ (fun i _ => eq_refl) (Glin v (G v) s1)). apply Blin_r. }
  assert (Gq : forall w, B w (G q) = B w (G v) + - s1 * B w (G (G v))).
  { intros w. unfold q. rewrite (Bext w w _ _ (fun i _ => eq_refl) (Glin v (G v) (- s1))). apply Blin_r. }
  pose proof (Glo q) as H1. apply (le_sub R O OS) in H1. pose proof (Gup p) as H2. apply (le_sub R O OS) in H2.
  pose proof (nn_add R OS _ _ H1 H2) as H. rewrite Gp, Gq in H. unfold p, q in H. rewrite !Blin, !Blin_r in H.
  rewrite <- (Gself v (G v)), (Bsym (G v) v) in H.
  match goal with |- sle s0 ?x => match type of H with sle s0 ?y => replace x with y; [exact H|ring] end end.
Qed.

(** T_m(G) v and U_(m-1)(G) v *)
Fixpoint vTU (m : nat) (v : vect S) : vect S * vect S :=
  match m with
  | 0%nat => (v, fun _ => s0)
  | Datatypes.S k => let (c, u) := vTU k v in (fun i => G c i + s1 * (G (G u) i + - s1 * u i), fun i => c i + s1 * G u i)
  end.

Lemma vTU_norm m v : let (c, u) := vTU m v in B c c + (B u u - B (G u) (G u)) = B v v.
Proof.
  induction m as [|m IH].
  - cbn. assert (E : forall w, B (fun _ => s0) w = s0).
    { intros w. pose proof (Blin (fun _ => s0) (fun _ => s0) w (- s1)) as H. rewrite (Bext _ (fun _ => s0) w w) in H by (intros; ring).
      rewrite H. ring. }
    rewrite E, (Bext (G (fun _ => s0)) (fun _ => s0) _ (fun _ => s0)), E; [ring| |].
    + intros i Hi. rewrite (Gext _ (fun i => s0 + - s1 * s0)) by (intros; ring || assumption). rewrite Glin by exact Hi. ring.
    + intros i Hi. rewrite (Gext _ (fun i => s0 + - s1 * s0)) by (intros; ring || assumption). rewrite Glin by exact Hi. ring.
  - cbn [vTU]. destruct (vTU m v) as (c, u). rewrite <- IH. clear IH.
    set (u' := fun i => c i + s1 * G u i).
    assert (E : B (G u') (G u') = B (G c) (G c) + s1 * B (G c) (G (G u)) + s1 * (B (G (G u)) (G c) + s1 * B (G (G u)) (G (G u)))).
    { unfold u'. rewrite (Bext _ _ _ _ (Glin c (G u) s1) (Glin c (G u) s1)), !Blin, !Blin_r. ring. }
    rewrite E. unfold u'. rewrite !Blin, !Blin_r.
    rewrite (Bsym (G (G u)) (G c)), (Bsym (G u) c), (Bsym u (G c)), (Bsym u (G (G u))).
    rewrite (Gself (G u) u), (Gself c u). ring.
Qed.

Lemma vTU_le m v : sle (B (fst (vTU m v)) (fst (vTU m v))) (B v v).
Proof.
  pose proof (vTU_norm m v) as H. destruct (vTU m v) as (c, u). cbn [fst]. rewrite <- H. apply (le_sub R O OS).
  pose proof (contract u) as K. apply (le_sub R O OS) in K.
  match goal with |- sle s0 ?x => replace x with (B u u - B (G u) (G u)) by ring end. exact K.
Qed.

End Cheb.

(* ---------------------------------------------------------------- an operator with its spectrum in an interval *)

Section Interval.
Context {S : scalar} (F : field_laws S) (O : order_laws S) (OS : sum_order_laws S) (OP : prod_order_laws S).
Notation T := (car S).
Let R : ring_laws S := field_ring S F.
Let Rth : ring_theory (@s0 S) s1 sadd smul ssub sopp (@eq (car S)) := R.
Add Ring SRingR2 : Rth.
Add Field SFieldR2 : (F : field_theory (@s0 S) s1 sadd smul ssub sopp sdiv (fun x => sdiv s1 x) (@eq (car S))).
Local Open Scope S_scope.

Context (n : Z) (B : vect S -> vect S -> T) (L : vect S -> vect S).
Notation eqv v w := (forall i, (0 <= i < n)%Z -> v i = w i).
Context (Bext : forall v v' w w', eqv v v' -> eqv w w' -> B v w = B v' w').
Context (Blin : forall v v' w c, B (fun i => v i + c * v' i) w = B v w + c * B v' w).
Context (Bsym : forall v w, B v w = B w v).
Context (Llin : forall v v' c, eqv (L (fun i => v i + c * v' i)) (fun i => L v i + c * L v' i)).
Context (Lext : forall v v', eqv v v' -> eqv (L v) (L v')).
Context (Lself : forall v w, B (L v) w = B v (L w)).
Context (lo hi : T) (Hlh : slt lo hi = true).
Context (Llo : forall v, sle (lo * B v v) (B v (L v))) (Lhi : forall v, sle (B v (L v)) (hi * B v v)).

Let sg : T := (hi + lo) / (hi - lo).
Let tau : T := (s1 + s1) / (hi - lo).
Definition cG (v : vect S) : vect S := fun i => sg * v i + - tau * L v i.

Lemma gap : hi - lo <> s0.
Proof. intros H. apply (slt_neq O _ _ Hlh). replace lo with (hi - (hi - lo)) by ring. rewrite H. ring. Qed.

Lemma tau_nn : sle s0 tau.
Proof.
  assert (K : sle s0 (hi - lo)) by (apply (proj1 (le_sub R O OS lo hi)), (slt_sle O), Hlh).
  replace tau with ((hi - lo) * (s1 / (hi - lo) * (s1 / (hi - lo))) + (hi - lo) * (s1 / (hi - lo) * (s1 / (hi - lo)))) by (unfold tau; field; exact gap).
  apply (nn_add R OS); apply OP; try exact K; apply (sq_nonneg R O OS OP).
Qed.

Lemma B_zero w : B (fun _ => s0) w = s0.
Proof. pose proof (Blin (fun _ => s0) (fun _ => s0) w (- s1)) as H. rewrite (Bext _ (fun _ => s0) w w) in H by (intros; ring). rewrite H. ring. Qed.
Lemma B_two a c v v' w : B (fun i => a * v i + c * v' i) w = a * B v w + c * B v' w.
Proof.
  rewrite (Bext _ (fun i => (s0 + a * v i) + c * v' i) w w) by (intros; ring). rewrite Blin.
  rewrite (Blin (fun _ => s0) v w a), B_zero. ring.
Qed.
Lemma L_zero : eqv (L (fun _ => s0)) (fun _ => s0).
Proof. intros i Hi. rewrite (Lext _ (fun i => s0 + - s1 * s0)) by (intros; ring || assumption). rewrite Llin by exact Hi. ring. Qed.

Lemma cG_self v w : B (cG v) w = B v (cG w).
Proof. rewrite (Bsym v). unfold cG. rewrite !B_two, Lself, (Bsym w v), (Bsym (L w) v). ring. Qed.
Lemma cG_lin v v' c : eqv (cG (fun i => v i + c * v' i)) (fun i => cG v i + c * cG v' i).
Proof. intros i Hi. unfold cG. rewrite Llin by exact Hi. ring. Qed.
Lemma cG_ext v v' : eqv v v' -> eqv (cG v) (cG v').
Proof. intros H i Hi. unfold cG. now rewrite (Lext v v' H i Hi), (H i Hi). Qed.
Lemma cG_up v : sle (B v (cG v)) (B v v).
Proof.
  apply (le_sub R O OS). rewrite (Bsym v (cG v)). unfold cG. rewrite B_two, (Bsym (L v)).
  pose proof (proj1 (le_sub R O OS _ _) (Llo v)) as H. pose proof (OP _ _ tau_nn H) as K.
  match goal with |- sle s0 ?x => match type of K with sle s0 ?y => replace x with y; [exact K|] end end.
  unfold tau, sg. field. exact gap.
Qed.
Lemma cG_lo v : sle (- B v v) (B v (cG v)).
Proof.
  apply (le_sub R O OS). rewrite (Bsym v (cG v)). unfold cG. rewrite B_two, (Bsym (L v)).
  pose proof (proj1 (le_sub R O OS _ _) (Lhi v)) as H. pose proof (OP _ _ tau_nn H) as K.
  match goal with |- sle s0 ?x => match type of K with sle s0 ?y => replace x with y; [exact K|] end end.
  unfold tau, sg. field. exact gap.
Qed.

(** the spaces P m grow with the powers of L, and e0 is the start *)
Context (P : nat -> vect S -> Prop) (e0 : vect S).
Context (Pext : forall m v v', eqv v v' -> P m v -> P m v') (P0 : forall m, P m (fun _ => s0)).
Context (Plin : forall m v v' k, P m v -> P m v' -> P m (fun i => v i + k * v' i)).
Context (Pmono : forall m v, P m v -> P (Datatypes.S m) v) (PL : forall m v, P m v -> P (Datatypes.S m) (L v)).
Context (PLe : forall m, P (Datatypes.S m) (L e0)).

Definition aff (m : nat) (al : T) (v : vect S) : Prop := P m (fun i => v i + - al * e0 i).

Lemma aff_ext m al v v' : eqv v v' -> aff m al v -> aff m al v'.
Proof. intros H. apply Pext. intros i Hi. now rewrite (H i Hi). Qed.
Lemma aff_lin m al be v w c : aff m al v -> aff m be w -> aff m (al + c * be) (fun i => v i + c * w i).
Proof. intros Hv Hw. refine (Pext _ _ _ _ (Plin m _ _ c Hv Hw)). intros i Hi. cbn beta. ring. Qed.
Lemma aff_mono m al v : aff m al v -> aff (Datatypes.S m) al v.
Proof. apply Pmono. Qed.
Lemma aff_scale m al v c : aff m al v -> aff m (c * al) (fun i => c * v i).
Proof. intros Hv. refine (Pext _ _ _ _ (Plin m _ _ c (P0 m) Hv)). intros i Hi. cbn beta. ring. Qed.
Lemma aff_G m al v : aff m al v -> aff (Datatypes.S m) (sg * al) (cG v).
Proof.
  intros Hv. pose proof (PL _ _ Hv) as H1. pose proof (Pmono _ _ Hv) as H0. pose proof (PLe m) as H2.
  refine (Pext _ _ _ _ (Plin _ _ _ (- (tau * al)) (Plin _ _ _ (- tau) (Plin _ _ _ sg (P0 _) H0) H1) H2)).
  intros i Hi. cbn beta. unfold cG. rewrite (Llin v e0 (- al) i Hi). ring.
Qed.

Notation ct := (cTU).
Lemma vTU_aff m : aff m (fst (cTU m sg)) (fst (vTU cG m e0)) /\
  match m with 0%nat => snd (cTU m sg) = s0 /\ snd (vTU cG m e0) = (fun _ => s0) | Datatypes.S k => aff k (snd (cTU m sg)) (snd (vTU cG m e0)) end.
Proof.
  induction m as [|m (IH1 & IH2)].
  - cbn. split; [|split; reflexivity]. refine (Pext _ _ _ _ (P0 0%nat)). intros i Hi. cbn beta. ring.
  - cbn [cTU vTU]. destruct (cTU m sg) as (c, u). destruct (vTU cG m e0) as (vc, vu). cbn [fst snd] in *. destruct m as [|m].
    + destruct IH2 as (-> & ->). split.
      * replace (sg * c + (sg * sg - s1) * s0) with (sg * c) by ring. refine (aff_ext _ _ _ _ _ (aff_G _ _ _ IH1)).
        assert (Z1 : eqv (cG (fun _ => s0)) (fun _ => s0)) by (intros i Hi; unfold cG; rewrite L_zero by exact Hi; ring).
        intros i Hi. rewrite (cG_ext _ _ Z1 i Hi), (Z1 i Hi). ring.
      * replace (sg * s0 + c) with c by ring. refine (aff_ext _ _ _ _ _ IH1). intros i Hi. unfold cG. rewrite L_zero by exact Hi. ring.
    + split.
      * replace (sg * c + (sg * sg - s1) * u) with (sg * c + s1 * (sg * (sg * u) + - s1 * u)) by ring.
        apply (aff_lin _ (sg * c) (sg * (sg * u) + - s1 * u) (cG vc) (fun i => cG (cG vu) i + - s1 * vu i)); [now apply aff_G|].
        apply aff_lin; [now apply aff_G, aff_G|]. now apply aff_mono, aff_mono.
      * replace (sg * u + c) with (c + s1 * (sg * u)) by ring. apply aff_lin; [exact IH1|]. now apply aff_G.
Qed.

(** some k in P m brings the start within the bound *)
Lemma cheb_candidate m : cheb m sg <> s0 -> exists k, P m k /\
  sle (cheb m sg * cheb m sg * B (fun i => e0 i + k i) (fun i => e0 i + k i)) (B e0 e0).
Proof.
  intros Hc. set (c := cheb m sg) in *. destruct (vTU_aff m) as (H & _). rewrite <- (proj1 (cheb_TU R m sg)) in H. fold c in H.
  exists (fun i => s1 / c * (fst (vTU cG m e0) i + - c * e0 i)). split.
  - refine (Pext _ _ _ _ (Plin _ _ _ (s1 / c) (P0 m) H)). intros i Hi. cbn beta. ring.
  - set (t := fst (vTU cG m e0)). set (w := fun i => e0 i + s1 / c * (t i + - c * e0 i)).
    assert (Ew : eqv w (fun i => s1 / c * t i + s0 * t i)) by (intros i Hi; unfold w; field; exact Hc).
    rewrite (Bext _ _ _ _ Ew Ew), B_two, (Bsym t), B_two.
    replace (c * c * _) with (B t t) by (field; exact Hc).
    exact (vTU_le R O OS n B cG Bext Blin Bsym cG_lin cG_ext cG_self cG_up cG_lo m e0).
Qed.

End Interval.

(* ---------------------------------------------------------------- the solvers *)

Section Rate.
Context {S : scalar} (F : field_laws S) (E : eqb_laws S) (O : order_laws S) (OS : sum_order_laws S) (OP : prod_order_laws S).
Notation T := (car S).
Let R : ring_laws S := field_ring S F.
Let Rth : ring_theory (@s0 S) s1 sadd smul ssub sopp (@eq (car S)) := R.
Add Ring SRingR3 : Rth.
Local Open Scope S_scope.
Context (n : Z) (mA mM : mat S) (Asym : mat_sym n mA) (Msym : mat_sym n mM).
Notation eqv v w := (forall i, (0 <= i < n)%Z -> v i = w i).
Notation mv B := (mat_vec B n).

Definition MA (v : vect S) : vect S := mv mM (mv mA v).

Lemma MA_lin v v' c : eqv (MA (fun i => v i + c * v' i)) (fun i => MA v i + c * MA v' i).
Proof. intros i _. unfold MA. rewrite <- (mat_vec_axpy R). apply mat_vec_ext; [reflexivity|]. intros j _. apply (mat_vec_axpy R). Qed.
Lemma MA_ext v v' : eqv v v' -> eqv (MA v) (MA v').
Proof. intros H i _. unfold MA. apply mat_vec_ext; [reflexivity|]. intros j _. apply mat_vec_ext; [reflexivity|exact H]. Qed.
Lemma mv_ext (B : mat S) v v' : eqv v v' -> eqv (mv B v) (mv B v').
Proof. intros H i _. apply mat_vec_ext; [reflexivity|exact H]. Qed.

(** (v, A w) *)
Definition BA (v w : vect S) : T := inner n v (mv mA w).
Lemma BA_ext v v' w w' : eqv v v' -> eqv w w' -> BA v w = BA v' w'.
Proof. intros H H'. apply inner_ext; [exact H|apply mv_ext, H']. Qed.
Lemma BA_lin v v' w c : BA (fun i => v i + c * v' i) w = BA v w + c * BA v' w.
Proof. apply (inner_lin_l R). Qed.
Lemma BA_sym v w : BA v w = BA w v.
Proof. unfold BA. rewrite (inner_sym R n mA v w Asym). apply (inner_comm R). Qed.
Lemma BA_MA v w : BA v (MA w) = inner n (mv mA v) (mv mM (mv mA w)).
Proof. unfold BA. now rewrite (inner_sym R n mA v _ Asym). Qed.
Lemma BA_self v w : BA (MA v) w = BA v (MA w).
Proof. rewrite BA_sym, !BA_MA, (inner_sym R n mM _ _ Msym). apply (inner_comm R). Qed.

(** (A v, M A w) *)
Definition BR (v w : vect S) : T := BA v (MA w).
Lemma BR_ext v v' w w' : eqv v v' -> eqv w w' -> BR v w = BR v' w'.
Proof. intros H H'. apply BA_ext; [exact H|apply MA_ext, H']. Qed.
Lemma BR_lin v v' w c : BR (fun i => v i + c * v' i) w = BR v w + c * BR v' w.
Proof. apply BA_lin. Qed.
Lemma BR_sym v w : BR v w = BR w v.
Proof. unfold BR. rewrite <- BA_self. apply BA_sym. Qed.

Definition MA2 (v : vect S) : vect S := MA (MA v).
Lemma MA2_lin v v' c : eqv (MA2 (fun i => v i + c * v' i)) (fun i => MA2 v i + c * MA2 v' i).
Proof. intros i Hi. unfold MA2. rewrite (MA_ext _ _ (MA_lin v v' c) i Hi). now apply MA_lin. Qed.
Lemma MA2_ext v v' : eqv v v' -> eqv (MA2 v) (MA2 v').
Proof. intros H. apply MA_ext, MA_ext, H. Qed.
Lemma BR_self v w : BR (MA2 v) w = BR v (MA2 w).
Proof. unfold BR, MA2. now rewrite !BA_self. Qed.

Section Start.
Context (b x0 : list T) (y : vect S) (Hy : forall i, (0 <= i < n)%Z -> mv mA y i = vec_of b i).
Notation r0 := (vec_of (residual mA n b x0)).
Notation inK := (inK mA mM n r0).
Notation ks := (krylov_sum mA mM n r0).
Let e0 : vect S := fun i => y i - vec_of x0 i.

Lemma A_e0 : eqv (mv mA e0) r0.
Proof.
  intros i Hi. rewrite residual_at by exact Hi. rewrite <- (Hy i Hi).
  rewrite (mv_ext mA e0 (fun i => y i + - s1 * vec_of x0 i)) by (exact Hi || (intros; unfold e0; ring)).
  rewrite (mat_vec_axpy R). ring.
Qed.
Lemma MA_e0 m : inK (Datatypes.S m) (MA e0).
Proof. refine (inK_ext _ _ _ _ _ _ _ _ (inK_v0 R mA mM n r0 m)). intros i Hi. cbn [krylov]. symmetry. apply (mv_ext mM _ _ A_e0 i Hi). Qed.

(** y - x0 + k, for k in the space, is y minus a vector of the affine space *)
Lemma of_space m k : inK m k -> exists c, length c = m /\ eqv (fun i => e0 i + k i) (fun i => y i - (vec_of x0 i + ks c i)).
Proof.
  intros Hk. destruct (inK_lin R mA mM n r0 m _ _ (- s1) (inK_0 R mA mM n r0 m) Hk) as (c & Hc & Ec). exists c. split; [exact Hc|].
  intros i Hi. rewrite <- (Ec i Hi). unfold e0. ring.
Qed.

Lemma inK_mono_to m m' v : (m <= m')%nat -> inK m v -> inK m' v.
Proof. induction 1; [auto|]. intros H1. apply (inK_mono R). auto. Qed.

Lemma pcg_candidate lo hi m : slt lo hi = true -> prec_eigenvalues_in mA mM n lo hi -> cheb m ((hi + lo) / (hi - lo)) <> s0 ->
  exists c, length c = m /\
  sle (cheb m ((hi + lo) / (hi - lo)) * cheb m ((hi + lo) / (hi - lo)) * energy_dist mA n (fun i => vec_of x0 i + ks c i) y)
      (energy_dist mA n (vec_of x0) y).
Proof.
  intros Hl Hb Hc.
  destruct (cheb_candidate F O OS OP n BA MA BA_ext BA_lin BA_sym MA_lin MA_ext BA_self lo hi Hl
    (fun v => eq_ind_r (fun z => sle _ z) (proj1 (Hb v)) (BA_MA v v)) (fun v => eq_ind_r (fun z => sle z _) (proj2 (Hb v)) (BA_MA v v))
    inK e0 (inK_ext mA mM n r0) (inK_0 R mA mM n r0) (inK_lin R mA mM n r0) (inK_mono R mA mM n r0) (inK_MA R mA mM n r0) MA_e0 m Hc) as (k & Hk & Hle).
  destruct (of_space m k Hk) as (c & Hlen & Ec). exists c. split; [exact Hlen|].
  assert (En : forall v, energy_dist mA n v y = BA (fun i => y i - v i) (fun i => y i - v i)).
  { intros v. unfold energy_dist. fold (BA (fun i => v i - y i) (fun i => v i - y i)).
    assert (Ev : eqv (fun i => v i - y i) (fun i => s0 + - s1 * (y i - v i))) by (intros; ring).
    assert (N : forall w z, BA (fun i => s0 + - s1 * w i) z = - BA w z).
    { intros w z. rewrite (BA_lin (fun _ => s0) w). assert (Z1 : BA (fun _ => s0) z = s0) by (apply (inner_0_l R); reflexivity). rewrite Z1. ring. }
    rewrite (BA_ext _ _ _ _ Ev Ev), (N (fun i => y i - v i)), (BA_sym (fun i => y i - v i)), (N (fun i => y i - v i)). ring. }
  rewrite !En, <- (BA_ext _ _ _ _ Ec Ec). exact Hle.
Qed.

(** the least residual solvers: two passes for each degree *)
Lemma res_candidate lo hi m m' : slt (lo * lo) (hi * hi) = true -> magnitudes_in mA mM n lo hi ->
  cheb m ((hi * hi + lo * lo) / (hi * hi - lo * lo)) <> s0 -> (2 * m <= m')%nat ->
  exists c, length c = m' /\
  sle (cheb m ((hi * hi + lo * lo) / (hi * hi - lo * lo)) * cheb m ((hi * hi + lo * lo) / (hi * hi - lo * lo)) *
         res_sq mA mM n b (fun i => vec_of x0 i + ks c i))
      (res_sq mA mM n b (vec_of x0)).
Proof.
  intros Hl Hb Hc Hm.
  assert (E1 : forall v, BR v v = inner n (mv mA v) (mv mM (mv mA v))) by (intros v; apply BA_MA).
  assert (E2 : forall v, BR v (MA2 v) = inner n (mv mA (mv mM (mv mA v))) (mv mM (mv mA (mv mM (mv mA v))))).
  { intros v. unfold BR, MA2. rewrite <- (BA_self v). apply BA_MA. }
  assert (B1 : forall v, sle (lo * lo * BR v v) (BR v (MA2 v))) by (intros v; rewrite E1, E2; apply Hb).
  assert (B2 : forall v, sle (BR v (MA2 v)) (hi * hi * BR v v)) by (intros v; rewrite E1, E2; apply Hb).
  destruct (cheb_candidate F O OS OP n BR MA2 BR_ext BR_lin BR_sym MA2_lin MA2_ext BR_self (lo * lo) (hi * hi) Hl B1 B2
    (fun q => inK (2 * q)) e0 (fun q => inK_ext mA mM n r0 (2 * q)) (fun q => inK_0 R mA mM n r0 (2 * q))
    (fun q => inK_lin R mA mM n r0 (2 * q)) ) with (m := m) as (k & Hk & Hle); [| | |exact Hc|].
  - intros q v Hv. apply (inK_mono_to (2 * q)); [lia|exact Hv].
  - intros q v Hv. apply (inK_mono_to (Datatypes.S (Datatypes.S (2 * q)))); [lia|]. apply (inK_MA R), (inK_MA R), Hv.
  - intros q. apply (inK_mono_to 2); [lia|]. apply (inK_MA R), MA_e0.
  - apply (inK_mono_to _ m' k Hm) in Hk. destruct (of_space m' k Hk) as (c & Hlen & Ec). exists c. split; [exact Hlen|].
    assert (En : forall v, res_sq mA mM n b v = BR (fun i => y i - v i) (fun i => y i - v i)).
    { intros v. rewrite E1. unfold res_sq.
      assert (Er : eqv (fun i => vec_of b i - mv mA v i) (mv mA (fun i => y i - v i))).
      { intros i Hi. rewrite <- (Hy i Hi). rewrite (mv_ext mA (fun i => y i - v i) (fun i => y i + - s1 * v i)) by (exact Hi || (intros; ring)).
        rewrite (mat_vec_axpy R). ring. }
      apply inner_ext; [exact Er|]. apply mv_ext, Er. }
    rewrite !En, <- (BR_ext _ _ _ _ Ec Ec). exact Hle.
Qed.

End Start.
End Rate.

Section Final.
Context {S : scalar} (F : field_laws S) (E : eqb_laws S) (O : order_laws S) (OS : sum_order_laws S) (OP : prod_order_laws S).
Notation T := (car S).
Let R : ring_laws S := field_ring S F.
Let Rth : ring_theory (@s0 S) s1 sadd smul ssub sopp (@eq (car S)) := R.
Add Ring SRingR4 : Rth.
Local Open Scope S_scope.

Lemma form_nn n (mA : mat S) (v : vect S) : mat_pos_def n mA -> sle s0 (inner n v (mat_vec mA n v)).
Proof.
  intros Hp. destruct (zero_or_not E n v) as [H|H]; [|now apply (slt_sle O), Hp].
  rewrite (inner_0_l R) by exact H. apply (sle_refl O).
Qed.

Lemma mul_le (a b c : T) : sle s0 c -> sle a b -> sle (c * a) (c * b).
Proof.
  intros Hc H. apply (le_sub R O OS). replace (c * b - c * a) with (c * (b - a)) by ring. apply OP; [exact Hc|]. now apply (proj1 (le_sub R O OS a b)).
Qed.
Lemma pos_cancel (h x : T) : slt s0 h = true -> sle s0 (h * x) -> sle s0 x.
Proof.
  intros Hh H. assert (Hn : h <> s0) by (intros K; apply (slt_neq O _ _ Hh); auto).
  pose proof (div_mul F s1 h Hn) as D.
  replace x with (h * x * (s1 / h * (s1 / h) * h)).
  - apply OP; [exact H|]. apply OP; [apply (sq_nonneg R O OS OP)|]. now apply (slt_sle O).
  - replace (s1 / h * (s1 / h) * h) with (s1 / h * (s1 / h * h)) by ring. rewrite D. transitivity (s1 / h * h * x); [ring|]. rewrite D. ring.
Qed.

(** without a preconditioner the two ways to bound the eigenvalues agree *)
Lemma plain_eigenvalues n (mA : mat S) lo hi : mat_sym n mA -> sle s0 lo -> slt lo hi = true ->
  eigenvalues_in mA n lo hi -> prec_eigenvalues_in mA id_mat n lo hi.
Proof.
  intros As Hlo Hlh H v.
  assert (Ei : forall z, inner n z (mat_vec id_mat n z) = inner n z z) by (intros z; apply inner_ext; [reflexivity|intros; now apply (idm_vec F)]).
  rewrite Ei. set (a := mat_vec mA n v).
  assert (nn : forall z, sle s0 (inner n z z)) by (intros z; apply (sum_nonneg R O OS); intros; apply (sq_nonneg R O OS OP)).
  assert (Hhi : slt s0 hi = true).
  { destruct (slt s0 hi) eqn:K; [reflexivity|]. pose proof (sle_trans O _ _ _ K Hlo) as K2. unfold sle in K2. congruence. }
  assert (Hva : inner n a v = inner n v a) by apply (inner_comm R).
  split; apply (le_sub R O OS).
  - set (w := fun i => a i + - lo * v i). pose proof (proj1 (H v)) as H1. apply (proj1 (le_sub R O OS _ _)) in H1. fold a in H1.
    pose proof (nn_add R OS _ _ (nn w) (OP _ _ Hlo H1)) as K. unfold w in K. rewrite !(inner_lin_l R), !(inner_lin_r R) in K. rewrite Hva in K.
    match goal with |- sle s0 ?x => match type of K with sle s0 ?y => replace x with y; [exact K|ring] end end.
  - set (z := fun i => a i + - hi * v i).
    pose proof (proj2 (H a)) as H1. apply (proj1 (le_sub R O OS _ _)) in H1.
    assert (H2 : sle s0 (inner n z (mat_vec mA n z))) by (apply (sle_trans O _ (lo * inner n z z)); [apply OP; [exact Hlo|apply nn]|apply H]).
    apply (pos_cancel hi _ Hhi).
    assert (Ez : forall q, inner n q (mat_vec mA n z) = inner n q (mat_vec mA n a) + - hi * inner n q a).
    { intros q. rewrite (inner_ext n q q (mat_vec mA n z) (fun i => mat_vec mA n a i + - hi * a i)); [apply (inner_lin_r R)|reflexivity|].
      intros i Hi. unfold z. rewrite (mat_vec_axpy R). reflexivity. }
    pose proof (nn_add R OS _ _ H1 H2) as K. rewrite Ez in K. unfold z in K. rewrite !(inner_lin_l R) in K.
    rewrite (inner_sym R n mA v a As) in K. fold a in K.
    match goal with |- sle s0 ?x => match type of K with sle s0 ?y => replace x with y; [exact K|ring] end end.
Qed.

Context {W : Type} (I : W -> Prop).

Lemma pcg_rate (A : op S W) (M : option (op S W)) n mA mM : acts_as I A n mA -> prec_applies I M n (mat_list mM n) ->
  mat_sym n mA -> mat_pos_def n mA -> mat_sym n mM ->
  forall (b x : list T) (par : sparams S) (w : W) (u : pbuf S) (w' : W) (u' : pbuf S) (x' : list T) (k : Z) (y : vect S) (lo hi : T),
  I w -> zlen b = n -> zlen x = n -> slt s0 (tolerance par (res_form mA mM n b x)) = true ->
  pcg_mult A M l_inner par w u b x = Ok (w', u', x', k) ->
  (forall i, (0 <= i < n)%Z -> mat_vec mA n y i = vec_of b i) ->
  slt lo hi = true -> prec_eigenvalues_in mA mM n lo hi ->
  sle (cheb (Z.to_nat (passes_made mA mM n par b x x' k)) ((hi + lo) / (hi - lo)) *
       cheb (Z.to_nat (passes_made mA mM n par b x x' k)) ((hi + lo) / (hi - lo)) * energy_dist mA n (vec_of x') y)
      (energy_dist mA n (vec_of x) y).
Proof.
  intros HA HM As Ap Ms b x par w u w' u' x' k y lo hi Hw Hb Hx Ht Er Hy Hl He.
  set (m := Z.to_nat _). set (t := cheb m _). destruct (seqb t s0) eqn:Et.
  - apply E in Et. rewrite Et. replace (s0 * s0 * energy_dist mA n (vec_of x') y) with (@s0 S) by ring. apply form_nn, Ap.
  - assert (Hc : t <> s0) by (intros K; apply E in K; congruence).
    destruct (pcg_candidate F O OS OP n mA mM As Ms b x y Hy lo hi m Hl He Hc) as (c & Hlen & Hle).
    assert (Hz : zlen c = passes_made mA mM n par b x x' k).
    { unfold zlen. rewrite Hlen. unfold m. rewrite Z2Nat.id; [reflexivity|].
      destruct (pcg_in_space F E O I A M n mA mM HA HM As Ap Ms b x par w u w' u' x' k Hw Hb Hx Ht Er) as (c0 & H0 & _).
      change (zlen c0 = passes_made mA mM n par b x x' k) in H0. rewrite <- H0. apply zlen_nonneg. }
    pose proof (pcg_best F E O OS I A M n mA mM HA HM As Ap Ms b x par w u w' u' x' k y c Hw Hb Hx Ht Er Hy Hz) as Hbest.
    fold t in Hle. refine (sle_trans O _ _ _ _ Hle). apply mul_le; [apply (sq_nonneg R O OS OP)|exact Hbest].
Qed.

Lemma least_rate n mA mM : mat_sym n mA -> mat_sym n mM -> mat_pos_def n mM ->
  forall (b x x' : list T) (m : Z) (y : vect S) (lo hi : T) (q : nat),
  least_residual mA mM n b x x' m -> (forall i, (0 <= i < n)%Z -> mat_vec mA n y i = vec_of b i) ->
  slt (lo * lo) (hi * hi) = true -> magnitudes_in mA mM n lo hi -> (2 * Z.of_nat q <= m)%Z ->
  sle (cheb q ((hi * hi + lo * lo) / (hi * hi - lo * lo)) * cheb q ((hi * hi + lo * lo) / (hi * hi - lo * lo)) * res_sq mA mM n b (vec_of x'))
      (res_sq mA mM n b (vec_of x)).
Proof.
  intros As Ms Mp b x x' m y lo hi q (_ & Hbest) Hy Hl He Hq. set (t := cheb q _). destruct (seqb t s0) eqn:Et.
  - apply E in Et. rewrite Et. replace (s0 * s0 * res_sq mA mM n b (vec_of x')) with (@s0 S) by ring. apply form_nn, Mp.
  - assert (Hc : t <> s0) by (intros K; apply E in K; congruence).
    destruct (res_candidate F O OS OP n mA mM As Ms b x y Hy lo hi q (Z.to_nat m) Hl He Hc) as (c & Hlen & Hle); [lia|].
    assert (Hz : zlen c = m) by (unfold zlen; rewrite Hlen; lia). specialize (Hbest c Hz).
    fold t in Hle. refine (sle_trans O _ _ _ _ Hle). apply mul_le; [apply (sq_nonneg R O OS OP)|exact Hbest].
Qed.

End Final.
