(** PCG returns the best vector of the Krylov space it has searched. *)

From Coq Require Import ZArith List Bool Lia Ring.
From Verif Require Import Base Scalar Spec Vec SumFacts LoopFacts Block BlockSpec BlockOp
  Solver SolverSpec SolverProofs SolverMore SolverEnergy KrylovFacts SolverConverge KrylovSpec.
Import ListNotations.
Open Scope Z_scope.

Section Sums.
Context {S : scalar} (R : ring_laws S).
Notation T := (car S).
Let Rth : ring_theory (@s0 S) s1 sadd smul ssub sopp (@eq (car S)) := R.
Add Ring SRingO : Rth.
Local Open Scope S_scope.
Context (mA mM : mat S) (n : Z) (r0 : vect S).
Notation kv := (krylov mA mM n r0).
Notation ks := (krylov_sum mA mM n r0).

Lemma ks_nil i : ks [] i = s0.
Proof. reflexivity. Qed.

Lemma ks_snoc c a i : ks (c ++ [a]) i = ks c i + a * kv (length c) i.
Proof.
  unfold krylov_sum. rewrite zlen_app, zlen_cons, zlen_nil. replace (zlen c + (0 + 1))%Z with (zlen c + 1)%Z by lia. pose proof (zlen_nonneg c).
  rewrite (sum_range_last R) by lia. f_equal.
  - apply sum_range_ext. intros j Hj. f_equal. unfold vec_of, zn, zlen in *. apply app_nth1. lia.
  - unfold vec_of, zn, zlen. rewrite Nat2Z.id, app_nth2, Nat.sub_diag by lia. reflexivity.
Qed.

Lemma ks_scale_snoc k c : (forall i, ks (map (smul k) c) i = k * ks c i).
Proof.
  induction c as [|a c IH] using rev_ind; intros i; [rewrite ks_nil; change (map (smul k) []) with (@nil T); rewrite ks_nil; ring|].
  rewrite map_app. cbn [map]. rewrite !ks_snoc, IH, map_length. ring.
Qed.

(** inK m v: v is a combination of the first m vectors *)
Definition inK (m : nat) (v : vect S) : Prop := exists c, length c = m /\ forall i, (0 <= i < n)%Z -> v i = ks c i.

Lemma snoc_of {X} (l : list X) m : length l = Datatypes.S m -> exists l' a, l = l' ++ [a] /\ length l' = m.
Proof.
  intros H. destruct (exists_last (l := l)) as (l' & a & E); [intros ->; discriminate|]. exists l', a. split; [exact E|]. rewrite E, app_length in H. cbn in H. lia.
Qed.

Lemma ks_add m : forall c c', length c = m -> length c' = m -> exists c2, length c2 = m /\ forall i, ks c2 i = ks c i + ks c' i.
Proof.
  induction m as [|m IH]; intros c c' H H'.
  - destruct c, c'; try discriminate. exists []. split; [reflexivity|]. intros i. rewrite !ks_nil. ring.
  - destruct (snoc_of c m H) as (l & a & -> & Hl). destruct (snoc_of c' m H') as (l' & a' & -> & Hl'). destruct (IH l l' Hl Hl') as (c2 & H2 & E2).
    exists (c2 ++ [a + a']). split; [rewrite app_length; cbn; lia|]. intros i. rewrite !ks_snoc, E2, H2, Hl, Hl'. ring.
Qed.

Lemma inK_ext m v v' : (forall i, (0 <= i < n)%Z -> v i = v' i) -> inK m v -> inK m v'.
Proof. intros H (c & Hc & E). exists c. split; [exact Hc|]. intros i Hi. rewrite <- H by exact Hi. now apply E. Qed.

Lemma inK_lin m v v' k : inK m v -> inK m v' -> inK m (fun i => v i + k * v' i).
Proof.
  intros (c & Hc & E) (c' & Hc' & E'). destruct (ks_add m c (map (smul k) c') Hc) as (c2 & H2 & E2); [now rewrite map_length|].
  exists c2. split; [exact H2|]. intros i Hi. rewrite E2, ks_scale_snoc, E, E' by exact Hi. reflexivity.
Qed.

Lemma inK_0 m : inK m (fun _ => s0).
Proof.
  exists (repeat s0 m). split; [apply repeat_length|]. intros i _. induction m as [|m IH]; [reflexivity|].
  replace (repeat s0 (Datatypes.S m)) with (repeat (@s0 S) m ++ [s0]) by (now rewrite <- repeat_cons). rewrite ks_snoc, <- IH. ring.
Qed.

Lemma inK_mono m v : inK m v -> inK (Datatypes.S m) v.
Proof.
  intros (c & Hc & E). exists (c ++ [s0]). split; [rewrite app_length; cbn; lia|]. intros i Hi. rewrite ks_snoc, E by exact Hi. ring.
Qed.

Lemma inK_v0 m : inK (Datatypes.S m) (kv 0).
Proof.
  induction m as [|m IH]; [|now apply inK_mono]. exists [s1]. split; [reflexivity|]. intros i _. change [s1] with ([] ++ [@s1 S]). rewrite ks_snoc, ks_nil. cbn [length]. ring.
Qed.

Lemma mat_vec_0 (B : mat S) (v : vect S) i : (forall j, (0 <= j < n)%Z -> v j = s0) -> mat_vec B n v i = s0.
Proof. intros H. unfold mat_vec. apply (sum_map_0 R). intros j Hj. apply In_zrange in Hj. rewrite H by exact Hj. ring. Qed.

Lemma ks_shift c i : mat_vec mM n (mat_vec mA n (ks c)) i = ks (s0 :: c) i.
Proof.
  revert i. induction c as [|a c IH] using rev_ind; intros i.
  - change [s0] with ([] ++ [@s0 S]). rewrite ks_snoc, ks_nil. rewrite mat_vec_0; [ring|]. intros j _. apply mat_vec_0. intros; apply ks_nil.
  - change (s0 :: c ++ [a]) with ((s0 :: c) ++ [a]). rewrite ks_snoc, <- IH. cbn [length krylov].
    rewrite <- (mat_vec_axpy R). apply mat_vec_ext; [reflexivity|]. intros j _. rewrite <- (mat_vec_axpy R). apply mat_vec_ext; [reflexivity|].
    intros q _. apply ks_snoc.
Qed.

Lemma inK_MA m v : inK m v -> inK (Datatypes.S m) (mat_vec mM n (mat_vec mA n v)).
Proof.
  intros (c & Hc & E). exists (s0 :: c). split; [cbn; lia|]. intros i Hi. rewrite <- ks_shift. apply mat_vec_ext; [reflexivity|].
  intros j Hj. apply mat_vec_ext; [reflexivity|]. exact E.
Qed.

Lemma inner_inK m v y : inK m v -> (forall j, (j < m)%nat -> inner n y (kv j) = s0) -> inner n y v = s0.
Proof.
  intros (c & Hc & E) H. rewrite (inner_ext n y y v (ks c)) by (auto; intros; now apply E). clear E v. revert m Hc H.
  induction c as [|a c IH] using rev_ind; intros m Hc H.
  - apply (inner_0_r R). intros; apply ks_nil.
  - rewrite app_length in Hc. cbn in Hc. rewrite (inner_ext n y y _ (fun i => ks c i + a * kv (length c) i)) by (auto; intros; apply ks_snoc).
    rewrite (inner_lin_r R), (H (length c)) by lia. rewrite (IH (length c) eq_refl); [ring|]. intros j Hj. apply H. lia.
Qed.

End Sums.

Section Optimal.
Context {S : scalar}.
Notation T := (car S).
Context (F : field_laws S) (E : eqb_laws S) (O : order_laws S) (OS : sum_order_laws S) (OP : prod_order_laws S).
Let R : ring_laws S := field_ring S F.
Let Rth : ring_theory (@s0 S) s1 sadd smul ssub sopp (@eq (car S)) := R.
Add Ring SRingP : Rth.
Local Open Scope S_scope.

Context {W : Type} (I : W -> Prop) (A : op S W) (M : option (op S W)) (n : Z).
Context (mA mM : mat S).
Context (HA : acts_as I A n mA) (HM : prec_applies I M n (mat_list mM n)).
Context (Asym : mat_sym n mA) (Apos : mat_pos_def n mA) (Msym : mat_sym n mM).
Context (b x0 : list T).

Notation d := (fun x y : list T => inner n (vec_of x) (vec_of y)).
Notation fA := (mat_list mA n).
Notation fM := (mat_list mM n).
Notation ipM := (ip n mM).
Notation Kst := (Kst n mA mM).
Notation r0 := (vec_of (residual mA n b x0)).
Notation kv := (krylov mA mM n r0).
Notation ks := (krylov_sum mA mM n r0).
Notation inK := (inK mA mM n r0).

(** what a pass keeps, beside Kst *)
Record Ost (hist : list (vect S * vect S)) (u : pbuf S) (x : list T) : Prop := {
  o_r : pb_r u = residual mA n b x;
  o_p : inK (Datatypes.S (length hist)) (vec_of (pb_p u));
  o_x : inK (length hist) (fun i => vec_of x i - vec_of x0 i);
  o_v : forall y, (forall h, In h hist -> inner n y (snd h) = s0) -> forall j, (j < length hist)%nat -> inner n y (kv j) = s0;
  o_0 : hist = [] -> forall i, (0 <= i < n)%Z -> vec_of (pb_p u) i = kv 0 i
}.

(** the result after m passes *)
Definition Fin (m : nat) (x : list T) : Prop :=
  inK m (fun i => vec_of x i - vec_of x0 i) /\ forall j, (j < m)%nat -> inner n (vec_of (residual mA n b x)) (kv j) = s0.

(** a vector orthogonal to the old and the present directions is orthogonal to the Krylov vectors *)
Lemma new_krylov hist u x y : Kst hist u -> Ost hist u x -> (forall h, In h hist -> inner n y (snd h) = s0) -> inner n y (vec_of (pb_p u)) = s0 ->
  forall j, (j < Datatypes.S (length hist))%nat -> inner n y (kv j) = s0.
Proof.
  intros [_ _ _ _ K3 K4 _ _] [_ _ _ Ov O0] Hy Hp j Hj. destruct j as [|j].
  - destruct hist as [|h hist].
    + rewrite <- Hp. apply inner_ext; [reflexivity|]. intros i Hi. symmetry. now apply O0.
    + apply (Ov y Hy). cbn. lia.
  - destruct (K3 y Hy Hp) as (H1 & H2). set (y' := mat_vec mM n y).
    assert (Ey : forall v, inner n y' v = ipM y v) by (intros v; unfold y', ip; symmetry; apply (inner_sym R), Msym).
    assert (Hy' : forall h, In h hist -> inner n y' (mat_vec mA n (snd h)) = s0).
    { apply K4; [intros h Hh; rewrite Ey; now apply H2|now rewrite Ey]. }
    cbn [krylov]. rewrite (inner_sym R n mM) by exact Msym. fold y'. rewrite (inner_sym R n mA) by exact Asym. apply Ov; [|lia].
    intros h Hh. rewrite <- (inner_sym R n mA) by exact Asym. now apply Hy'.
Qed.

Lemma pass_x hist u x tol : plens n u x -> Kst hist u -> Ost hist u x -> slt s0 tol = true -> slt (d (pb_z u) (pb_r u)) tol = false ->
  let x' := p_x fA d u x in
  p_r fA d u = residual mA n b x' /\ Fin (Datatypes.S (length hist)) x'.
Proof.
  intros [Lr Lp Lz Lx] K Ho Ht Hns x'. assert (Hn : (0 <= n)%Z) by (rewrite <- Lx; apply zlen_nonneg).
  assert (Hr' : p_r fA d u = residual mA n b x') by (unfold p_r, x', p_x; rewrite (o_r _ _ _ Ho); apply (residual_step R); auto).
  split; [exact Hr'|]. split.
  - apply (inK_ext mA mM n r0 _ (fun i => (vec_of x i - vec_of x0 i) + p_alpha fA d u * vec_of (pb_p u) i)).
    + intros i Hi. unfold x', p_x. rewrite zipw_at by lia. ring.
    + apply (inK_lin R); [apply (inK_mono R), (o_x _ _ _ Ho)|apply (o_p _ _ _ Ho)].
  - rewrite <- Hr'. set (r := vec_of (pb_r u)) in *. set (p := vec_of (pb_p u)) in *. set (z := vec_of (pb_z u)) in *. set (al := p_alpha fA d u).
    pose proof (k_rp _ _ _ _ _ K) as Krp. fold r p z in Krp.
    assert (Hrz : slt s0 (inner n r z) = true) by (apply (slt_sle_trans O _ tol); [exact Ht|]; rewrite (inner_comm R); exact Hns).
    assert (Hrz0 : inner n r z <> s0) by (apply not_eq_sym, (slt_neq O), Hrz).
    assert (Hp : exists i, (0 <= i < n)%Z /\ p i <> s0).
    { destruct (zero_or_not E n p) as [Hz|Hnz]; [|exact Hnz]. exfalso. apply Hrz0. rewrite <- Krp. apply (inner_0_r R), Hz. }
    pose proof (Apos p Hp) as HpAp. set (pAp := inner n p (mat_vec mA n p)) in *.
    assert (HpAp0 : pAp <> s0) by (apply not_eq_sym, (slt_neq O), HpAp).
    assert (Eal : al * pAp = inner n r z).
    { unfold al, p_alpha. fold r p z. replace (inner n p (vec_of (fA (pb_p u)))) with pAp.
      - apply (div_mul F), HpAp0.
      - apply inner_ext; [reflexivity|]. intros i Hi. rewrite mat_list_at by lia. reflexivity. }
    assert (Hr'y : forall y, inner n (vec_of (p_r fA d u)) y = inner n r y + (- al) * inner n (mat_vec mA n p) y).
    { intros y. rewrite <- (inner_lin_l R). apply inner_ext; [|reflexivity]. intros i Hi. unfold p_r. rewrite zipw_at by lia. rewrite mat_list_at by lia. fold al r p. ring. }
    apply (new_krylov hist u x); [exact K|exact Ho| |].
    + intros h Hh. pose proof (k_1 _ _ _ _ _ K h Hh) as K1. pose proof (k_2 _ _ _ _ _ K h Hh) as K2. fold r p in K1, K2. rewrite Hr'y, K1, <- (inner_sym R n mA p (snd h) Asym), K2. ring.
    + rewrite Hr'y. fold p. rewrite Krp, (inner_comm R n (mat_vec mA n p)). fold pAp. rewrite <- Eal. ring.
Qed.

Lemma Ost_step hist u x tol : plens n u x -> Kst hist u -> Ost hist u x -> slt s0 tol = true -> slt (d (pb_z u) (pb_r u)) tol = false ->
  p_stop fA fM d tol u = false -> Ost ((vec_of (pb_r u), vec_of (pb_p u)) :: hist) (p_next fA fM d tol u) (p_x fA d u x).
Proof.
  intros Hl K Ho Ht Hns Hst. destruct (pass_x hist u x tol Hl K Ho Ht Hns) as (Hr' & Hk & _). destruct Hl as [Lr Lp Lz Lx].
  assert (Hn : (0 <= n)%Z) by (rewrite <- Lx; apply zlen_nonneg).
  unfold p_next. rewrite Hst. constructor; cbn [pb_r pb_p pb_z length].
  - exact Hr'.
  - apply (inK_ext mA mM n r0 _ (fun i => vec_of (p_z fA fM d u) i + p_beta fA fM d u * vec_of (pb_p u) i)).
    + intros i Hi. unfold p_p. rewrite zipw_at by (rewrite zlen_map; lia). 
      replace (vec_of (map (fun a => a * p_beta fA fM d u) (pb_p u)) i) with (vec_of (pb_p u) i * p_beta fA fM d u) by (symmetry; unfold vec_of at 1; rewrite (zn_map s0 s0) by lia; reflexivity). ring.
    + apply (inK_lin R); [|apply (inK_mono R), (o_p _ _ _ Ho)].
      (* z' = M r' = M r0 - M A (x' - x0) *)
      set (e := fun i => vec_of (p_x fA d u x) i - vec_of x0 i) in *.
      apply (inK_ext mA mM n r0 _ (fun i => kv 0 i + (- s1) * mat_vec mM n (mat_vec mA n e) i)).
      * intros i Hi. unfold p_z. rewrite Hr', mat_list_at by exact Hi. cbn [krylov]. rewrite <- (mat_vec_axpy R). apply mat_vec_ext; [reflexivity|].
        intros j Hj. rewrite !residual_at by exact Hj.
        assert (Ee : mat_vec mA n e j = mat_vec mA n (vec_of (p_x fA d u x)) j + (- s1) * mat_vec mA n (vec_of x0) j).
        { rewrite <- (mat_vec_axpy R). apply mat_vec_ext; [reflexivity|]. intros q _. unfold e. ring. }
        rewrite Ee. ring.
      * apply (inK_lin R); [apply (inK_v0 R)|]. apply (inK_MA R). exact Hk.
  - exact Hk.
  - intros y Hy j Hj. apply (new_krylov hist u x y K Ho); [intros h Hh; apply Hy; now right| |exact Hj]. exact (Hy _ (or_introl eq_refl)).
  - discriminate.
Qed.

Lemma Ost_start : zlen b = n -> zlen x0 = n -> Ost [] (p_start fA fM b x0) x0.
Proof.
  intros Hb Hx. assert (Hn : (0 <= n)%Z) by (rewrite <- Hx; apply zlen_nonneg).
  assert (Hp : forall i, (0 <= i < n)%Z -> vec_of (pb_p (p_start fA fM b x0)) i = kv 0 i).
  { intros i Hi. cbn [p_start pb_p]. rewrite residual_start, mat_list_at by auto. reflexivity. }
  constructor.
  - cbn [p_start pb_r]. apply residual_start; auto.
  - apply (inK_ext mA mM n r0 _ (kv 0)); [intros i Hi; symmetry; now apply Hp|]. apply (inK_v0 R).
  - apply (inK_ext mA mM n r0 _ (fun _ => s0)); [intros; ring|]. apply (inK_0 R).
  - cbn [length]. intros; lia.
  - intros _. exact Hp.
Qed.

Lemma Ost_fin hist u x : Kst hist u -> Ost hist u x -> Fin (length hist) x.
Proof.
  intros K Ho. split; [apply (o_x _ _ _ Ho)|]. rewrite <- (o_r _ _ _ Ho). apply (o_v _ _ _ Ho). apply (k_1 _ _ _ _ _ K).
Qed.

(** the best of its space *)
Lemma Fin_best m x y c : Fin m x -> (forall i, (0 <= i < n)%Z -> mat_vec mA n y i = vec_of b i) -> length c = m ->
  sle (energy_dist mA n (vec_of x) y) (energy_dist mA n (fun i => vec_of x0 i + ks c i) y).
Proof.
  intros (Hk & Ho) Hy Hc.
  set (e := fun i => ks c i + (- s1) * (vec_of x i - vec_of x0 i)).
  assert (He : inK m e) by (apply (inK_lin R); [exists c; auto|exact Hk]).
  assert (Hre : inner n (fun i => vec_of b i - mat_vec mA n (vec_of x) i) e = s0).
  { rewrite (inner_ext n _ (vec_of (residual mA n b x)) e e) by (auto; intros i Hi; now rewrite residual_at). exact (inner_inK R mA mM n r0 m e _ He Ho). }
  assert (Ee : energy_dist mA n (fun i => vec_of x0 i + ks c i) y = energy_dist mA n (vec_of x) y + inner n e (mat_vec mA n e)).
  { transitivity (energy_dist mA n (fun i => vec_of x i + s1 * e i) y).
    - unfold energy_dist. apply inner_ext; [intros i _; unfold e; ring|]. intros i _. apply mat_vec_ext; [reflexivity|]. intros j _. unfold e. ring.
    - rewrite (energy_step R n mA (vec_of x) y e (vec_of b)) by auto. rewrite Hre. ring. }
  rewrite Ee. replace (energy_dist mA n (vec_of x) y) with
    ((energy_dist mA n (vec_of x) y + inner n e (mat_vec mA n e)) - inner n e (mat_vec mA n e)) at 1 by ring.
  apply (sub_nonneg_le R O OS). destruct (zero_or_not E n e) as [Hz|Hnz]; [rewrite (inner_0_l R) by exact Hz; apply (sle_refl O)|apply (slt_sle O), Apos, Hnz].
Qed.

(** the solution is in the space: nothing is left to do *)
Lemma Fin_solution m x y c : Fin m x -> (forall i, (0 <= i < n)%Z -> mat_vec mA n y i = vec_of b i) -> (length c <= m)%nat ->
  (forall i, (0 <= i < n)%Z -> y i = vec_of x0 i + ks c i) -> forall i, (0 <= i < n)%Z -> vec_of (residual mA n b x) i = s0.
Proof.
  intros (Hk & Ho) Hy Hc Hyc. set (e := fun i => ks c i + (- s1) * (vec_of x i - vec_of x0 i)).
  assert (Hc' : inK m (ks c)).
  { replace m with (length c + (m - length c))%nat by lia. induction (m - length c)%nat as [|q IH]; [rewrite Nat.add_0_r; exists c; auto|]. rewrite Nat.add_succ_r. now apply (inK_mono R). }
  assert (He : inK m e) by (apply (inK_lin R); [exact Hc'|exact Hk]).
  assert (Hre : inner n (vec_of (residual mA n b x)) e = s0) by exact (inner_inK R mA mM n r0 m e _ He Ho).
  assert (Er : forall i, (0 <= i < n)%Z -> vec_of (residual mA n b x) i = mat_vec mA n e i).
  { intros i Hi. rewrite residual_at by exact Hi. rewrite <- (Hy i Hi). transitivity (mat_vec mA n y i + (- s1) * mat_vec mA n (vec_of x) i); [ring|].
    rewrite <- (mat_vec_axpy R). apply mat_vec_ext; [reflexivity|]. intros j Hj. rewrite (Hyc j Hj). unfold e. ring. }
  destruct (zero_or_not E n e) as [Hz|Hnz].
  - intros i Hi. rewrite (Er i Hi). now apply (mat_vec_0 R).
  - exfalso. pose proof (Apos e Hnz) as Hp. rewrite (inner_comm R), (inner_ext n _ (vec_of (residual mA n b x)) e e) in Hp by (auto; intros; symmetry; now apply Er).
    rewrite Hre in Hp. rewrite (slt_irrefl S O) in Hp. discriminate.
Qed.

Definition reach (q : nat) : Prop := exists y c, (forall i, (0 <= i < n)%Z -> mat_vec mA n y i = vec_of b i) /\ length c = q /\
  forall i, (0 <= i < n)%Z -> y i = vec_of x0 i + ks c i.

Lemma loop_optimal par tol : slt s0 tol = true -> forall fuel hist w u x w' u' x' k, I w -> plens n u x -> Kst hist u -> Ost hist u x ->
  slt (d (pb_z u) (pb_r u)) tol = false ->
  pcg_loop fuel A M l_inner par tol (Z.of_nat (length hist) + 1) w u x = Ok (w', u', x', k) ->
  exists m, Fin m x' /\ Z.of_nat m = (if slt (d (fM (residual mA n b x')) (residual mA n b x')) tol then k else (k - 1)%Z) /\
    forall q, reach q -> (m <= q)%nat.
Proof.
  intros Ht. pose proof (acts_n I A n mA HA) as Hn. destruct HA as (E1 & E2 & H).
  induction fuel as [|fuel IH]; intros hist w u x w' u' x' k Hw Hl K Ho Hns Er.
  all: assert (Hq : forall q, reach q -> (length hist < q)%nat) by
    (intros q (y & c & Hy & Hc & Hyc); destruct (Nat.lt_ge_cases (length hist) q) as [|Hge]; [assumption|]; exfalso;
     assert (Hz : slt (d (pb_z u) (pb_r u)) tol = true)
       by (cbv beta; rewrite (o_r _ _ _ Ho), (inner_0_r R); [exact Ht|]; exact (Fin_solution _ x y c (Ost_fin hist u x K Ho) Hy ltac:(lia) Hyc)); congruence).
  all: cbn [pcg_loop] in Er; destruct (p_step_case I A M l_inner n fA fM d E1 E2 H HM (l_inner_gives R n) par tol w u x Hw Hl)
       as (Hl' & [(_ & w1 & Es & Hw1)|(_ & Es)]); rewrite Es in Er; cbn [bind] in Er; [|discriminate].
  all: destruct (pass_x hist u x tol Hl K Ho Ht Hns) as (Hr' & Hf').
  all: destruct (p_stop fA fM d tol u) eqn:Est.
  all: pose proof Est as Est'; unfold p_stop, p_z in Est'; rewrite Hr' in Est'.
  1, 3: injection Er as <- <- <- <-; exists (Datatypes.S (length hist)); split; [exact Hf'|]; rewrite Est'; split; [lia|]; intros q Hr; specialize (Hq q Hr); lia.
  - destruct (Z.ltb_spec (Z.of_nat (length hist) + 1 + 1) (sp_max par)); [discriminate|]. injection Er as <- <- <- <-.
    exists (Datatypes.S (length hist)). split; [exact Hf'|]. rewrite Est'. split; [lia|]. intros q Hr. specialize (Hq q Hr). lia.
  - destruct (Z.ltb_spec (Z.of_nat (length hist) + 1 + 1) (sp_max par)).
    + refine (IH _ w1 (p_next fA fM d tol u) (p_x fA d u x) w' u' x' k Hw1 Hl' (Kst_step F E O n mA mM Asym Apos Msym hist u x tol Hl K Ht Hns Est) (Ost_step hist u x tol Hl K Ho Ht Hns Est) _ _).
      * exact Est.
      * rewrite <- Er. f_equal. cbn [length]. lia.
    + injection Er as <- <- <- <-. exists (Datatypes.S (length hist)). split; [exact Hf'|]. rewrite Est'. split; [lia|]. intros q Hr. specialize (Hq q Hr). lia.
Qed.

Notation q0 x := (inner n (vec_of (mat_list mM n (residual mA n b x))) (vec_of (residual mA n b x))).

Lemma pcg_optimal par w u w' u' x' k : I w -> zlen b = n -> zlen x0 = n ->
  slt s0 (tolerance par (q0 x0)) = true -> pcg_mult A M l_inner par w u b x0 = Ok (w', u', x', k) ->
  exists m, Fin m x' /\ Z.of_nat m = passes (tolerance par (q0 x0)) (q0 x0) (q0 x') k /\ forall q, reach q -> (m <= q)%nat.
Proof.
  intros Hw Hb Hx Ht Er. pose proof (acts_n I A n mA HA) as Hn. pose proof HA as (E1 & E2 & H). unfold passes.
  destruct (pcg_mult_case I A M l_inner n fA fM d E1 E2 H HM (l_inner_gives R n) par w u b x0 Hw Hb Hx) as (w1 & Hw1 & Eq). rewrite Er in Eq.
  assert (Et : p_tol fA fM d par b x0 = tolerance par (q0 x0)) by (unfold p_tol, p_start; cbn [pb_z pb_r]; now rewrite residual_start).
  assert (Eq0 : d (pb_z (p_start fA fM b x0)) (pb_r (p_start fA fM b x0)) = q0 x0) by (unfold p_start; cbn [pb_z pb_r]; now rewrite residual_start).
  rewrite Et in Eq. destruct (slt (q0 x0) (tolerance par (q0 x0))) eqn:Es.
  - cbv beta in Eq, Eq0. rewrite Eq0, Es in Eq. injection Eq as -> -> -> ->. exists 0%nat. split; [|split; [reflexivity|lia]].
    exact (Ost_fin [] _ _ (Kst_start n mA mM b x0 Hb) (Ost_start Hb Hx)).
  - assert (Es' : slt (d (pb_z (p_start fA fM b x0)) (pb_r (p_start fA fM b x0))) (tolerance par (q0 x0)) = false) by (rewrite Eq0; exact Es).
    rewrite Es' in Eq. symmetry in Eq.
    exact (loop_optimal par (tolerance par (q0 x0)) Ht (Z.to_nat (sp_max par)) [] w1 (p_start fA fM b x0) x0 w' u' x' k Hw1
             (p_start_lens I A M n fA fM E1 E2 H HM w b x0 Hw Hb Hx) (Kst_start n mA mM b x0 Hb) (Ost_start Hb Hx) Es' Eq).
Qed.

(** the three statements about a call, with the coefficients written out *)
Lemma pcg_in_space par w u w' u' x' k : I w -> zlen b = n -> zlen x0 = n ->
  slt s0 (tolerance par (q0 x0)) = true -> pcg_mult A M l_inner par w u b x0 = Ok (w', u', x', k) ->
  exists c, zlen c = passes (tolerance par (q0 x0)) (q0 x0) (q0 x') k /\ forall i, (0 <= i < n)%Z -> vec_of x' i = vec_of x0 i + ks c i.
Proof.
  intros Hw Hb Hx Ht Er. destruct (pcg_optimal par w u w' u' x' k Hw Hb Hx Ht Er) as (m & ((c & Hc & Ec) & _) & Em & _).
  exists c. split; [unfold zlen; rewrite Hc; exact Em|]. intros i Hi. rewrite <- (Ec i Hi). ring.
Qed.

Lemma pcg_best par w u w' u' x' k y c : I w -> zlen b = n -> zlen x0 = n ->
  slt s0 (tolerance par (q0 x0)) = true -> pcg_mult A M l_inner par w u b x0 = Ok (w', u', x', k) ->
  (forall i, (0 <= i < n)%Z -> mat_vec mA n y i = vec_of b i) ->
  zlen c = passes (tolerance par (q0 x0)) (q0 x0) (q0 x') k ->
  sle (energy_dist mA n (vec_of x') y) (energy_dist mA n (fun i => vec_of x0 i + ks c i) y).
Proof.
  intros Hw Hb Hx Ht Er Hy Hc. destruct (pcg_optimal par w u w' u' x' k Hw Hb Hx Ht Er) as (m & Hf & Em & _).
  apply (Fin_best m); [exact Hf|exact Hy|]. unfold zlen in Hc. lia.
Qed.

Lemma pcg_no_more_passes par w u w' u' x' k y c : I w -> zlen b = n -> zlen x0 = n ->
  slt s0 (tolerance par (q0 x0)) = true -> pcg_mult A M l_inner par w u b x0 = Ok (w', u', x', k) ->
  (forall i, (0 <= i < n)%Z -> mat_vec mA n y i = vec_of b i) ->
  (forall i, (0 <= i < n)%Z -> y i = vec_of x0 i + ks c i) ->
  (passes (tolerance par (q0 x0)) (q0 x0) (q0 x') k <= zlen c)%Z.
Proof.
  intros Hw Hb Hx Ht Er Hy Hc. destruct (pcg_optimal par w u w' u' x' k Hw Hb Hx Ht Er) as (m & Hf & Em & Hq).
  rewrite <- Em. unfold zlen. apply inj_le, Hq. exists y, c. auto.
Qed.

(** the residual is orthogonal to the space *)
Lemma pcg_galerkin par w u w' u' x' k j : I w -> zlen b = n -> zlen x0 = n ->
  slt s0 (tolerance par (q0 x0)) = true -> pcg_mult A M l_inner par w u b x0 = Ok (w', u', x', k) ->
  (Z.of_nat j < passes (tolerance par (q0 x0)) (q0 x0) (q0 x') k)%Z -> inner n (vec_of (residual mA n b x')) (kv j) = s0.
Proof.
  intros Hw Hb Hx Ht Er Hj. destruct (pcg_optimal par w u w' u' x' k Hw Hb Hx Ht Er) as (m & (_ & Ho) & Em & _).
  apply Ho. lia.
Qed.

(* ---- the error as a sum of eigenvectors *)
Notation MA v := (mat_vec mM n (mat_vec mA n v)).

(** (1 - M A / l1) (1 - M A / l2) ... v *)
Fixpoint cut (ls : list T) (v : vect S) : vect S :=
  match ls with
  | [] => v
  | l :: ls => let u := cut ls v in fun i => u i + (- (s1 / l)) * MA u i
  end.

Lemma MA_lin v v' k i : MA (fun j => v j + k * v' j) i = MA v i + k * MA v' i.
Proof.
  rewrite <- (mat_vec_axpy R). apply mat_vec_ext; [reflexivity|]. intros j _. now rewrite <- (mat_vec_axpy R).
Qed.
Lemma MA_ext v v' i : (forall j, (0 <= j < n)%Z -> v j = v' j) -> MA v i = MA v' i.
Proof. intros H. apply mat_vec_ext; [reflexivity|]. intros j _. now apply mat_vec_ext. Qed.

Lemma cut_ext ls v v' : (forall i, (0 <= i < n)%Z -> v i = v' i) -> forall i, (0 <= i < n)%Z -> cut ls v i = cut ls v' i.
Proof. intros H. induction ls as [|l ls IH]; cbn [cut]; [exact H|]. intros i Hi. rewrite (IH i Hi). now rewrite (MA_ext _ _ i IH). Qed.

Lemma cut_lin ls v v' k : forall i, (0 <= i < n)%Z -> cut ls (fun j => v j + k * v' j) i = cut ls v i + k * cut ls v' i.
Proof.
  induction ls as [|l ls IH]; cbn [cut]; [reflexivity|]. intros i Hi. rewrite (IH i Hi), (MA_ext _ _ i IH), MA_lin. ring.
Qed.

Lemma cut_eigen ls l e : In l ls -> l <> s0 -> (forall i, (0 <= i < n)%Z -> MA e i = l * e i) -> forall i, (0 <= i < n)%Z -> cut ls e i = s0.
Proof.
  intros Hin Hl He.
  assert (Hm : forall ls, exists k, forall i, (0 <= i < n)%Z -> cut ls e i = k * e i).
  { clear ls Hin. induction ls as [|l' ls (k & Hk)]; [exists s1; intros; cbn [cut]; ring|]. exists (k * (s1 + (- (s1 / l')) * l)). intros i Hi. cbn [cut].
    rewrite (MA_ext _ (fun j => s0 + k * e j) i) by (intros j Hj; rewrite (Hk j Hj); ring).
    rewrite (MA_lin (fun _ => s0)), (He i Hi), (Hk i Hi). rewrite (mat_vec_0 R) by (intros; now apply (mat_vec_0 R)). ring. }
  induction ls as [|l' ls IH]; [destruct Hin|]. cbn [cut]. intros i Hi. destruct Hin as [->|Hin].
  - destruct (Hm ls) as (k & Hk). rewrite (MA_ext _ (fun j => s0 + k * e j) i) by (intros j Hj; rewrite (Hk j Hj); ring).
    rewrite (MA_lin (fun _ => s0)), (He i Hi), (Hk i Hi). rewrite (mat_vec_0 R) by (intros; now apply (mat_vec_0 R)).
    replace (k * e i + - (s1 / l) * (s0 + k * (l * e i))) with (k * e i * (s1 - (s1 / l) * l)) by ring.
    rewrite (div_mul F) by exact Hl. ring.
  - rewrite (IH Hin i Hi). rewrite (mat_vec_0 R); [ring|]. intros j _. apply (mat_vec_0 R). exact (IH Hin).
Qed.

Lemma cut_sum ls es : (forall l e, In (l, e) es -> In l ls) -> eigenvectors mA mM n es -> forall i, (0 <= i < n)%Z -> cut ls (eigen_sum es) i = s0.
Proof.
  induction es as [|[l e] es IH]; intros Hs He i Hi.
  - assert (H0 : forall i, (0 <= i < n)%Z -> cut ls (fun _ => s0) i = s0).
    { clear i Hi Hs He. induction ls as [|l ls IH]; cbn [cut]; [reflexivity|]. intros i Hi. rewrite (IH i Hi), (mat_vec_0 R); [ring|]. intros j _. apply (mat_vec_0 R). exact IH. }
    exact (H0 i Hi).
  - rewrite (cut_ext ls _ (fun j => e j + s1 * eigen_sum es j)); [|intros j _; unfold eigen_sum; cbn [fold_right snd]; ring|exact Hi].
    rewrite cut_lin by exact Hi. rewrite IH; [|intros l' e' H'; apply (Hs l' e'); now right|intros l' e' H'; apply He; now right|exact Hi].
    destruct (He l e (or_introl eq_refl)) as (Hl & Hm). rewrite (cut_eigen ls l e); [ring| |exact Hl|exact Hm|exact Hi]. apply (Hs l e). now left.
Qed.

Lemma cut_space y ls : (forall i, (0 <= i < n)%Z -> mat_vec mA n y i = vec_of b i) ->
  inK (length ls) (fun i => (y i - vec_of x0 i) - cut ls (fun i => y i - vec_of x0 i) i).
Proof.
  intros Hy. set (e := fun i => y i - vec_of x0 i).
  assert (Hv0 : forall i, (0 <= i < n)%Z -> MA e i = kv 0 i).
  { intros i Hi. cbn [krylov]. apply mat_vec_ext; [reflexivity|]. intros j Hj. rewrite residual_at by exact Hj. rewrite <- (Hy j Hj).
    transitivity (mat_vec mA n y j + (- s1) * mat_vec mA n (vec_of x0) j); [|ring]. rewrite <- (mat_vec_axpy R). apply mat_vec_ext; [reflexivity|]. intros q _. unfold e. ring. }
  induction ls as [|l ls IH]; cbn [cut length].
  - apply (inK_ext mA mM n r0 _ (fun _ => s0)); [intros i _; unfold e; ring|]. apply (inK_0 R).
  - set (u := cut ls e) in *. set (k := fun i => (y i - vec_of x0 i) - u i) in *.
    apply (inK_ext mA mM n r0 _ (fun i => (k i + (s1 / l) * kv 0 i) + (- (s1 / l)) * MA k i)).
    + intros i Hi. rewrite <- (Hv0 i Hi).
      assert (Eu : MA u i = MA e i + (- s1) * MA k i) by (rewrite <- MA_lin; apply MA_ext; intros j _; unfold k, e; ring).
      rewrite Eu. change (k i) with ((y i - vec_of x0 i) - u i). ring.
    + apply (inK_lin R); [apply (inK_lin R); [apply (inK_mono R), IH|apply (inK_v0 R)]|]. apply (inK_MA R), IH.
Qed.

Lemma pcg_eigen_passes par w u w' u' x' k y es ls : I w -> zlen b = n -> zlen x0 = n ->
  slt s0 (tolerance par (q0 x0)) = true -> pcg_mult A M l_inner par w u b x0 = Ok (w', u', x', k) ->
  (forall i, (0 <= i < n)%Z -> mat_vec mA n y i = vec_of b i) ->
  eigenvectors mA mM n es -> (forall l e, In (l, e) es -> In l ls) -> (forall i, (0 <= i < n)%Z -> y i = vec_of x0 i + eigen_sum es i) ->
  (passes (tolerance par (q0 x0)) (q0 x0) (q0 x') k <= zlen ls)%Z.
Proof.
  intros Hw Hb Hx Ht Er Hy He Hl Hs. destruct (cut_space y ls Hy) as (c & Hc & Ec).
  replace (zlen ls) with (zlen c) by (unfold zlen; now rewrite Hc).
  apply (pcg_no_more_passes par w u w' u' x' k y c Hw Hb Hx Ht Er Hy). intros i Hi. rewrite <- (Ec i Hi).
  rewrite (cut_ext _ _ (eigen_sum es)); [|intros j Hj; rewrite (Hs j Hj); ring|exact Hi].
  rewrite cut_sum; [ring|exact Hl|exact He|exact Hi].
Qed.

End Optimal.

(* ---------------------------------------------------------------- the number of passes *)

Section Passes.
Context {S : scalar} (R : ring_laws S).
Notation T := (car S).
Local Open Scope S_scope.
Context {W : Type} (I : W -> Prop) (A : op S W) (M : option (op S W)) (n : Z).
Context (mA mM : mat S) (HA : acts_as I A n mA) (HM : prec_applies I M n (mat_list mM n)).

Let J (w : W * Z) : Prop := I (fst w).

Lemma count_acts : acts_as J (counting A) n mA.
Proof.
  destruct HA as (E1 & E2 & H0 & H). split; [exact E1|]. split; [exact E2|]. split; [exact H0|]. intros w x out Hw Hx Ho.
  destruct (H (fst w) x out Hw Hx Ho) as (Hl & w' & E & Hw'). split; [exact Hl|]. exists (w', (snd w + 1)%Z). cbn [counting o_mult]. rewrite E. split; [reflexivity|exact Hw'].
Qed.

Lemma beside_applies : prec_applies J (option_map beside M) n (mat_list mM n).
Proof.
  destruct M as [m|]; cbn [option_map prec_applies] in *; [|exact HM].
  destruct HM as (E1 & E2 & H0 & H). split; [exact E1|]. split; [exact E2|]. split; [exact H0|]. intros w x out Hw Hx Ho.
  destruct (H (fst w) x out Hw Hx Ho) as (Hl & w' & E & Hw'). split; [exact Hl|]. exists (w', snd w). cbn [beside o_mult]. rewrite E. split; [reflexivity|exact Hw'].
Qed.

Notation fA := (mat_list mA n).
Notation fM := (mat_list mM n).
Notation d := (fun x y : list T => inner n (vec_of x) (vec_of y)).
Notation q0 b x := (inner n (vec_of (mat_list mM n (residual mA n b x))) (vec_of (residual mA n b x))).

Lemma loop_passes b par tol : forall fuel num (w : W * Z) u x w' u' x' k, J w -> plens n u x -> pb_r u = residual mA n b x ->
  pcg_loop fuel (counting A) (option_map beside M) l_inner par tol num w u x = Ok (w', u', x', k) ->
  (snd w' - snd w + num - 1)%Z = if slt (q0 b x') tol then k else (k - 1)%Z.
Proof.
  pose proof (acts_n I A n mA HA) as Hn. destruct count_acts as (E1 & E2 & H).
  induction fuel as [|fuel IH]; intros num w u x w' u' x' k Hw Hl Hr Er.
  all: cbn [pcg_loop] in Er; destruct (p_step_case J (counting A) (option_map beside M) l_inner n fA fM d E1 E2 H beside_applies (l_inner_gives R n) par tol w u x Hw Hl)
       as (Hl' & [(_ & w1 & Es & Hw1)|(_ & Es)]); rewrite Es in Er; cbn [bind] in Er; [|discriminate].
  all: apply pcg_step_count in Es.
  all: assert (Hr' : p_r fA d u = residual mA n b (p_x fA d u x)) by (destruct Hl as [Lr Lp Lz Lx]; unfold p_r, p_x; rewrite Hr; apply (residual_step R); auto).
  all: destruct (p_stop fA fM d tol u) eqn:Est.
  all: pose proof Est as Est'; unfold p_stop, p_z in Est'; rewrite Hr' in Est'.
  1, 3: injection Er as <- <- <- <-; rewrite Est'; lia.
  all: destruct (Z.ltb_spec (num + 1) (sp_max par)).
  - discriminate.
  - injection Er as <- <- <- <-. rewrite Est'. lia.
  - rewrite <- (IH (num + 1)%Z w1 (p_next fA fM d tol u) (p_x fA d u x) w' u' x' k Hw1 Hl' Hr' Er). lia.
  - injection Er as <- <- <- <-. rewrite Est'. lia.
Qed.

Lemma pcg_passes par w u b x w' u' x' k : I w -> zlen b = n -> zlen x = n ->
  pcg_mult (counting A) (option_map beside M) l_inner par (w, 0%Z) u b x = Ok (w', u', x', k) ->
  snd w' = (1 + passes (tolerance par (q0 b x)) (q0 b x) (q0 b x') k)%Z.
Proof.
  intros Hw Hb Hx Er. pose proof (acts_n I A n mA HA) as Hn. pose proof count_acts as (E1 & E2 & H). unfold passes.
  assert (Eq : exists w1, J w1 /\ snd w1 = 1%Z /\ pcg_mult (counting A) (option_map beside M) l_inner par (w, 0%Z) u b x =
    if slt (d (pb_z (p_start fA fM b x)) (pb_r (p_start fA fM b x))) (p_tol fA fM d par b x)
    then Ok (w1, p_start fA fM b x, x, 1%Z)
    else pcg_loop (Z.to_nat (sp_max par)) (counting A) (option_map beside M) l_inner par (p_tol fA fM d par b x) 1 w1 (p_start fA fM b x) x).
  { destruct (A_vec J (counting A) n fA E1 E2 H (w, 0%Z) x (pb_Ap u) Hw Hx) as (HlA & w1 & F1 & Hw1).
    assert (Hr : zlen (zipw ssub b (fA x)) = n) by (rewrite zlen_zipw; exact Hb).
    destruct (prec_vec J (option_map beside M) n fM beside_applies w1 _ (pb_z u) Hw1 Hr) as (Hlz & w2 & F2 & Hw2).
    exists w2. split; [exact Hw2|]. split; [rewrite (beside_prec _ _ _ _ _ _ F2), (counting_vec _ _ _ _ _ _ F1); reflexivity|].
    unfold pcg_mult. rewrite E1, Hb, Hx, Z.eqb_refl. cbn [assert_ bind]. rewrite F1. cbn [bind]. unfold l_sub. rewrite l_zip_ok by lia. cbn [bind].
    change (zipw (fun a b0 : T => a - b0) b (fA x)) with (zipw ssub b (fA x)). rewrite F2. cbn [bind].
    rewrite !(l_inner_gives R n) by assumption. reflexivity. }
  destruct Eq as (w1 & Hw1 & Hc & Eq). rewrite Er in Eq.
  assert (Et : p_tol fA fM d par b x = tolerance par (q0 b x)) by (unfold p_tol, p_start; cbn [pb_z pb_r]; now rewrite residual_start).
  assert (Eq0 : d (pb_z (p_start fA fM b x)) (pb_r (p_start fA fM b x)) = q0 b x) by (unfold p_start; cbn [pb_z pb_r]; now rewrite residual_start).
  rewrite Et in Eq. destruct (slt (q0 b x) (tolerance par (q0 b x))) eqn:Es.
  - cbv beta in Eq, Eq0. rewrite Eq0, Es in Eq. injection Eq as -> -> -> ->. rewrite Hc. reflexivity.
  - cbv beta in Eq, Eq0. rewrite Eq0, Es in Eq. symmetry in Eq.
    assert (Hr0 : pb_r (p_start fA fM b x) = residual mA n b x) by (cbn [p_start pb_r]; now apply residual_start).
    pose proof (loop_passes b par _ _ _ w1 _ _ w' u' x' k Hw1 (p_start_lens J (counting A) (option_map beside M) n fA fM E1 E2 H beside_applies (w, 0%Z) b x Hw Hb Hx) Hr0 Eq). lia.
Qed.

End Passes.
