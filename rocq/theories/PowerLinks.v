(** The power iteration as a call. *)

From Coq Require Import ZArith List Bool Lia Ring Field_theory.
From Verif Require Import Base Scalar Spec LoopFacts SumFacts Sparse SparseProofs Vec Block BlockOp Solver SolverSpec SolverProofs SolverEnergy SolverLinks KrylovFacts
  Basics BasicsSpec LapProofs LapMore PowerProofs PowerMore.
Import ListNotations.
Open Scope Z_scope.

Section PowerLinks.
Context {S : scalar}.
Notation T := (car S).
Context (F : field_laws S) (E : eqb_laws S) (O : order_laws S) (OS : sum_order_laws S) (OP : prod_order_laws S).
Let R : ring_laws S := field_ring S F.
Let Rth : ring_theory (@s0 S) s1 sadd smul ssub sopp (@eq (car S)) := R.
Add Ring PowerLinksRing : Rth.
Context (root : T -> T) (RL : root_laws root).
Context {W : Type} (I : W -> Prop) (A : op S W) (n : Z) (mA : mat S) (HA : acts_as I A n mA) (tol : T).
Context (gen : Z -> T) (max_iter : Z) (w : W) (Hw : I w) (Hm : 0 < max_iter).

Notation run := (power_iterate root A tol max_iter gen w).
Notation P k := (pow_vec mA n k gen).

Lemma outcome : power_outcome I mA n tol (Z.to_nat max_iter) gen run.
Proof. exact (power_iterate_outcome F E O OS OP root RL I A n mA HA tol gen max_iter w Hw Hm). Qed.

Lemma run_nonsingular : mat_nonsingular n mA -> nonzero_vec n gen -> exists w' r, run = Ok (w', r) /\ I w'.
Proof.
  intros N G. pose proof outcome as H. unfold power_outcome in H. destruct run as [(w', r)|e]; [exists w', r; split; [reflexivity|tauto]|]. exfalso.
  destruct H as (_ & k & Hk & Hz & Hn & _). destruct k as [|k]; [exact (zero_not_nonzero n gen Hz G)|]. specialize (Hn k ltac:(lia)). rewrite pow_vec_S in Hz.
  exact (zero_not_nonzero n _ (N _ Hz) Hn).
Qed.

Lemma run_quotient w' r : run = Ok (w', r) -> exists k, (k < Z.to_nat max_iter)%nat /\ r = rayleigh mA n (P k) /\ nonzero_vec n (P k) /\ nonzero_vec n (P (Datatypes.S k)) /\
  (k + 1 = Z.to_nat max_iter \/ settled tol (fun k => rayleigh mA n (P k)) k = true)%nat.
Proof.
  intros Er. pose proof outcome as H. unfold power_outcome in H. rewrite Er in H. destruct H as (_ & k & Hk & Hr & Hn & Hs & _). exists k. replace (k + 1)%nat with (Datatypes.S k) in Hn by lia.
  split; [exact Hk|]. split; [exact Hr|]. split; [now apply (nonzero_before F E)|]. split; [exact Hn|exact Hs].
Qed.

Lemma run_range lo hi w' r : (forall x : vect S, sle (smul lo (inner n x x)) (inner n x (mat_vec mA n x)) /\ sle (inner n x (mat_vec mA n x)) (smul hi (inner n x x))) ->
  run = Ok (w', r) -> sle lo r /\ sle r hi.
Proof. intros B Er. destruct (run_quotient w' r Er) as (k & _ & -> & Hn & _). apply (rayleigh_range F O OS OP n mA (P k) lo hi Hn); apply B. Qed.

Lemma run_eigen lam : lam <> s0 -> nonzero_vec n gen -> (forall i, 0 <= i < n -> mat_vec mA n gen i = smul lam (gen i)) -> exists w', run = Ok (w', lam) /\ I w'.
Proof.
  intros Hl (i0 & Hi0 & G) He. pose proof outcome as H. unfold power_outcome in H.
  assert (Hnz : forall k, nonzero_vec n (P k)).
  { intros k. exists i0. split; [exact Hi0|]. rewrite (pow_eigen F n mA gen lam k i0 He Hi0). apply (mul_nonzero F); [now apply (power_nonzero F)|exact G]. }
  destruct run as [(w', r)|e].
  - destruct H as (Hw' & k & _ & -> & _). exists w'. split; [|exact Hw']. do 2 f_equal.
    rewrite (rayleigh_scaled F O OS OP mA n (P k) gen (power lam k)); [|now apply (power_nonzero F)|now exists i0|intros i Hi; now apply (pow_eigen F)].
    apply (rayleigh_eigen F O OS OP); [now exists i0|exact He].
  - exfalso. destruct H as (_ & k & _ & Hz & _). exact (zero_not_nonzero n _ Hz (Hnz k)).
Qed.

(** For a symmetric matrix the assertion fails exactly if A maps the start to 0. *)
Lemma run_symmetric : mat_sym n mA -> (run = Fail FAssert <-> zero_vec n (mat_vec mA n gen)).
Proof.
  intros Sy. pose proof outcome as H. unfold power_outcome in H.
  assert (Z1 : forall k, zero_vec n (P (Datatypes.S k)) -> zero_vec n (P 1)).
  { induction k as [|k IH]; [auto|]. intros Hz. apply IH. destruct (zero_or_not E n (P (Datatypes.S k))) as [G|G]; [exact G|]. exfalso.
    apply (self_pos F O OS OP) in G. rewrite pow_vec_S in G at 1. rewrite <- (inner_sym R n mA _ _ Sy) in G. rewrite <- pow_vec_S in G.
    rewrite (inner_0_r R) in G by exact Hz. rewrite (slt_irrefl _ O) in G. discriminate. }
  split.
  - intros Er. rewrite Er in H. destruct H as (_ & k & _ & Hz & _). destruct k as [|k]; [|exact (Z1 k Hz)].
    intros i Hi. unfold mat_vec. apply (sum_range_0 R). intros j Hj. pose proof (Hz j Hj) as H0. change (gen j = s0) in H0. rewrite H0. ring.
  - intros Hz. destruct run as [(w', r)|e].
    + exfalso. destruct H as (_ & k & _ & _ & Hn & _). apply (nonzero_le F E n mA gen (k + 1) 1 ltac:(lia)) in Hn. exact (zero_not_nonzero n _ Hz Hn).
    + destruct H as (-> & _). reflexivity.
Qed.

Lemma run_improves w' r : mat_sym n mA -> mat_pos_semidef n mA -> run = Ok (w', r) -> sle (rayleigh mA n gen) r.
Proof. intros Sy Ps Er. destruct (run_quotient w' r Er) as (k & _ & -> & Hn & _). exact (quotient_monotone F E O OS OP n mA Sy Ps gen 0 k ltac:(lia) Hn). Qed.

Lemma run_converges w' r (v : vect S) lam : mat_sym n mA -> mat_pos_semidef n mA -> (forall i, 0 <= i < n -> mat_vec mA n v i = smul lam (v i)) -> run = Ok (w', r) ->
  exists k, (k < Z.to_nat max_iter)%nat /\ (k + 1 = Z.to_nat max_iter \/ settled tol (fun k => rayleigh mA n (P k)) k = true)%nat /\
  sle (smul (power lam (2 * k)) (smul (inner n gen v) (inner n gen v))) (smul (power r (2 * k)) (smul (inner n gen gen) (inner n v v))).
Proof.
  intros Sy Ps Hv Er. destruct (run_quotient w' r Er) as (k & Hk & -> & Hn & _ & Hs). exists k. split; [exact Hk|]. split; [exact Hs|].
  exact (quotient_converges F E O OS OP n mA Sy Ps gen v lam k Hv Hn).
Qed.

End PowerLinks.

Section PowerLap.
Context {S : scalar}.
Notation T := (car S).
Context (F : field_laws S) (E : eqb_laws S) (O : order_laws S) (OS : sum_order_laws S) (OP : prod_order_laws S).
Let R : ring_laws S := field_ring S F.
Let Rth : ring_theory (@s0 S) s1 sadd smul ssub sopp (@eq (car S)) := R.
Add Ring PowerLapRing : Rth.
Context (root : T -> T) (RL : root_laws root).

(** The eigenvalue that the example prints *)
Lemma laplacian_value (A L : csr S) (D tol : T) (gen : Z -> T) (max_iter : Z) : csr_valid A -> one_diagonal A -> mutual A -> c_rows A = c_cols A -> adj_to_laplacian A = Ok L ->
  (forall i, 0 <= i < c_rows A -> sle (of_int (neighbours A i)) D) -> 0 < max_iter ->
  match power_iterate root (sp_op L) tol max_iter gen tt with
  | Ok (_, r) => sle s0 r /\ sle r (sadd D D) /\ exists i j, stored A i j /\ gen i <> gen j
  | Fail e => e = FAssert /\ forall i j, stored A i j -> gen i = gen j
  end.
Proof.
  intros V Dg M Sq EL HD Hm. destruct (lap_matrix R A V Dg) as (L' & E' & VL & (P1 & P2 & _) & HL). rewrite EL in E'. injection E' as <-.
  assert (Ac : acts_as (fun _ : unit => True) (sp_op L) (c_rows A) (csr_mat L)) by (apply matrix_acts; [now apply (sp_op_matrix R)|exact P1|cbn [sp_op o_cols]; lia]).
  pose proof (lap_sym R A L V Dg M Sq EL) as Sy. pose proof (run_symmetric F E O OS OP root RL _ _ _ _ Ac tol gen max_iter tt Logic.I Hm Sy) as Hf.
  set (n := c_rows A) in *. pose proof (cv_rows V) as Hn. fold n in Hn. set (x := map gen (zrange 0 n)).
  assert (Lx : zlen x = n) by (apply zlen_map_zrange; exact Hn). assert (Hx : forall i, 0 <= i < n -> vec_of x i = gen i) by (intros i Hi; unfold vec_of, x; now rewrite zn_map_zrange).
  destruct (lap_kernel F E O OS OP A L x x V Dg M Sq EL ltac:(unfold n in *; lia) Lx) as (y & Ey & Ly & Hk). fold n in Ly.
  destruct (sp_mult_spec R L x x VL ltac:(unfold n in *; lia) ltac:(unfold n in *; lia)) as (y' & Ey' & _ & Hy'). rewrite Ey in Ey'. injection Ey' as <-.
  assert (Hz : all_zero y <-> zero_vec n (mat_vec (csr_mat L) n gen)).
  { assert (G : forall i, 0 <= i < n -> vec_of y i = mat_vec (csr_mat L) n gen i).
    { intros i Hi. rewrite Hy' by (unfold n in *; lia). rewrite P2, <- Sq. apply mat_vec_ext; [reflexivity|exact Hx]. }
    split; intros H i Hi; [rewrite <- G by exact Hi; apply H; lia|rewrite G by lia; apply H; lia]. }
  assert (In2 : forall i j, stored A i j -> 0 <= i < n /\ 0 <= j < n).
  { intros i j (v & Hv). pose proof (CsrFacts.entries_in_shape A V) as Sh. unfold in_shape in Sh. rewrite Forall_forall in Sh. apply Sh in Hv. cbn in Hv. unfold n in *. lia. }
  assert (Hk' : zero_vec n (mat_vec (csr_mat L) n gen) <-> forall i j, stored A i j -> gen i = gen j).
  { rewrite <- Hz, Hk. split; intros H i j St; specialize (H i j St); destruct (In2 i j St) as (Hi & Hj); [now rewrite !Hx in H by assumption|now rewrite !Hx by assumption]. }
  rewrite Hk' in Hf. pose proof (outcome F E O OS OP root RL _ _ _ _ Ac tol gen max_iter tt Logic.I Hm) as Ho.
  destruct (power_iterate root (sp_op L) tol max_iter gen tt) as [(w', r)|e] eqn:Er.
  - assert (B : sle s0 r /\ sle r (sadd D D)).
    { apply (run_range F E O OS OP root RL _ _ _ _ Ac tol gen max_iter tt Logic.I Hm s0 (sadd D D) w' r); [|exact Er]. intros z. split.
      - replace (smul s0 (inner n z z)) with (@s0 S) by ring. exact (lap_energy_nonneg F O OS OP A L z V Dg M Sq EL).
      - exact (lap_energy_bound F O OS OP A L z D V Dg M Sq EL HD). }
    split; [apply B|]. split; [apply B|].
    assert (Nf : ~ forall i j, stored A i j -> gen i = gen j) by (intros H; apply Hf in H; discriminate).
    destruct (existsb (fun e => negb (seqb (gen (erow e)) (gen (ecol e)))) (entries A)) eqn:Ex.
    + apply existsb_exists in Ex. destruct Ex as ([[i j] v] & Hin & Hne). cbn in Hne. exists i, j. split; [now exists v|]. intros H0. apply E in H0. rewrite H0 in Hne. discriminate.
    + exfalso. apply Nf. intros i j (v & Hv). destruct (seqb (gen i) (gen j)) eqn:Eb; [now apply E|]. exfalso.
      assert (Ht : existsb (fun e => negb (seqb (gen (erow e)) (gen (ecol e)))) (entries A) = true) by (apply existsb_exists; exists (i, j, v); split; [exact Hv|cbn; now rewrite Eb]). congruence.
  - unfold power_outcome in Ho. destruct Ho as (-> & _). split; [reflexivity|]. now apply Hf.
Qed.

End PowerLap.
