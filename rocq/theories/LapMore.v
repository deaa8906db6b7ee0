(** The Laplacian as a matrix: action, energy, null space, bounds; the whole example program. *)

From Coq Require Import ZArith List Bool Lia Ring Field_theory Permutation.
From Verif Require Import Base Scalar Spec Sparse SumFacts CsrFacts EntrywiseMat SparseProofs ProductProofs TransposeProofs Vec Block Solver SolverSpec SolverEnergy KrylovFacts
  Basics BasicsSpec LapProofs.
Import ListNotations.
Open Scope Z_scope.

Section LapRing.
Context {S : scalar}.
Notation T := (car S).
Context (R : ring_laws S).
Let Rth : ring_theory (@s0 S) s1 sadd smul ssub sopp (@eq (car S)) := R.
Add Ring LapRing : Rth.
Local Open Scope S_scope.
Implicit Types (A L : csr S).

Lemma mat_of_const (c : Z -> Z -> T) (l : list (entry S)) i j :
  mat_of (map_values (fun i j _ => c i j) l) i j = of_int (zlen (filter (at_pos i j) l)) * c i j.
Proof.
  unfold map_values. induction l as [|e l IH].
  - transitivity (@s0 S); [reflexivity|]. cbn [filter]. change (of_int (zlen (@nil (entry S)))) with (@s0 S). ring.
  - cbn [map filter]. rewrite (mat_of_cons R), IH. change (at_pos i j (erow e, ecol e, c (erow e) (ecol e))) with (at_pos i j e). destruct (at_pos i j e) eqn:Ea.
    + rewrite zlen_cons, of_int_succ by apply zlen_nonneg. cbn [evalue snd]. unfold at_pos in Ea. apply andb_true_iff in Ea. destruct Ea as (E1 & E2). apply Z.eqb_eq in E1, E2. rewrite E1, E2. ring.
    + ring.
Qed.

Lemma lap_matrix A : csr_valid A -> one_diagonal A ->
  exists L, adj_to_laplacian A = Ok L /\ csr_valid L /\ same_pattern A L /\ forall i j, (0 <= i < c_rows A)%Z -> csr_mat L i j = laplacian A i j.
Proof.
  intros V D. destruct (lap_values A V D) as (L & E & VL & P & EL). exists L. split; [exact E|]. split; [exact VL|]. split; [exact P|]. intros i j Hi.
  unfold csr_mat. rewrite EL, (mat_of_const (fun i j => if (i =? j)%Z then of_int (neighbours A i) else - s1)). fold (edges A i j). unfold laplacian.
  destruct (Z.eqb_spec i j) as [<-|]; [rewrite (D i Hi); cbn; ring|ring].
Qed.

(** The neighbours of i are counted column by column. *)
Lemma degree_sum A i : csr_valid A -> of_int (neighbours A i) = sum_range 0 (c_cols A) (weight A i).
Proof.
  intros V. unfold neighbours, weight, edges. pose proof (entries_in_shape A V) as Sh. unfold in_shape in Sh. rewrite Forall_forall in Sh.
  assert (G : forall e, In e (entries A) -> (0 <= ecol e < c_cols A)%Z) by (intros e He; apply Sh; exact He). clear Sh. induction (entries A) as [|e l IH].
  - cbn [filter]. change (of_int (zlen (@nil (entry S)))) with (@s0 S). symmetry. apply (sum_range_0 R). intros j _. destruct (i =? j)%Z; reflexivity.
  - specialize (IH (fun e' H => G e' (or_intror H))). specialize (G e (or_introl eq_refl)). cbn [filter].
    transitivity ((if (erow e =? i)%Z && negb (ecol e =? i)%Z then s1 else (s0 : T)) + sum_range 0 (c_cols A) (fun j => if (i =? j)%Z then s0 else of_int (zlen (filter (at_pos i j) l)))).
    + rewrite <- IH. destruct ((erow e =? i)%Z && negb (ecol e =? i)%Z); [rewrite zlen_cons, of_int_succ by apply zlen_nonneg|]; ring.
    + assert (Ed : (if (erow e =? i)%Z && negb (ecol e =? i)%Z then s1 else (s0 : T)) = sum_range 0 (c_cols A) (fun j => if (j =? ecol e)%Z then (if (erow e =? i)%Z && negb (j =? i)%Z then s1 else (s0 : T)) else (s0 : T))).
      { rewrite (sum_range_delta R 0 (c_cols A) (ecol e) (fun j => if (erow e =? i)%Z && negb (j =? i)%Z then s1 else (s0 : T)) G). reflexivity. }
      rewrite Ed, <- (sum_range_add R). apply sum_range_ext. intros j Hj. unfold at_pos at 2. rewrite (Z.eqb_sym i j), (Z.eqb_sym j (ecol e)).
      destruct (Z.eqb_spec j i) as [->|Hne]; [destruct (ecol e =? i)%Z, (erow e =? i)%Z; cbn [andb negb]; ring|].
      destruct (erow e =? i)%Z, (ecol e =? j)%Z; cbn [andb negb]; rewrite ?zlen_cons, ?of_int_succ by apply zlen_nonneg; ring.
Qed.

Lemma lap_mat_vec A (x : vect S) i : csr_valid A -> (0 <= i < c_cols A)%Z ->
  mat_vec (laplacian A) (c_cols A) x i = sum_range 0 (c_cols A) (fun j => weight A i j * (x i - x j)).
Proof.
  intros V Hi. unfold mat_vec. transitivity (sum_range 0 (c_cols A) (fun j => (if (j =? i)%Z then of_int (neighbours A i) * x j else s0) + (- s1) * (weight A i j * x j))).
  - apply sum_range_ext. intros j Hj. unfold laplacian, weight. rewrite (Z.eqb_sym i j). destruct (Z.eqb_spec j i) as [->|]; ring.
  - rewrite (sum_range_add R), (sum_range_scale R), (sum_range_delta R 0 (c_cols A) i (fun j => of_int (neighbours A i) * x j) Hi), (degree_sum A i V).
    rewrite <- (sum_range_scale_r R), <- (sum_range_scale R 0 (c_cols A) (- s1) (fun j => weight A i j * x j)), <- (sum_range_add R). apply sum_range_ext. intros j Hj. ring.
Qed.

Lemma one_diag_cols A i : csr_valid A -> one_diagonal A -> (0 <= i < c_rows A)%Z -> (0 <= i < c_cols A)%Z.
Proof.
  intros V D Hi. assert (St : stored A i i) by (apply stored_edges; rewrite (D i Hi); lia). destruct St as (v & Hv).
  pose proof (entries_in_shape A V) as Sh. unfold in_shape in Sh. rewrite Forall_forall in Sh. apply Sh in Hv. cbn in Hv. lia.
Qed.

Lemma lap_action A L (x out : list T) : csr_valid A -> one_diagonal A -> adj_to_laplacian A = Ok L -> zlen x = c_cols A -> zlen out = c_rows A ->
  exists y, sp_mult L x out = Ok y /\ zlen y = c_rows A /\
  forall i, (0 <= i < c_rows A)%Z -> vec_of y i = sum_range 0 (c_cols A) (fun j => weight A i j * (vec_of x i - vec_of x j)).
Proof.
  intros V D E Hx Ho. destruct (lap_matrix A V D) as (L' & E' & VL & (P1 & P2 & _) & HL). rewrite E in E'. injection E' as <-.
  destruct (sp_mult_spec R L x out VL ltac:(lia) ltac:(lia)) as (y & Ey & Ly & Hy). exists y. split; [exact Ey|]. split; [lia|]. intros i Hi.
  rewrite Hy by lia. rewrite P2, <- lap_mat_vec by (auto; now apply one_diag_cols). apply mat_vec_ext; [|reflexivity]. intros j Hj. apply HL. exact Hi.
Qed.

Lemma lap_rowsum A L (c : T) (out : list T) : csr_valid A -> one_diagonal A -> adj_to_laplacian A = Ok L -> zlen out = c_rows A ->
  exists y, sp_mult L (repeat c (Z.to_nat (c_cols A))) out = Ok y /\ all_zero y.
Proof.
  intros V D E Ho. pose proof (cv_cols V) as Hc. destruct (lap_action A L (repeat c (Z.to_nat (c_cols A))) out V D E) as (y & Ey & Ly & Hy).
  { rewrite zlen_repeat. lia. }
  { exact Ho. }
  exists y. split; [exact Ey|]. intros i Hi. rewrite Hy by lia. apply (sum_range_0 R). intros j Hj.
  assert (C : forall k, (0 <= k < c_cols A)%Z -> vec_of (repeat c (Z.to_nat (c_cols A))) k = c).
  { intros k Hk. unfold vec_of, zn. rewrite (nth_indep _ _ c) by (rewrite repeat_length; lia). apply nth_repeat. }
  rewrite (C j Hj), (C i) by (apply (one_diag_cols A i V D); lia). ring.
Qed.

Lemma lap_sym A L : csr_valid A -> one_diagonal A -> mutual A -> c_rows A = c_cols A -> adj_to_laplacian A = Ok L -> mat_sym (c_rows A) (csr_mat L).
Proof.
  intros V D M Sq E i j Hi Hj. destruct (lap_matrix A V D) as (L' & E' & VL & P & HL). rewrite E in E'. injection E' as <-.
  rewrite !HL by assumption. unfold laplacian. rewrite (Z.eqb_sym j i). destruct (Z.eqb_spec i j) as [->|]; [reflexivity|]. now rewrite (M i j Hi Hj).
Qed.

Lemma weight_sym A i j : mutual A -> (0 <= i < c_rows A)%Z -> (0 <= j < c_rows A)%Z -> weight A i j = weight A j i.
Proof. intros M Hi Hj. unfold weight. rewrite (Z.eqb_sym j i), (M i j Hi Hj). reflexivity. Qed.

Lemma lap_energy A L (x : vect S) : csr_valid A -> one_diagonal A -> mutual A -> c_rows A = c_cols A -> adj_to_laplacian A = Ok L ->
  let n := c_rows A in
  inner n x (mat_vec (csr_mat L) n x) + inner n x (mat_vec (csr_mat L) n x) = sum_range 0 n (fun i => sum_range 0 n (fun j => weight A i j * ((x i - x j) * (x i - x j)))).
Proof.
  intros V D M Sq E n. destruct (lap_matrix A V D) as (L' & E' & VL & P & HL). rewrite E in E'. injection E' as <-.
  assert (H1 : inner n x (mat_vec (csr_mat L) n x) = sum_range 0 n (fun i => sum_range 0 n (fun j => weight A i j * (x i * (x i - x j))))).
  { unfold inner. apply sum_range_ext. intros i Hi. transitivity (x i * mat_vec (laplacian A) (c_cols A) x i).
    - f_equal. unfold n. rewrite Sq. apply mat_vec_ext; [|reflexivity]. intros j Hj. apply HL. exact Hi.
    - rewrite lap_mat_vec by (auto; unfold n in Hi; lia). rewrite <- Sq. fold n. rewrite <- (sum_range_scale R). apply sum_range_ext. intros j Hj. ring. }
  assert (H2 : inner n x (mat_vec (csr_mat L) n x) = sum_range 0 n (fun i => sum_range 0 n (fun j => weight A i j * (x j * (x j - x i))))).
  { rewrite H1, (sum_range_swap R). apply sum_range_ext. intros i Hi. apply sum_range_ext. intros j Hj. rewrite (weight_sym A j i M Hj Hi). reflexivity. }
  rewrite H1 at 1. rewrite H2, <- (sum_range_add R). apply sum_range_ext. intros i Hi. rewrite <- (sum_range_add R). apply sum_range_ext. intros j Hj. ring.
Qed.

End LapRing.

Section LapOrder.
Context {S : scalar}.
Notation T := (car S).
Context (F : field_laws S) (E : eqb_laws S) (O : order_laws S) (OS : sum_order_laws S) (OP : prod_order_laws S).
Let R : ring_laws S := field_ring S F.
Let Rth : ring_theory (@s0 S) s1 sadd smul ssub sopp (@eq (car S)) := R.
Add Ring LapOrderRing : Rth.
Local Open Scope S_scope.
Implicit Types (A L : csr S).

Lemma one_pos : slt (@s0 S) s1 = true.
Proof.
  apply (sle_neq_slt O); [|intros H; now apply (F_1_neq_0 F)]. replace (@s1 S) with (@s1 S * s1) by ring. apply (sq_nonneg R O OS OP).
Qed.
Lemma add_pos (a b : T) : sle s0 a -> slt s0 b = true -> slt s0 (a + b) = true.
Proof.
  intros Ha Hb. apply (slt_sle_trans O _ b); [exact Hb|]. pose proof (sle_add _ OS s0 a b b Ha (sle_refl O b)) as H. replace (s0 + b) with b in H by ring. exact H.
Qed.
Lemma of_int_nonneg n : (0 <= n)%Z -> sle s0 (@of_int S n).
Proof.
  intros Hn. replace n with (Z.of_nat (Z.to_nat n)) by lia. induction (Z.to_nat n) as [|m IH]; [apply (sle_refl O)|].
  replace (Z.of_nat (Datatypes.S m)) with (Z.of_nat m + 1)%Z by lia. rewrite of_int_succ by lia. apply (slt_sle O), add_pos; [exact IH|apply one_pos].
Qed.
Lemma of_int_positive n : (0 < n)%Z -> slt s0 (@of_int S n) = true.
Proof. intros Hn. replace n with (n - 1 + 1)%Z by lia. rewrite of_int_succ by lia. apply add_pos; [apply of_int_nonneg; lia|apply one_pos]. Qed.
Lemma weight_nonneg A i j : sle s0 (weight A i j).
Proof. unfold weight. destruct (i =? j)%Z; [apply (sle_refl O)|]. apply of_int_nonneg. unfold edges. apply zlen_nonneg. Qed.

Lemma le_add_cancel (a b : T) : sle (a + a) (b + b) -> sle a b.
Proof.
  intros H. unfold sle in *. destruct (slt b a) eqn:Hl; [|reflexivity]. exfalso. apply (slt_sle O) in Hl as H1.
  assert (Hs : slt (b + b) (a + a) = true).
  { apply (sle_neq_slt O); [apply (sle_add _ OS); exact H1|]. intros He. pose proof (sle_add _ OS b a a a H1 (sle_refl O a)) as H2. pose proof (sle_add _ OS b b b a (sle_refl O b) H1) as H3.
    rewrite <- He in H2. assert (H4 : b + a = b + b) by (apply (sle_antisym O); assumption).
    apply (slt_neq O) in Hl. apply Hl. transitivity (- b + (b + a)); [rewrite H4|]; ring. }
  congruence.
Qed.

Lemma lap_energy_nonneg A L (x : vect S) : csr_valid A -> one_diagonal A -> mutual A -> c_rows A = c_cols A -> adj_to_laplacian A = Ok L ->
  sle s0 (inner (c_rows A) x (mat_vec (csr_mat L) (c_rows A) x)).
Proof.
  intros V D M Sq EL. apply le_add_cancel. rewrite (lap_energy R A L x V D M Sq EL). replace (s0 + s0) with (s0 : T) by ring.
  apply (sum_nonneg R O OS). intros i _. apply (sum_nonneg R O OS). intros j _. apply OP; [apply weight_nonneg|apply (sq_nonneg R O OS OP)].
Qed.

Lemma sum_le lo hi (f g : Z -> T) : (forall i, (lo <= i < hi)%Z -> sle (f i) (g i)) -> sle (sum_range lo hi f) (sum_range lo hi g).
Proof.
  intros H. assert (Hs : sle s0 (sum_range lo hi (fun i => g i - f i))).
  { apply (sum_nonneg R O OS). intros i Hi. pose proof (sle_add _ OS (f i) (g i) (- f i) (- f i) (H i Hi) (sle_refl O _)) as G. replace (f i + - f i) with (s0 : T) in G by ring. replace (g i + - f i) with (g i - f i) in G by ring. exact G. }
  assert (He : sum_range lo hi g = sum_range lo hi (fun i => g i - f i) + sum_range lo hi f) by (rewrite <- (sum_range_add R); apply sum_range_ext; intros; ring).
  rewrite He. pose proof (sle_add _ OS s0 _ (sum_range lo hi f) (sum_range lo hi f) Hs (sle_refl O _)) as G. replace (s0 + sum_range lo hi f) with (sum_range lo hi f) in G by ring. exact G.
Qed.
Lemma mul_le (c a b : T) : sle s0 c -> sle a b -> sle (c * a) (c * b).
Proof.
  intros Hc H. pose proof (sle_add _ OS a b (- a) (- a) H (sle_refl O _)) as G. replace (a + - a) with (s0 : T) in G by ring.
  pose proof (OP c (b + - a) Hc G) as P. pose proof (sle_add _ OS s0 (c * (b + - a)) (c * a) (c * a) P (sle_refl O _)) as Q.
  replace (s0 + c * a) with (c * a) in Q by ring. replace (c * (b + - a) + c * a) with (c * b) in Q by ring. exact Q.
Qed.

(** x^T L x <= 2 D |x|^2 if no degree exceeds D *)
Lemma lap_energy_bound A L (x : vect S) D : csr_valid A -> one_diagonal A -> mutual A -> c_rows A = c_cols A -> adj_to_laplacian A = Ok L ->
  (forall i, (0 <= i < c_rows A)%Z -> sle (of_int (neighbours A i)) D) ->
  sle (inner (c_rows A) x (mat_vec (csr_mat L) (c_rows A) x)) ((D + D) * inner (c_rows A) x x).
Proof.
  intros V Dg M Sq EL HD. apply le_add_cancel. rewrite (lap_energy R A L x V Dg M Sq EL). set (n := c_rows A).
  apply (sle_trans O _ (sum_range 0 n (fun i => sum_range 0 n (fun j => weight A i j * ((x i * x i + x i * x i) + (x j * x j + x j * x j)))))).
  - apply sum_le. intros i _. apply sum_le. intros j _. apply mul_le; [apply weight_nonneg|].
    pose proof (sub_nonneg_le R O OS ((x i * x i + x i * x i) + (x j * x j + x j * x j)) ((x i + x j) * (x i + x j)) (sq_nonneg R O OS OP _)) as H.
    replace ((x i * x i + x i * x i) + (x j * x j + x j * x j) - (x i + x j) * (x i + x j)) with ((x i - x j) * (x i - x j)) in H by ring. exact H.
  - assert (He : sum_range 0 n (fun i => sum_range 0 n (fun j => weight A i j * ((x i * x i + x i * x i) + (x j * x j + x j * x j)))) =
                 sum_range 0 n (fun i => (s1 + s1) * (s1 + s1) * (of_int (neighbours A i) * (x i * x i)))).
    { transitivity (sum_range 0 n (fun i => sum_range 0 n (fun j => weight A i j * (x i * x i + x i * x i))) + sum_range 0 n (fun i => sum_range 0 n (fun j => weight A i j * (x j * x j + x j * x j)))).
      { rewrite <- (sum_range_add R). apply sum_range_ext. intros i Hi. rewrite <- (sum_range_add R). apply sum_range_ext. intros j Hj. ring. }
      assert (H2 : sum_range 0 n (fun i => sum_range 0 n (fun j => weight A i j * (x j * x j + x j * x j))) = sum_range 0 n (fun i => sum_range 0 n (fun j => weight A i j * (x i * x i + x i * x i)))).
      { rewrite (sum_range_swap R). apply sum_range_ext. intros i Hi. apply sum_range_ext. intros j Hj. rewrite (weight_sym A j i M Hj Hi). reflexivity. }
      rewrite H2, <- (sum_range_add R). apply sum_range_ext. intros i Hi. rewrite (sum_range_scale_r R). rewrite (degree_sum R A i V), <- Sq. fold n.
      change (sum_range 0 n (fun j => weight A i j)) with (sum_range 0 n (weight A i)). ring. }
    rewrite He. apply (sle_trans O _ (sum_range 0 n (fun i => (s1 + s1) * (s1 + s1) * (D * (x i * x i))))).
    + apply sum_le. intros i Hi. apply mul_le; [apply (sq_nonneg R O OS OP)|]. replace (of_int (neighbours A i) * (x i * x i)) with (x i * x i * of_int (neighbours A i)) by ring.
      replace (D * (x i * x i)) with (x i * x i * D) by ring. apply mul_le; [apply (sq_nonneg R O OS OP)|]. apply HD. exact Hi.
    + unfold inner. rewrite <- !(sum_range_scale R), <- (sum_range_add R). match goal with |- sle ?a ?b => replace b with a; [apply (sle_refl O)|] end.
      apply sum_range_ext. intros i Hi. ring.
Qed.

Lemma sum_zero_terms lo hi (f : Z -> T) : (forall i, (lo <= i < hi)%Z -> sle s0 (f i)) -> sum_range lo hi f = s0 -> forall i, (lo <= i < hi)%Z -> f i = s0.
Proof.
  intros Hf Hs i Hi. apply (sle_antisym O); [|now apply Hf]. rewrite <- Hs. rewrite (sum_range_split R lo i hi), (sum_range_first i hi) by lia.
  assert (Ha : sle s0 (sum_range lo i f)) by (apply (sum_nonneg R O OS); intros k Hk; apply Hf; lia).
  assert (Hb : sle s0 (sum_range (i + 1) hi f)) by (apply (sum_nonneg R O OS); intros k Hk; apply Hf; lia).
  pose proof (sle_add _ OS s0 _ (f i) (f i) Ha (sle_refl O _)) as H1. pose proof (sle_add _ OS _ _ s0 _ H1 Hb) as H2.
  replace (s0 + f i + s0) with (f i) in H2 by ring. replace (sum_range lo i f + f i + sum_range (i + 1) hi f) with (sum_range lo i f + (f i + sum_range (i + 1) hi f)) in H2 by ring. exact H2.
Qed.

(** L x = 0 exactly when x is the same at both ends of every edge. *)
Lemma lap_kernel A L (x out : list T) : csr_valid A -> one_diagonal A -> mutual A -> c_rows A = c_cols A -> adj_to_laplacian A = Ok L ->
  zlen x = c_cols A -> zlen out = c_rows A ->
  exists y, sp_mult L x out = Ok y /\ zlen y = c_rows A /\
  (all_zero y <-> forall i j, stored A i j -> vec_of x i = vec_of x j).
Proof.
  intros V D M Sq EL Hx Ho. destruct (lap_action R A L x out V D EL Hx Ho) as (y & Ey & Ly & Hy). exists y. split; [exact Ey|]. split; [exact Ly|]. split.
  - intros Hz i j St.
    assert (Hij : (0 <= i < c_rows A)%Z /\ (0 <= j < c_rows A)%Z).
    { destruct St as (v & Hv). pose proof (entries_in_shape A V) as Sh. unfold in_shape in Sh. rewrite Forall_forall in Sh. apply Sh in Hv. cbn in Hv. rewrite Sq at 2. tauto. }
    destruct Hij as (Hi & Hj). destruct (Z.eq_dec i j) as [->|Hne]; [reflexivity|].
    assert (H0 : sum_range 0 (c_rows A) (fun i => sum_range 0 (c_rows A) (fun j => weight A i j * ((vec_of x i - vec_of x j) * (vec_of x i - vec_of x j)))) = s0).
    { rewrite <- (lap_energy R A L (vec_of x) V D M Sq EL). destruct (lap_matrix R A V D) as (L' & E' & VL & (P1 & P2 & _) & HL). rewrite EL in E'. injection E' as <-.
      destruct (sp_mult_spec R L x out VL ltac:(lia) ltac:(lia)) as (y' & Ey' & _ & Hy'). rewrite Ey in Ey'. injection Ey' as <-.
      rewrite (inner_0_r R); [ring|]. intros k Hk. rewrite Sq, <- P2, <- Hy' by lia. apply Hz. lia. }
    assert (H1 := sum_zero_terms 0 (c_rows A) _ (fun i _ => sum_nonneg R O OS 0 (c_rows A) _ (fun j _ => OP _ _ (weight_nonneg A i j) (sq_nonneg R O OS OP (vec_of x i - vec_of x j)))) H0 i Hi).
    cbv beta in H1. assert (H2 := sum_zero_terms 0 (c_rows A) _ (fun j _ => OP _ _ (weight_nonneg A i j) (sq_nonneg R O OS OP (vec_of x i - vec_of x j))) H1 j Hj). cbv beta in H2.
    assert (Hw : weight A i j <> s0).
    { unfold weight. apply Z.eqb_neq in Hne. rewrite Hne. intros Hw. apply stored_edges in St. apply of_int_positive in St. rewrite Hw in St. rewrite (slt_irrefl _ O) in St. discriminate. }
    assert (Hs : (vec_of x i - vec_of x j) * (vec_of x i - vec_of x j) = s0).
    { apply (mul_cancel F _ (weight A i j)); [|exact Hw]. rewrite <- H2. ring. }
    assert (Hd : vec_of x i - vec_of x j = s0).
    { destruct (seqb (vec_of x i - vec_of x j) s0) eqn:Eb; [now apply E|]. apply (mul_cancel F _ _ Hs). intros Hc. apply E in Hc. congruence. }
    transitivity (vec_of x i - vec_of x j + vec_of x j); [ring|]. rewrite Hd. ring.
  - intros H i Hi. rewrite Hy by lia. apply (sum_range_0 R). intros j Hj. unfold weight. destruct (Z.eqb_spec i j) as [->|Hne]; [ring|].
    destruct (Z.eq_dec (edges A i j) 0) as [->|Hp]; [cbn [of_int]; ring|].
    rewrite (H i j); [ring|]. apply stored_edges. assert (0 <= edges A i j)%Z by (unfold edges; apply zlen_nonneg). lia.
Qed.

End LapOrder.
