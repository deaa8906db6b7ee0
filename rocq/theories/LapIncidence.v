(** From the vertex-edge relation to the Laplacian. *)

From Coq Require Import ZArith List Bool Lia Ring Permutation.
From Verif Require Import Base Scalar Spec Sparse SumFacts CsrFacts EntrywiseMat SparseProofs ProductProofs TransposeProofs Vec Block Solver SolverSpec
  Basics BasicsSpec LapProofs LapMore.
Import ListNotations.
Open Scope Z_scope.

Section LapIncidence.
Context {S : scalar}.
Notation T := (car S).
Implicit Types (A L VE : csr S).

Lemma no_dup_count (l : list (entry S)) i j : no_dup_coords l -> zlen (filter (at_pos i j) l) <= 1.
Proof.
  unfold no_dup_coords. induction l as [|e l IH]; intros N; [cbn [filter]; rewrite zlen_nil; lia|]. cbn [map] in N. inversion N as [|x m Hn N' E]; subst. cbn [filter].
  destruct (at_pos i j e) eqn:Ea; [|now apply IH]. assert (Ef : filter (at_pos i j) l = []).
  { apply filter_none. intros e' He'. destruct (at_pos i j e') eqn:Ea'; [|reflexivity]. exfalso. apply Hn. apply in_map_iff. exists e'. split; [|exact He'].
    unfold at_pos in *. apply andb_true_iff in Ea, Ea'. destruct e as [[a b] v], e' as [[a' b'] v']. cbn in *. rewrite !Z.eqb_eq in *. destruct Ea as (-> & ->), Ea' as (-> & ->). reflexivity. }
  rewrite Ef, zlen_cons, zlen_nil. lia.
Qed.

Lemma product_pattern VE : csr_valid VE -> exists EV VV, sp_transpose VE = Ok EV /\ sp_spmult VE EV = Ok VV /\ csr_valid VV /\ c_rows VV = c_rows VE /\ c_cols VV = c_rows VE /\
  no_dup_coords (entries VV) /\ forall i j, stored VV i j <-> share VE i j.
Proof.
  intros V. destruct (sp_transpose_full VE V) as (EV & ET & VEV & R1 & R2 & _ & _ & P). destruct (sp_spmult_safe VE EV V VEV R1) as (VV & EM & VVV & C1 & C2 & N & St).
  exists EV, VV. do 3 (split; [assumption|]). split; [exact C1|]. split; [lia|]. split; [exact N|]. intros i j. unfold stored at 1. rewrite St. unfold share, stored. split.
  - intros (k & v & w & H1 & H2). exists k. split; [now exists v|]. apply (Permutation_in _ P) in H2. apply in_map_iff in H2. destruct H2 as ([[a b] u] & E & H2). cbn in E. injection E as <- <- <-. now exists u.
  - intros (k & (v & H1) & (w & H2)). exists k, v, w. split; [exact H1|]. apply (Permutation_in _ (Permutation_sym P)). apply in_map_iff. exists (j, k, w). split; [reflexivity|exact H2].
Qed.

Lemma no_dup_edges A i j : no_dup_coords (entries A) -> stored A i j -> edges A i j = 1.
Proof. intros N St. apply stored_edges in St. pose proof (no_dup_count (entries A) i j N). unfold edges in *. lia. Qed.
Lemma not_stored_edges A i j : ~ stored A i j -> edges A i j = 0.
Proof. intros N. rewrite stored_edges in N. assert (0 <= edges A i j) by (unfold edges; apply zlen_nonneg). lia. Qed.

Lemma incidence_refuses VE : csr_valid VE -> (incidence_laplacian VE = Fail FAssert <-> exists i, 0 <= i < c_rows VE /\ forall e, ~ stored VE i e).
Proof.
  intros V. destruct (product_pattern VE V) as (EV & VV & E1 & E2 & VVV & C1 & C2 & N & St). unfold incidence_laplacian. rewrite E1. cbn [bind]. rewrite E2. cbn [bind].
  rewrite (lap_refuses VV VVV), C1. split; intros (i & Hi & H); exists i; (split; [exact Hi|]).
  - intros e He. apply H, St. exists e. auto.
  - rewrite St. intros (e & He & _). now apply (H e).
Qed.

Context (R : ring_laws S).
Let Rth : ring_theory (@s0 S) s1 sadd smul ssub sopp (@eq (car S)) := R.
Add Ring LapIncRing : Rth.

Lemma incidence_ok VE : csr_valid VE -> (forall i, 0 <= i < c_rows VE -> exists e, stored VE i e) ->
  exists L, incidence_laplacian VE = Ok L /\ csr_valid L /\ c_rows L = c_rows VE /\ c_cols L = c_rows VE /\
  (forall i j, 0 <= i < c_rows VE -> i <> j -> (share VE i j -> csr_mat L i j = sopp s1) /\ (~ share VE i j -> csr_mat L i j = s0)) /\
  (forall i, 0 <= i < c_rows VE -> sum_range 0 (c_rows VE) (csr_mat L i) = s0).
Proof.
  intros V H. destruct (product_pattern VE V) as (EV & VV & E1 & E2 & VVV & C1 & C2 & N & St). unfold incidence_laplacian. rewrite E1. cbn [bind]. rewrite E2. cbn [bind].
  assert (D : one_diagonal VV).
  { intros i Hi. apply no_dup_edges; [exact N|]. apply St. destruct (H i ltac:(lia)) as (e & He). exists e. auto. }
  destruct (lap_matrix R VV VVV D) as (L & EL & VL & (P1 & P2 & _) & HL). exists L. split; [exact EL|]. split; [exact VL|]. split; [lia|]. split; [lia|]. split.
  - intros i j Hi Hne. rewrite HL by lia. unfold laplacian. apply Z.eqb_neq in Hne. rewrite Hne. split; intros Hs; rewrite <- St in Hs.
    + rewrite (no_dup_edges VV i j N Hs). cbn. ring.
    + rewrite (not_stored_edges VV i j Hs). cbn. ring.
  - intros i Hi. transitivity (mat_vec (laplacian VV) (c_cols VV) (fun _ => s1) i).
    + unfold mat_vec. rewrite C2. apply sum_range_ext. intros j Hj. rewrite HL by lia. ring.
    + rewrite (lap_mat_vec R) by (auto; lia). apply (sum_range_0 R). intros j Hj. ring.
Qed.

(** The matrix to which main() applies AdjToLaplacian has the properties used above. *)
Lemma incidence_mutual VE : csr_valid VE -> (forall i, 0 <= i < c_rows VE -> exists e, stored VE i e) ->
  exists VV L, incidence_laplacian VE = Ok L /\ adj_to_laplacian VV = Ok L /\ csr_valid VV /\ c_rows VV = c_rows VE /\ c_rows VV = c_cols VV /\ one_diagonal VV /\ mutual VV /\
  forall i j, stored VV i j <-> share VE i j.
Proof.
  intros V H. destruct (product_pattern VE V) as (EV & VV & E1 & E2 & VVV & C1 & C2 & N & St). unfold incidence_laplacian. rewrite E1. cbn [bind]. rewrite E2. cbn [bind].
  assert (D : one_diagonal VV).
  { intros i Hi. apply no_dup_edges; [exact N|]. apply St. destruct (H i ltac:(lia)) as (e & He). exists e. auto. }
  destruct (lap_matrix R VV VVV D) as (L & EL & _). exists VV, L. do 3 (split; [assumption|]). split; [exact C1|]. split; [lia|]. split; [exact D|]. split; [|exact St].
  intros i j Hi Hj. assert (Dec : 0 < edges VV i j \/ edges VV i j = 0) by (assert (0 <= edges VV i j) by (unfold edges; apply zlen_nonneg); lia).
  assert (Sw : share VE i j <-> share VE j i) by (unfold share; split; intros (e & H1 & H2); exists e; auto).
  destruct Dec as [Hp|Hz].
  - apply stored_edges in Hp. rewrite (no_dup_edges VV i j N Hp). symmetry. apply no_dup_edges; [exact N|]. now rewrite St, <- Sw, <- St.
  - rewrite Hz. symmetry. apply not_stored_edges. intros Hs. rewrite St, <- Sw, <- St in Hs. apply stored_edges in Hs. lia.
Qed.

End LapIncidence.
