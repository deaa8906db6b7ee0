(** Proofs about the SparseMatrix model: products with vectors, entrywise changes. *)

From Coq Require Import ZArith List Lia Bool Permutation.
From Verif Require Import Base Scalar Spec Dense Sparse LoopFacts CsrFacts SumFacts.
Import ListNotations.
Open Scope Z_scope.

Section Exact.
Context {S : scalar}.
Notation T := (car S).
Implicit Types (A B : csr S) (x y : list T).

(** v += a * x[col], the order of the code *)
Definition dot_step (x : list T) (v : T) (e : entry S) : T := sadd v (smul (evalue e) (vec_of x (ecol e))).
Definition dot_step_row (x : list T) (v : T) (e : entry S) : T := sadd v (smul (evalue e) (vec_of x (erow e))).

Lemma sp_mult_exact A x out :
  csr_valid A -> zlen x = c_cols A -> zlen out = c_rows A ->
  sp_mult A x out = Ok (map (fun i => fold_left (dot_step x) (row_entries A i) s0) (zrange 0 (c_rows A))).
Proof.
  intros V Hx Ho. unfold sp_mult. rewrite Hx, Ho, !Z.eqb_refl. cbn [assert_ bind].
  rewrite <- (for_fill s0 (fun i => fold_left (dot_step x) (row_entries A i) s0)
    (fun i out => foldM (fun v e => Ok (dot_step x v e)) (row_entries A i) s0) (c_rows A) out Ho).
  - apply for_ext. intros i o Hi. rewrite !get_ptr by (auto; lia). cbn [bind].
    rewrite (row_loop A i s0 _ (fun v e => Ok (dot_step x v e))); auto.
    intros k v Hk. apply position_bounds in Hk; auto.
    rewrite get_val, get_idx by (auto; tauto). cbn [bind].
    pose proof (idx_bounds A k V ltac:(tauto)).
    rewrite (get_ok s0) by lia. reflexivity.
  - intros i o Hi. now rewrite foldM_pure.
Qed.

Lemma sp_multAT_exact A x out :
  csr_valid A -> zlen x = c_rows A -> zlen out = c_cols A ->
  exists y, sp_multAT A x out = Ok y /\ zlen y = c_cols A /\
    forall j, 0 <= j < c_cols A ->
      zn s0 y j = fold_left (dot_step_row x) (filter (fun e => ecol e =? j) (entries A)) s0.
Proof.
  intros V Hx Ho. unfold sp_multAT. rewrite Hx, Ho, !Z.eqb_refl. cbn [assert_ bind].
  rewrite (for_entries_entries A _ _ (fun out e =>
     xi <- get x (erow e) ;; o <- get out (ecol e) ;; set out (ecol e) (sadd o (smul (evalue e) xi)))) by
    (auto; intros i k s Hk; apply position_bounds in Hk; auto;
     rewrite get_val, get_idx by (auto; tauto); reflexivity).
  pose proof (entries_in_shape A V) as Sh. unfold in_shape in Sh. rewrite Forall_forall in Sh.
  destruct (scatter s0 ecol (dot_step_row x) (fun out e =>
     xi <- get x (erow e) ;; o <- get out (ecol e) ;; set out (ecol e) (sadd o (smul (evalue e) xi)))
     (entries A) (map (fun _ => s0) out)) as (y & E & Hl & Hv).
  - intros e He. rewrite zlen_map, Ho. apply Sh in He. tauto.
  - intros e o He Hl. rewrite zlen_map, Ho in Hl. apply Sh in He.
    rewrite (get_ok s0) by lia. cbn [bind]. rewrite (get_ok s0) by lia. cbn [bind].
    rewrite set_ok by lia. reflexivity.
  - exists y. split; [exact E|]. rewrite zlen_map, Ho in *. split; [exact Hl|].
    intros j Hj. rewrite Hv by exact Hj. rewrite zn_map_const by lia. reflexivity.
Qed.

End Exact.

Section Ring.
Context {S : scalar}.
Hypothesis R : ring_laws S.
Notation T := (car S).
Implicit Types (A B : csr S) (x y : list T).

Lemma dot_row A x i :
  csr_valid A -> 0 <= i < c_rows A ->
  fold_left (dot_step x) (row_entries A i) s0 = mat_vec (csr_mat A) (c_cols A) (vec_of x) i.
Proof.
  intros V Hi. unfold dot_step. rewrite fold_left_sum_map by exact R. rewrite sadd_0_l by exact R.
  rewrite <- filter_row_entries by auto. apply sum_entries_row_filter; [exact R|].
  intros e He _. pose proof (entries_in_shape A V) as Sh. unfold in_shape in Sh.
  rewrite Forall_forall in Sh. apply Sh in He. tauto.
Qed.

Lemma dot_col A x j :
  csr_valid A -> 0 <= j < c_cols A ->
  fold_left (dot_step_row x) (filter (fun e => ecol e =? j) (entries A)) s0
  = mat_vec (mat_T (csr_mat A)) (c_rows A) (vec_of x) j.
Proof.
  intros V Hj. unfold dot_step_row. rewrite fold_left_sum_map by exact R. rewrite sadd_0_l by exact R.
  rewrite sum_filter by exact R.
  pose proof (entries_in_shape A V) as Sh. unfold in_shape in Sh. rewrite Forall_forall in Sh.
  rewrite (mat_vec_ext (mat_T (csr_mat A)) (mat_of (map swap_entry (entries A))) (c_rows A) (vec_of x) (vec_of x) j).
  2:{ intros i _. unfold mat_T, csr_mat. now rewrite mat_of_swap. }
  2: reflexivity.
  unfold mat_vec. rewrite <- sum_entries_row; [|exact R|].
  - rewrite map_map. reflexivity.
  - intros e He _. apply in_map_iff in He. destruct He as (e' & <- & He). apply Sh in He. cbn. tauto.
Qed.

Lemma sp_mult_spec A x out :
  csr_valid A -> zlen x = c_cols A -> zlen out = c_rows A ->
  exists y, sp_mult A x out = Ok y /\ zlen y = c_rows A /\
    forall i, 0 <= i < c_rows A -> vec_of y i = mat_vec (csr_mat A) (c_cols A) (vec_of x) i.
Proof.
  intros V Hx Ho. eexists. split; [apply sp_mult_exact; auto|].
  pose proof (cv_rows V). split; [apply zlen_map_zrange; lia|].
  intros i Hi. unfold vec_of at 1. rewrite zn_map_zrange by exact Hi. now apply dot_row.
Qed.

Lemma sp_multAT_spec A x out :
  csr_valid A -> zlen x = c_rows A -> zlen out = c_cols A ->
  exists y, sp_multAT A x out = Ok y /\ zlen y = c_cols A /\
    forall j, 0 <= j < c_cols A -> vec_of y j = mat_vec (mat_T (csr_mat A)) (c_rows A) (vec_of x) j.
Proof.
  intros V Hx Ho. destruct (sp_multAT_exact A x out V Hx Ho) as (y & E & Hl & Hv).
  exists y. split; [exact E|]. split; [exact Hl|].
  intros j Hj. unfold vec_of at 1. rewrite Hv by exact Hj. now apply dot_col.
Qed.

End Ring.

(** Wrong sizes stop the program at an assertion; arrays are never overrun. *)
Section Sizes.
Context {S : scalar}.
Notation T := (car S).

Lemma sp_mult_size (A : csr S) (x out : list T) :
  zlen x <> c_cols A \/ zlen out <> c_rows A -> sp_mult A x out = Fail FAssert.
Proof.
  intros H. unfold sp_mult. destruct (Z.eqb_spec (zlen x) (c_cols A)), (Z.eqb_spec (zlen out) (c_rows A)); cbn; auto; lia.
Qed.

Lemma sp_multAT_size (A : csr S) (x out : list T) :
  zlen x <> c_rows A \/ zlen out <> c_cols A -> sp_multAT A x out = Fail FAssert.
Proof.
  intros H. unfold sp_multAT. destruct (Z.eqb_spec (zlen x) (c_rows A)), (Z.eqb_spec (zlen out) (c_cols A)); cbn; auto; lia.
Qed.

Hypothesis R : ring_laws S.

Lemma sp_adjoint (A : csr S) (x y out1 out2 u v : list T) :
  csr_valid A -> sp_mult A x out1 = Ok u -> sp_multAT A y out2 = Ok v ->
  inner (c_rows A) (vec_of u) (vec_of y) = inner (c_cols A) (vec_of x) (vec_of v).
Proof.
  intros V E1 E2.
  assert (H1 : zlen x = c_cols A /\ zlen out1 = c_rows A).
  { unfold sp_mult in E1. destruct (Z.eqb_spec (zlen x) (c_cols A)), (Z.eqb_spec (zlen out1) (c_rows A)); cbn in E1; try discriminate; auto. }
  assert (H2 : zlen y = c_rows A /\ zlen out2 = c_cols A).
  { unfold sp_multAT in E2. destruct (Z.eqb_spec (zlen y) (c_rows A)), (Z.eqb_spec (zlen out2) (c_cols A)); cbn in E2; try discriminate; auto. }
  destruct (sp_mult_spec R A x out1) as (u' & F1 & _ & Hu); try tauto.
  destruct (sp_multAT_spec R A y out2) as (v' & F2 & _ & Hv); try tauto.
  rewrite E1 in F1. injection F1 as <-. rewrite E2 in F2. injection F2 as <-.
  transitivity (inner (c_rows A) (mat_vec (csr_mat A) (c_cols A) (vec_of x)) (vec_of y)).
  { unfold inner. apply sum_range_ext. intros i Hi. now rewrite Hu. }
  rewrite inner_mat_vec_T by exact R. unfold inner. apply sum_range_ext. intros j Hj. now rewrite Hv.
Qed.

End Sizes.
