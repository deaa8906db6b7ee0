(** From the calls of Add of a CooMatrix to the solution on all ranks. *)

From Coq Require Import ZArith List Bool Lia.
From Verif Require Import Base Scalar Spec SumFacts Dense Sparse SparseMore CsrFacts SortProofs Coo CooSpec CooProofs CooMore Block BlockSpec Solver SolverSpec KrylovFacts SolverLinks Par ParSpec ParSplitProofs
  HypreTransposeSpec ParMatvec ParMatvecSpec Spmd SpmdSpec SpmdSolvers SplitSpec SplitSolve.
Import ListNotations.
Open Scope Z_scope.

Section SplitAssembled.
Context {S : scalar}.
Notation T := (car S).

Lemma residual_ext (A B : mat S) n b x : (forall i j, A i j = B i j) -> residual A n b x = residual B n b x.
Proof. intros H. unfold residual. apply map_ext. intros i. f_equal. unfold mat_vec. apply sum_range_ext. intros j _. now rewrite H. Qed.

Theorem split_assembled (F : field_laws S) (E : eqb_laws S) (O : order_laws S) srt reorder : sorts srt -> reorders reorder ->
  forall (d : option (Z * Z)) (M0 : coo S) (ops : list (coo_op S)) (M : coo S) (n : Z),
  coo_start d = Ok M0 -> Forall added_ok ops -> coo_run M0 ops = Ok M ->
  assembled_size (declared d ops) (flat_map added ops) = (n, n) -> in_shape n n (flat_map added ops) ->
  let A := mat_of (flat_map added ops) in
  mat_sym n A -> mat_pos_def n A ->
  forall (part : list Z) (p : Z), 0 < p -> zlen part = n -> (forall i, 0 <= i < n -> 0 <= zn 0 part i < p) ->
  exists C Cs, coo_to_sparse M = Ok C /\ par_split srt reorder p C part = Ok Cs /\
  forall (H : hypre S) (red : allreduce (S := S)), multiplies H -> sums red ->
  forall sts st, dealt part p sts st ->
  let res x := residual A n (st vB) x in let sq r := inner n (vec_of r) (vec_of r) in
  forall par : sparams S, slt s0 (tolerance par (sq (res (st vX)))) = true -> slt (sp_floor par) s0 = true -> n < sp_max par ->
  exists sts' x k, spmd true red (par_ops H Cs None) (s_pcg false par) sts = Done (map (fun s => (k, s)) sts') /\ 1 <= k <= Z.max 1 n /\
    map (fun s : store S => s vX) sts' = deal part p x /\ slt (sq (res x)) (tolerance par (sq (res (st vX)))) = true.
Proof.
  intros Hs Hr d M0 ops M n E0 Fo ER ES IS A Sy Po part p Hp0 Hn Hp. pose proof (field_ring S F) as R.
  destruct (coo_to_sparse_assembled R d M0 ops M n n E0 Fo ER ES IS) as (C & EC & VC & RC & CC & _ & MC).
  assert (Sy' : forall i j, csr_mat C i j = csr_mat C j i).
  { intros i j. rewrite !MC. destruct (Z.le_gt_cases 0 i), (Z.lt_ge_cases i n), (Z.le_gt_cases 0 j), (Z.lt_ge_cases j n); try (apply Sy; lia);
      rewrite !(mat_of_out R n n) by (auto; lia); reflexivity. }
  destruct (split_converges F E O srt reorder C part p Hs Hr) as (Cs & E1 & K).
  - split; [exact VC|congruence|exact Hp0|congruence|intros i Hi; apply Hp; lia|intros i j _; apply Sy'].
  - intros i j _ _. apply Sy'.
  - rewrite RC. intros x Hx. specialize (Po x Hx). erewrite <- Po. f_equal. unfold inner. apply sum_range_ext. intros i _. f_equal. unfold mat_vec. apply sum_range_ext. intros j _. now rewrite MC.
  - exists C, Cs. split; [exact EC|]. split; [exact E1|]. intros H red MU SR sts st DE res sq par Ht Hf Hm.
    specialize (K H red MU SR sts st DE). cbv zeta in K. rewrite RC in K.
    assert (RE : forall x, residual (csr_mat C) n (st vB) x = res x) by (intros x; apply residual_ext; exact MC).
    destruct (K par) as (sts' & x & k & K1 & K2 & K3 & K4); [rewrite RE; exact Ht|exact Hf|exact Hm|]. exists sts', x, k. rewrite !RE in K4. auto.
Qed.

End SplitAssembled.
