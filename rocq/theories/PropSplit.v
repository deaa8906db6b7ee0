(** C106: a matrix assembled in one place, split over the ranks of an MPI job and solved there. *)

From Coq Require Import ZArith List Bool Lia QArith.Qcanon.
From Verif Require Import Base Scalar Spec SumFacts Dense Sparse CsrFacts SortProofs Examples ScalarQ KrylovFacts SolverEnergy SolverLinks Coo CooSpec Block BlockSpec Solver SolverSpec SolverProofs SolverExamples Par ParSpec ParProofs ParExamples
  HypreTransposeSpec ParMatvec ParMatvecSpec ParMatvecProofs PropSolver Spmd SpmdSpec SpmdProofs SpmdSolvers SpmdMatrix SplitSpec SplitSolve SplitAssembled.
Import ListNotations.
Open Scope Z_scope.

(** The shares of the ranks hold every element of the vector exactly once: the element of vertex i is on rank
    part[i], after those of the earlier vertices of this rank. *)
Theorem C106_shares :
  forall (S : scalar) (part : list Z) (p : Z) (x : list (car S)),
  (forall i, 0 <= i < zlen part -> 0 <= zn 0 part i < p) -> 0 <= p -> zlen x = zlen part ->
  map zlen (deal part p x) = map (fun r => count (fun i => zn 0 part i =? r) (zlen part)) (zrange 0 p) /\
  forall i, 0 <= i < zlen part -> zn s0 (zn [] (deal part p x) (zn 0 part i)) (count (fun j => zn 0 part j =? zn 0 part i) i) = zn s0 x i.
Proof. exact @deal_share. Qed.
Print Assumptions C106_shares.

(** Mult of the ParMatrix made by ParSplit, on the shares of x, gives the shares of A x. *)
Theorem C106_mult :
  forall (S : scalar), eqb_laws S -> ring_laws S ->
  forall (srt : sorter) (reorder : csr S -> csr S) (A : csr S) (part : list Z) (p : Z), sorts srt -> reorders reorder -> splittable A part p ->
  exists Cs, par_split srt reorder p A part = Ok Cs /\
  forall H : hypre S, multiplies H -> forall x y, zlen x = zlen part -> zlen y = zlen part ->
  exists z, sp_mult A x y = Ok z /\ view_mult H Cs (deal part p x) (deal part p y) = Ok (deal part p z).
Proof. exact @split_product. Qed.
Print Assumptions C106_mult.

(** Every function made of local work, inner products and operators, on all ranks with the ParMatrix made by
    ParSplit, does to the shares what it does to the vectors in one process with A. *)
Theorem C106_program :
  forall (S : scalar), eqb_laws S -> ring_laws S ->
  forall (srt : sorter) (reorder : csr S -> csr S) (A : csr S) (part : list Z) (p : Z), sorts srt -> reorders reorder -> splittable A part p ->
  exists Cs, par_split srt reorder p A part = Ok Cs /\
  forall (H : hypre S) (red : allreduce (S := S)), multiplies H -> sums red ->
  forall M P, split_precond part p M P -> forall sts st, dealt part p sts st ->
  forall (B : Type) (s : script S B),
  match run (solver_ops (sp_op A) M) s st with
  | Ok (a, st') => exists sts', spmd true red (par_ops H Cs P) s sts = Done (map (fun s => (a, s)) sts') /\ dealt part p sts' st'
  | Fail f => spmd true red (par_ops H Cs P) s sts = Crash f
  end.
Proof. exact @split_program. Qed.
Print Assumptions C106_program.

(** PCGSolver *)
Theorem C106_pcg :
  forall (S : scalar), eqb_laws S -> ring_laws S ->
  forall (srt : sorter) (reorder : csr S -> csr S) (A : csr S) (part : list Z) (p : Z), sorts srt -> reorders reorder -> splittable A part p ->
  exists Cs, par_split srt reorder p A part = Ok Cs /\
  forall (H : hypre S) (red : allreduce (S := S)), multiplies H -> sums red ->
  forall M P, split_precond part p M P -> forall sts st, dealt part p sts st ->
  forall (par : sparams S) (u : pbuf S), pb_Ap u = st vAp -> pb_z u = st vZ ->
  match pcg_mult (sp_op A) M l_inner par tt u (st vB) (st vX) with
  | Ok (_, _, x, k) => exists sts', spmd true red (par_ops H Cs P) (s_pcg (isM M) par) sts = Done (map (fun s => (k, s)) sts') /\
      map (fun s : store S => s vX) sts' = deal part p x
  | Fail f => spmd true red (par_ops H Cs P) (s_pcg (isM M) par) sts = Crash f
  end.
Proof. exact @split_pcg. Qed.
Print Assumptions C106_pcg.

(** MINRESSolver *)
Theorem C106_minres :
  forall (S : scalar), eqb_laws S -> ring_laws S ->
  forall (srt : sorter) (reorder : csr S -> csr S) (A : csr S) (part : list Z) (p : Z), sorts srt -> reorders reorder -> splittable A part p ->
  exists Cs, par_split srt reorder p A part = Ok Cs /\
  forall (H : hypre S) (red : allreduce (S := S)), multiplies H -> sums red ->
  forall sts st, dealt part p sts st -> forall (root : car S -> car S) (par : sparams S),
  match minres_mult root (sp_op A) l_inner par tt (mb st) (st vB) (st vX) with
  | Ok (_, _, _, x, k) => exists sts', spmd true red (par_ops H Cs None) (s_minres root par) sts = Done (map (fun s => (k, s)) sts') /\
      map (fun s : store S => s vX) sts' = deal part p x
  | Fail f => spmd true red (par_ops H Cs None) (s_minres root par) sts = Crash f
  end.
Proof. exact @split_minres. Qed.
Print Assumptions C106_minres.

(** PMINRESSolver *)
Theorem C106_pminres :
  forall (S : scalar), eqb_laws S -> ring_laws S ->
  forall (srt : sorter) (reorder : csr S -> csr S) (A : csr S) (part : list Z) (p : Z), sorts srt -> reorders reorder -> splittable A part p ->
  exists Cs, par_split srt reorder p A part = Ok Cs /\
  forall (H : hypre S) (red : allreduce (S := S)), multiplies H -> sums red ->
  forall m q, split_precond part p (Some m) (Some q) -> forall sts st, dealt part p sts st -> forall (root : car S -> car S) (par : sparams S),
  match pminres_mult root (sp_op A) m l_inner par tt (mb st) (st vB) (st vX) with
  | Ok (_, _, _, x, k) => exists sts', spmd true red (par_ops H Cs (Some q)) (s_pminres root par) sts = Done (map (fun s => (k, s)) sts') /\
      map (fun s : store S => s vX) sts' = deal part p x
  | Fail f => spmd true red (par_ops H Cs (Some q)) (s_pminres root par) sts = Crash f
  end.
Proof. exact @split_pminres. Qed.
Print Assumptions C106_pminres.

(** From beginning to end: the entries added to a CooMatrix make a symmetric positive definite matrix A.  ToSparse,
    ParSplit and PCGSolver on all ranks, each with its share of b and of any first guess, end on all ranks after at
    most as many passes as A has rows, with the shares of an x whose residual b - A x meets the tolerance. *)
Theorem C106_assembled_system :
  forall (S : scalar), field_laws S -> eqb_laws S -> order_laws S ->
  forall (srt : sorter) (reorder : csr S -> csr S), sorts srt -> reorders reorder ->
  forall (d : option (Z * Z)) (M0 : coo S) (ops : list (coo_op S)) (M : coo S) (n : Z),
  coo_start d = Ok M0 -> Forall added_ok ops -> coo_run M0 ops = Ok M ->
  assembled_size (declared d ops) (flat_map added ops) = (n, n) -> in_shape n n (flat_map added ops) ->
  let A := mat_of (flat_map added ops) in
  mat_sym n A -> mat_pos_def n A ->
  forall (part : list Z) (p : Z), 0 < p -> zlen part = n -> (forall i, 0 <= i < n -> 0 <= zn 0 part i < p) ->
  exists C Cs, coo_to_sparse M = Ok C /\ par_split srt reorder p C part = Ok Cs /\
  forall (H : hypre S) (red : allreduce (S := S)), multiplies H -> sums red ->
  forall sts st, dealt part p sts st ->
  let res x := residual A n (st vB) x in let sq r := inner n (vec_of r) (vec_of r) in
  forall par : sparams S, slt s0 (tolerance par (sq (res (st vX)))) = true -> slt (sp_floor par) s0 = true -> n < sp_max par ->
  exists sts' x k, spmd true red (par_ops H Cs None) (s_pcg false par) sts = Done (map (fun s => (k, s)) sts') /\ 1 <= k <= Z.max 1 n /\
    map (fun s : store S => s vX) sts' = deal part p x /\ slt (sq (res x)) (tolerance par (sq (res (st vX)))) = true.
Proof. exact @split_assembled. Qed.
Print Assumptions C106_assembled_system.

(** Without symmetry the ranks multiply by another matrix. *)
Theorem C106_needs_symmetry :
  let A : csr Zs := @CSR Zs 2 2 [0; 1; 1] [1] [5] in
  csr_valid A /\ exists Cs, par_split insertion_sort no_reorder 1 A [0; 0] = Ok Cs /\
    sp_mult A [1; 0] [0; 0] = Ok [0; 0] /\ view_mult reference Cs (deal (S := Zs) [0; 0] 1 [1; 0]) (deal (S := Zs) [0; 0] 1 [0; 0]) = Ok (deal (S := Zs) [0; 0] 1 [0; 5]).
Proof.
  split; [apply csr_validb_ok; vm_compute; reflexivity|].
  result_of (par_split (S := Zs) insertion_sort no_reorder 1 (@CSR Zs 2 2 [0; 1; 1] [1] [5]) [0; 0]) ltac:(fun f => exists f).
  split; [vm_compute; reflexivity|]. split; vm_compute; reflexivity.
Qed.
Print Assumptions C106_needs_symmetry.

(* ---------------------------------------------------------------- an example *)

(** The first row of exSPD on rank 1, the second on rank 0 *)
Definition exSwapped : list Z := [1; 0].
Definition swap_both (b0 b1 : Z) : store Qcs := fun v => if v =? vB then [q b0; q b1] else if v =? vX then [q 0; q 0] else [q 7; q 7].
Definition swap_rank (b : Z) : store Qcs := fun v => if v =? vB then [q b] else if v =? vX then [q 0] else [q 7].

Example C106_instance :
  multiplies (@reference Qcs) /\ sums (@left_sum Qcs) /\ splittable (exSPD Qcs) exSwapped 2 /\ dealt exSwapped 2 [swap_rank 4; swap_rank 3] (swap_both 3 4) /\
  split_precond exSwapped 2 (S := Qcs) None None /\
  (let ops := [@OAdd Qcs 0 0 (q 2); @OAddSym Qcs 0 1 (q 1); @OAdd Qcs 1 1 (q 1); @OAdd Qcs 1 1 (q 2)] in
   exists M, coo_run coo_new ops = Ok M /\ coo_start (S := Qcs) None = Ok coo_new /\ Forall added_ok ops /\ assembled_size (declared None ops) (flat_map added ops) = (2, 2) /\ in_shape 2 2 (flat_map added ops) /\
     mat_sym 2 (mat_of (flat_map added ops)) /\ mat_pos_def 2 (mat_of (flat_map added ops))) /\
  exists Cs, par_split insertion_sort no_reorder 2 (exSPD Qcs) exSwapped = Ok Cs /\
  exists sts, spmd true left_sum (par_ops reference Cs None) (s_pcg false (parQ 10)) [swap_rank 4; swap_rank 3] = Done (map (fun s => (2, s)) sts) /\
     map (fun s : store Qcs => s vX) sts = [[q 1]; [q 1]].
Proof.
  assert (SP : splittable (exSPD Qcs) exSwapped 2).
  { split; [apply exSPD_valid|reflexivity|lia|reflexivity| |].
    - intros i Hi. change (zlen exSwapped) with 2 in Hi. assert (i = 0 \/ i = 1) as [-> | ->] by lia; cbv; split; congruence.
    - intros i j Hij. destruct (Z.le_gt_cases 0 i), (Z.lt_ge_cases i 2), (Z.le_gt_cases 0 j), (Z.lt_ge_cases j 2);
        try (apply (exSPD_sym Qcs Qcs_field); lia);
        unfold csr_mat; rewrite !(mat_of_out Qcs_ring 2 2) by (try apply (entries_in_shape (exSPD Qcs) (exSPD_valid Qcs)); lia); reflexivity. }
  assert (DE : dealt exSwapped 2 [swap_rank 4; swap_rank 3] (swap_both 3 4)).
  { intros v. unfold deal, share. cbn [map]. unfold swap_rank, swap_both. destruct (v =? vB); [|destruct (v =? vX)]; split; reflexivity. }
  split; [apply reference_ok|]. split; [exact left_sum_ok|]. split; [exact SP|]. split; [exact DE|]. split; [exact I|]. split.
  - intros ops. eexists. split; [reflexivity|]. split; [reflexivity|]. split; [repeat constructor|]. split; [reflexivity|]. split; [repeat constructor; cbn; lia|].
    assert (ME : forall i j, 0 <= i < 2 -> 0 <= j < 2 -> mat_of (flat_map added ops) i j = csr_mat (exSPD Qcs) i j).
    { intros i j Hi Hj. assert (i = 0 \/ i = 1) as [-> | ->] by lia; assert (j = 0 \/ j = 1) as [-> | ->] by lia; apply Qc_is_canon; vm_compute; reflexivity. }
    clearbody ops. split; [intros i j Hi Hj; rewrite !ME by assumption; now apply (exSPD_sym Qcs Qcs_field)|].
    intros x Hx. pose proof (exSPD_pos Qcs Qcs_field Qcs_order Qcs_sum_order Qcs_prod_order x Hx) as Po. erewrite <- Po. f_equal. unfold inner. apply sum_range_ext. intros i Hi. f_equal.
    unfold mat_vec. apply sum_range_ext. intros j Hj. now rewrite ME.
  - destruct (C106_pcg Qcs Qcs_eqb Qcs_ring insertion_sort no_reorder (exSPD Qcs) exSwapped 2 insertion_sort_sorts no_reorder_ok SP) as (Cs & E1 & K). exists Cs. split; [exact E1|].
    pose proof (K reference left_sum (reference_ok (S := Qcs)) left_sum_ok None None I [swap_rank 4; swap_rank 3] (swap_both 3 4) DE (parQ 10) (@PBuf Qcs [q 7; q 7] [q 7; q 7] [q 7; q 7] [q 7; q 7]) eq_refl eq_refl) as P.
    destruct (run_check (pcg_mult (sp_op (exSPD Qcs)) None l_inner (parQ 10) tt (@PBuf Qcs [q 7; q 7] [q 7; q 7] [q 7; q 7] [q 7; q 7]) [q 3; q 4] [q 0; q 0])
      (fun r => let '(_, x', k) := r in qeqs x' [q 1; q 1] && (k =? 2))) as ([[[w' u'] x'] k] & E & H); [vm_compute; reflexivity|].
    apply andb_prop in H. destruct H as [Hx Hk]. apply qeqs_eq in Hx. apply Z.eqb_eq in Hk. subst x' k.
    change (swap_both 3 4 vB) with [q 3; q 4] in P. change (swap_both 3 4 vX) with [q 0; q 0] in P. rewrite E in P.
    destruct P as (sts & P & Px). exists sts. split; [exact P|]. rewrite Px. reflexivity.
Qed.
