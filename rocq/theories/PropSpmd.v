(** C104: the solvers for one process, called on all ranks of an MPI job. *)

From Coq Require Import ZArith List Bool Lia QArith.Qcanon.
From Verif Require Import Base Scalar Spec Dense Sparse Examples ScalarQ KrylovFacts SolverEnergy SolverLinks Block BlockSpec Solver SolverSpec SolverProofs SolverExamples Par ParSpec ParProofs ParExamples
  HypreTransposeSpec PropHypre2 ParMatvec ParMatvecSpec ParMatvecProofs PropSolver Spmd SpmdSpec SpmdProofs SpmdSolvers SpmdMatrix.
Import ListNotations.
Open Scope Z_scope.

(** With Dot_ = ParMult no rank waits for another one forever, and all that return have the same number of
    passes: for the three solvers, in any arithmetic, with any distributed operators, and also with vectors that
    do not fit.  It is enough that MPI_Allreduce gives all ranks the same number. *)
Theorem C104_no_deadlock :
  forall (S : scalar) (red : allreduce (S := S)) (ops : Z -> list (list (car S)) -> list (list (car S)) -> res (list (list (car S)))),
  agrees red ->
  forall (M : bool) (root : car S -> car S) (par : sparams S) (sts : list (store S)) (s : script S Z),
  In s [s_pcg M par; s_minres root par; s_pminres root par] ->
  spmd true red ops s sts <> Deadlock /\
  forall l, spmd true red ops s sts = Done l -> forall p q, In p l -> In q l -> fst p = fst q.
Proof. intros S red ops AG M root par sts s _. exact (spmd_lockstep red ops AG s sts). Qed.
Print Assumptions C104_no_deadlock.

(** PCGSolver on a ParMatrix: every rank ends with its piece of what PCGSolver computes in one process with the
    whole matrix, in the same number of passes; and the job fails as that run fails. *)
Theorem C104_pcg :
  forall (S : scalar), ring_laws S ->
  forall (H : hypre S), multiplies H -> forall (red : allreduce (S := S)), sums red ->
  forall (sizes : list Z) (As : list (parmat S)) (G : csr S), spread sizes As G ->
  forall (M : option (op S unit)) (P : option (list (list (car S)) -> list (list (car S)) -> res (list (list (car S))))), precond sizes M P ->
  forall (sts : list (store S)) (st : store S), sts <> [] -> cut sizes sts st ->
  forall (par : sparams S) (u : pbuf S), pb_Ap u = st vAp -> pb_z u = st vZ ->
  match pcg_mult (sp_op G) M l_inner par tt u (st vB) (st vX) with
  | Ok (_, _, x, k) => exists sts', spmd true red (par_ops H As P) (s_pcg (isM M) par) sts = Done (map (fun s => (k, s)) sts') /\
      pieces sizes (map (fun s : store S => s vX) sts') x
  | Fail f => spmd true red (par_ops H As P) (s_pcg (isM M) par) sts = Crash f
  end.
Proof. exact @pcg_par. Qed.
Print Assumptions C104_pcg.

(** MINRESSolver *)
Theorem C104_minres :
  forall (S : scalar), ring_laws S ->
  forall (H : hypre S), multiplies H -> forall (red : allreduce (S := S)), sums red ->
  forall (sizes : list Z) (As : list (parmat S)) (G : csr S), spread sizes As G ->
  forall (sts : list (store S)) (st : store S), sts <> [] -> cut sizes sts st ->
  forall (root : car S -> car S) (par : sparams S),
  match minres_mult root (sp_op G) l_inner par tt (mb st) (st vB) (st vX) with
  | Ok (_, _, _, x, k) => exists sts', spmd true red (par_ops H As None) (s_minres root par) sts = Done (map (fun s => (k, s)) sts') /\
      pieces sizes (map (fun s : store S => s vX) sts') x
  | Fail f => spmd true red (par_ops H As None) (s_minres root par) sts = Crash f
  end.
Proof. intros S R H MU red SR sizes As G SD. exact (minres_par R H MU red SR sizes As G SD None None I). Qed.
Print Assumptions C104_minres.

(** PMINRESSolver *)
Theorem C104_pminres :
  forall (S : scalar), ring_laws S ->
  forall (H : hypre S), multiplies H -> forall (red : allreduce (S := S)), sums red ->
  forall (sizes : list Z) (As : list (parmat S)) (G : csr S), spread sizes As G ->
  forall (m : op S unit) (p : list (list (car S)) -> list (list (car S)) -> res (list (list (car S)))), precond sizes (Some m) (Some p) ->
  forall (sts : list (store S)) (st : store S), sts <> [] -> cut sizes sts st ->
  forall (root : car S -> car S) (par : sparams S),
  match pminres_mult root (sp_op G) m l_inner par tt (mb st) (st vB) (st vX) with
  | Ok (_, _, _, x, k) => exists sts', spmd true red (par_ops H As (Some p)) (s_pminres root par) sts = Done (map (fun s => (k, s)) sts') /\
      pieces sizes (map (fun s : store S => s vX) sts') x
  | Fail f => spmd true red (par_ops H As (Some p)) (s_pminres root par) sts = Crash f
  end.
Proof.
  intros S R H MU red SR sizes As G SD m p PC sts st NE C root par.
  exact (pminres_par R H MU red SR sizes As G SD (Some m) (Some p) PC sts st NE C root par m eq_refl).
Qed.
Print Assumptions C104_pminres.

(** So PCGSolver solves a distributed symmetric positive definite system: on all ranks together, in exact
    arithmetic, at most as many passes as the whole matrix has rows reach the tolerance. *)
Theorem C104_pcg_converges :
  forall (S : scalar), field_laws S -> eqb_laws S -> order_laws S ->
  forall (H : hypre S), multiplies H -> forall (red : allreduce (S := S)), sums red ->
  forall (sizes : list Z) (As : list (parmat S)) (G : csr S), spread sizes As G ->
  forall (sts : list (store S)) (st : store S), sts <> [] -> cut sizes sts st ->
  let n := c_rows G in let A := csr_mat G in
  mat_sym n A -> mat_pos_def n A ->
  forall (par : sparams S),
  slt s0 (tolerance par (inner n (vec_of (residual A n (st vB) (st vX))) (vec_of (residual A n (st vB) (st vX))))) = true ->
  slt (sp_floor par) s0 = true -> n < sp_max par ->
  exists sts' x k, spmd true red (par_ops H As None) (s_pcg false par) sts = Done (map (fun s => (k, s)) sts') /\ 1 <= k <= Z.max 1 n /\
    pieces sizes (map (fun s : store S => s vX) sts') x /\
    slt (inner n (vec_of (residual A n (st vB) x)) (vec_of (residual A n (st vB) x)))
        (tolerance par (inner n (vec_of (residual A n (st vB) (st vX))) (vec_of (residual A n (st vB) (st vX))))) = true.
Proof. exact @pcg_par_converges. Qed.
Print Assumptions C104_pcg_converges.

(* ---------------------------------------------------------------- an example *)

(** exSPD, its first row on rank 0, its second row on rank 1 *)
Definition exR0 : parmat Qcs := ParMat [0; 1; 2] [0; 1; 2] (@CSR Qcs 1 1 [0; 1] [0] [sadd s1 s1]) (@CSR Qcs 1 1 [0; 1] [0] [s1]) [1].
Definition exR1 : parmat Qcs := ParMat [1; 2; 2] [1; 2; 2] (@CSR Qcs 1 1 [0; 1] [0] [sadd s1 (sadd s1 s1)]) (@CSR Qcs 1 1 [0; 1] [0] [s1]) [0].

Lemma exR_spread : spread [1; 1] [exR0; exR1] (exSPD Qcs).
Proof.
  split.
  - split; [reflexivity|]. intros r A E. two E; injection E as <-; split; reflexivity.
  - split.
    + intros r A E. two E; injection E as <-; (split; [apply pm_validb_ok; vm_compute; reflexivity|split; reflexivity]).
    + intros r q A B N E1 E2. two E1; two E2; try congruence; injection E1 as <-; injection E2 as <-; first [left; vm_compute; discriminate|right; vm_compute; discriminate].
    + intros r q A B N E1 E2. two E1; two E2; try congruence; injection E1 as <-; injection E2 as <-; first [left; vm_compute; discriminate|right; vm_compute; discriminate].
  - apply exSPD_valid.
  - reflexivity.
  - reflexivity.
  - intros i j Hi Hj. change (0 <= i < 2) in Hi. change (0 <= j < 2) in Hj.
    assert (i = 0 \/ i = 1) as [-> | ->] by lia; assert (j = 0 \/ j = 1) as [-> | ->] by lia; apply Qc_is_canon; vm_compute; reflexivity.
Qed.

(** b and x on the ranks; the members of the solver hold anything *)
Definition on_rank (b x : Z) : store Qcs := fun v => if v =? vB then [q b] else if v =? vX then [q x] else [q 7].
Definition on_both (b0 b1 x0 x1 : Z) : store Qcs := fun v => if v =? vB then [q b0; q b1] else if v =? vX then [q x0; q x1] else [q 7; q 7].

Lemma on_both_cut b0 b1 x0 x1 : cut [1; 1] [on_rank b0 x0; on_rank b1 x1] (on_both b0 b1 x0 x1).
Proof. intros v. unfold pieces, on_rank, on_both. cbn [map]. destruct (v =? vB); [|destruct (v =? vX)]; split; reflexivity. Qed.

(** With the default Dot_ (InnerProduct) every rank decides from its own rows when to stop.  Then a rank with a
    small local residual leaves Mult, and the others wait for it in the next product. *)
Theorem C104_default_dot_deadlocks :
  exists (sizes : list Z) (As : list (parmat Qcs)) (G : csr Qcs) (sts : list (store Qcs)) (st : store Qcs) (par : sparams Qcs),
  spread sizes As G /\ cut sizes sts st /\
  (exists w u x k, pcg_mult (sp_op G) None l_inner par tt (PBuf (st vAp) (st vR) (st vP) (st vZ)) (st vB) (st vX) = Ok (w, u, x, k)) /\
  forall red : allreduce (S := Qcs), spmd false red (par_ops reference As None) (s_pcg false par) sts = Deadlock.
Proof.
  exists [1; 1], [exR0; exR1], (exSPD Qcs), [on_rank 0 0; on_rank 1 0], (on_both 0 1 0 0), (parQ 10).
  split; [exact exR_spread|]. split; [apply on_both_cut|]. split.
  - destruct (run_check (pcg_mult (sp_op (exSPD Qcs)) None l_inner (parQ 10) tt (@PBuf Qcs [q 7; q 7] [q 7; q 7] [q 7; q 7] [q 7; q 7]) [q 0; q 1] [q 0; q 0]) (fun _ => true))
      as ([[[w' u'] x'] k] & E & _); [vm_compute; reflexivity|]. exists w', u', x', k. exact E.
  - intros red. vm_compute. reflexivity.
Qed.
Print Assumptions C104_default_dot_deadlocks.

Example C104_instance :
  multiplies (@reference Qcs) /\ sums (@left_sum Qcs) /\ agrees (@left_sum Qcs) /\ spread [1; 1] [exR0; exR1] (exSPD Qcs) /\
  cut [1; 1] [on_rank 3 0; on_rank 4 0] (on_both 3 4 0 0) /\
  precond [1; 1] (Some (sp_op (exSPD Qcs))) (Some (view_mult reference [exR0; exR1])) /\
  mat_sym 2 (csr_mat (exSPD Qcs)) /\ mat_pos_def 2 (csr_mat (exSPD Qcs)) /\
  (exists sts, spmd true left_sum (par_ops reference [exR0; exR1] None) (s_pcg false (parQ 10)) [on_rank 3 0; on_rank 4 0] = Done (map (fun s => (2, s)) sts) /\
     map (fun s : store Qcs => s vX) sts = [[q 1]; [q 1]]).
Proof.
  split; [apply reference_ok|]. split; [exact left_sum_ok|]. split; [intros r p l; reflexivity|]. split; [exact exR_spread|]. split; [apply on_both_cut|].
  split; [|split; [apply exSPD_sym, Qcs_field|split; [apply (exSPD_pos Qcs Qcs_field Qcs_order Qcs_sum_order Qcs_prod_order)|]]].
  - split; [exact (sp_keeps Qcs_ring [1; 1] [exR0; exR1] (exSPD Qcs) exR_spread)|]. intros xs ys X Y Px Py.
    exact (ops_collective Qcs_ring reference reference_ok [1; 1] [exR0; exR1] (exSPD Qcs) exR_spread None None I 0 xs ys X Y Px Py).
  - pose proof (C104_pcg Qcs Qcs_ring reference reference_ok left_sum left_sum_ok [1; 1] [exR0; exR1] (exSPD Qcs) exR_spread None None I
      [on_rank 3 0; on_rank 4 0] (on_both 3 4 0 0) ltac:(discriminate) (on_both_cut 3 4 0 0) (parQ 10) (@PBuf Qcs [q 7; q 7] [q 7; q 7] [q 7; q 7] [q 7; q 7]) eq_refl eq_refl) as P.
    destruct (run_check (pcg_mult (sp_op (exSPD Qcs)) None l_inner (parQ 10) tt (@PBuf Qcs [q 7; q 7] [q 7; q 7] [q 7; q 7] [q 7; q 7]) [q 3; q 4] [q 0; q 0])
      (fun r => let '(_, x', k) := r in qeqs x' [q 1; q 1] && (k =? 2))) as ([[[w' u'] x'] k] & E & H); [vm_compute; reflexivity|].
    apply andb_prop in H. destruct H as [Hx Hk]. apply qeqs_eq in Hx. apply Z.eqb_eq in Hk. subst x' k.
    change (on_both 3 4 0 0 vB) with [q 3; q 4] in P. change (on_both 3 4 0 0 vX) with [q 0; q 0] in P. rewrite E in P.
    destruct P as (sts & P & Px & Ec). exists sts. split; [exact P|].
    destruct (map (fun s : store Qcs => s vX) sts) as [|a [|b [|c l]]]; try discriminate Px.
    injection Px as La Lb. destruct a as [|a0 [|? ?]]; try (unfold zlen in La; cbn in La; lia). destruct b as [|b0 [|? ?]]; try (unfold zlen in Lb; cbn in Lb; lia).
    cbn in Ec. injection Ec as -> ->. reflexivity.
Qed.
