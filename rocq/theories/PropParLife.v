(** C90 - C92: the life of parallel objects, what solver objects ask hypre for, and preconditioners. *)

From Coq Require Import ZArith List Bool Lia Permutation.
From Verif Require Import Base Scalar Spec Dense Sparse Examples Par ParSpec ParExamples HypreNorms ParLife ParLifeSpec ParLifeProofs ParLifeLinks ParLifeExamples.
Import ListNotations.
Open Scope Z_scope.

(* ---------------------------------------------------------------- C90 *)

(** Constructions, copies, moves, assignments, swaps and destructions in any order: in every state
    that such operations reach, the next one succeeds; in particular nothing is released twice and no
    null or released handle is given to hypre. *)
Theorem C90_no_fault_partial :
  forall (S : scalar) (e : env (S := S)) os h op, reach e (os, h) -> allowed e os op -> exists st', lstep e (os, h) op = Ok st' /\ reach e st'.
Proof. exact @reach_step_ok. Qed.
Print Assumptions C90_no_fault_partial.

(** When every object has been destroyed, every hypre object has been released. *)
Theorem C90_all_released :
  forall (S : scalar) (e : env (S := S)) os h, reach e (os, h) -> (forall o, In o os -> o = None) -> forall x, In x (h_objs h) -> x = None.
Proof. exact @reach_released. Qed.
Print Assumptions C90_all_released.

(** hypre sees the matrix that the object holds. *)
Theorem C90_matrix_seen :
  forall (S : scalar) (e : env (S := S)) os h k m, reach e (os, h) -> look os k = Ok (OMat m) -> mo_A m <> Null -> mat_deref h m = Ok (mo_val m).
Proof. exact @reach_mat. Qed.
Print Assumptions C90_matrix_seen.

(** hypre sees the vector that the object holds. *)
Theorem C90_vector_seen :
  forall (S : scalar) (e : env (S := S)) os h k v, reach e (os, h) -> look os k = Ok (OVec v) -> vo_p v <> Null -> vec_deref h v = Ok (b_val (vo_data v)).
Proof. exact @reach_vec. Qed.
Print Assumptions C90_vector_seen.

(** An operation leaves the other objects alone; a moved, move-assigned or swapped object gives what
    it gave in its old place. *)
Theorem C90_kept :
  forall (S : scalar) (e : env (S := S)) os h op os' h' k k0 o, reach e (os, h) -> allowed e os op -> lstep e (os, h) op = Ok (os', h') ->
  from op (zlen os) k = Some k0 -> 0 <= k -> look os k0 = Ok o ->
  look os' k = Ok o /\ forall b x, observe o h' b x = observe o h b x.
Proof. exact @kept. Qed.
Print Assumptions C90_kept.

(** The source of a move is as default constructed. *)
Theorem C90_moved_from :
  forall (S : scalar) (e : env (S := S)) os h i o os' h', look os i = Ok o -> movable o -> lstep e (os, h) (LMove i) = Ok (os', h') ->
  exists o', look os' i = Ok o' /\ empty o' /\ same_class o o'.
Proof. exact @moved_from. Qed.
Print Assumptions C90_moved_from.

(** A copy of a matrix holds the same matrix, with the entries of the rows of the diagonal block
    arranged as HypreCreate does. *)
Theorem C90_copy_matrix :
  forall (S : scalar) (e : env (S := S)) os h i m, reach e (os, h) -> look os i = Ok (OMat m) ->
  exists n h', lstep e (os, h) (LCopy i) = Ok (os ++ [Some (OMat n)], h') /\
    (mo_A m <> Null -> mat_deref h' n = Ok (pm_copy (e_reorder e) (mo_val m))) /\ (mo_A m = Null -> mo_A n = Null /\ mo_val n = mo_val m).
Proof. exact @copy_mat. Qed.
Print Assumptions C90_copy_matrix.

(** A copy of a vector holds the same numbers with the same partition. *)
Theorem C90_copy_vector :
  forall (S : scalar) (e : env (S := S)) os h i v, reach e (os, h) -> look os i = Ok (OVec v) -> vo_p v <> Null ->
  exists n h', lstep e (os, h) (LCopy i) = Ok (os ++ [Some (OVec n)], h') /\ vec_deref h' n = Ok (b_val (vo_data v)) /\
    b_val (vo_part n) = b_val (vo_part v) /\ vo_gsize n = vo_gsize v.
Proof. exact @copy_vec. Qed.
Print Assumptions C90_copy_vector.

(** What [allowed] leaves out fails. Moving any ParSolver (the base class) or any ParSmoother: the
    destruction of the source is undefined. *)
Theorem C90_move_refuted :
  forall (S : scalar) (e : env (S := S)) os h i c s, look os i = Ok (OSol c s) -> c = Base \/ c = Smoother ->
  exists os' h', lstep e (os, h) (LMove i) = Ok (os', h') /\ look os' (zlen os) = Ok (OSol c s) /\ lstep e (os', h') (LDestroy i) = Fail FUB.
Proof. exact @move_base_breaks. Qed.
Print Assumptions C90_move_refuted.

(** Copying any constructed ParaSails: the destruction of the copy is undefined. *)
Theorem C90_copy_sails_refuted :
  forall (S : scalar) (e : env (S := S)) os h i s a, reach e (os, h) -> look os i = Ok (OSol Sails s) -> so_solver s = Live a -> so_destroy s = FnSails ->
  exists n h', lstep e (os, h) (LCopy i) = Ok (os ++ [Some (OSol Sails n)], h') /\ lstep e (os ++ [Some (OSol Sails n)], h') (LDestroy (zlen os)) = Fail FUB.
Proof. exact @copy_sails_breaks. Qed.
Print Assumptions C90_copy_sails_refuted.

(** Copying a default constructed ParVector is undefined. *)
Theorem C90_copy_default_vector_refuted :
  forall (S : scalar) (e : env (S := S)) os h, exists v h', lstep e (os, h) LVec0 = Ok (os ++ [Some (OVec v)], h') /\ lstep e (os ++ [Some (OVec v)], h') (LCopy (zlen os)) = Fail FUB.
Proof. exact @copy_default_vec. Qed.
Print Assumptions C90_copy_default_vector_refuted.

(** Copying a default constructed ParSmoother stops at an assertion. *)
Theorem C90_copy_default_smoother_refuted :
  forall (S : scalar) (e : env (S := S)) os h, exists s h', lstep e (os, h) (LSol0 Smoother) = Ok (os ++ [Some (OSol Smoother s)], h') /\ lstep e (os ++ [Some (OSol Smoother s)], h') (LCopy (zlen os)) = Fail FAssert.
Proof. exact @copy_default_smoother. Qed.
Print Assumptions C90_copy_default_smoother_refuted.

(** Growing a ParVector with the SetSize it inherits leaves hypre with released storage. *)
Theorem C90_set_size_refuted :
  forall (S : scalar) l part (h : heap (S := S)) v h' n, vec_make l part h = Ok (v, h') -> zlen l < n ->
  let '(v2, h2) := vec_set_size v n h' in b_val (vo_data v2) = resize l n s0 /\ vec_deref h2 v2 = Fail FUB.
Proof. exact @grown_vec. Qed.
Print Assumptions C90_set_size_refuted.

(** A history with every kind of operation: 13 objects are made and destroyed. *)
Example C90_instance :
  (exists h, lrun exEnv exHistory = Ok (repeat None 13, h) /\ reach exEnv (repeat None 13, h) /\ 30 < zlen (h_objs h)) /\
  (exists os h m, lrun exEnv (firstn 14 exHistory) = Ok (os, h) /\ reach exEnv (os, h) /\ look os 0 = Ok (OMat m) /\ mo_A m <> Null /\ mo_val m = exL0' /\ movable (OMat m)).
Proof.
  split.
  - result_of (lrun exEnv exHistory) ltac:(fun f => match f with (_, ?h) => exists h end). split; [vm_compute; reflexivity|]. split; [|vm_compute; reflexivity].
    apply (checked exEnv exHistory); vm_compute; reflexivity.
  - result_of (lrun exEnv (firstn 14 exHistory)) ltac:(fun f => match f with (?os, ?h) => exists os, h end). eexists. split; [vm_compute; reflexivity|]. split.
    + apply (checked exEnv (firstn 14 exHistory)); vm_compute; reflexivity.
    + split; [vm_compute; reflexivity|]. split; [discriminate|]. split; [reflexivity|exact I].
Qed.

(* ---------------------------------------------------------------- C91 *)

(** BoomerAMG: Mult asks hypre to solve with the matrix and the parameters of the constructor. *)
Theorem C91_amg :
  forall (S : scalar) (e : env (S := S)) os h i m iter tol verbose, reach e (os, h) -> square os i -> look_mat os i = Ok m ->
  exists s h', lstep e (os, h) (LAMG i iter tol verbose) = Ok (os ++ [Some (OSol AMG s)], h') /\
    forall b x, sol_mult AMG s h' b x = Ok (let A := pm_copy (e_reorder e) (mo_val m) in
      ReqSolve (HSol FnAMG [(CoarsenType, Num 10); (AggNumLevels, Num 1); (RelaxType, Num 8); (NumSweeps, Num 1); (StrongThreshold, Real (e_quarter e));
        (InterpType, Num 6); (PMaxElmts, Num 4); (MaxLevels, Num 25); (PrintLevel, Num (if verbose then 2 else 0)); (MaxIter, Num iter); (Tol, Real tol)] (Some A) None) A b).
Proof. exact @amg_request. Qed.
Print Assumptions C91_amg.

(** ParCG *)
Theorem C91_cg :
  forall (S : scalar) (e : env (S := S)) os h i m iter tol verbose, reach e (os, h) -> square os i -> look_mat os i = Ok m ->
  exists s h', lstep e (os, h) (LCG i iter tol verbose) = Ok (os ++ [Some (OSol CG s)], h') /\
    forall b x, sol_mult CG s h' b x = Ok (let A := pm_copy (e_reorder e) (mo_val m) in
      ReqSolve (HSol FnPCG [(Tol, Real tol); (MaxIter, Num iter); (PrintLevel, Num (if verbose then 1 else 0))] (Some A) None) A b).
Proof. exact @cg_request. Qed.
Print Assumptions C91_cg.

(** ParaSails, whose load balance is converted to an integer *)
Theorem C91_sails_partial :
  forall (S : scalar) (e : env (S := S)) os h i m verbose reuse sym load threshold filter levels, reach e (os, h) -> square os i -> look_mat os i = Ok m ->
  exists s h', lstep e (os, h) (LSails i verbose reuse sym load threshold filter levels) = Ok (os ++ [Some (OSol Sails s)], h') /\
    forall b x, sol_mult Sails s h' b x = Ok (let A := pm_copy (e_reorder e) (mo_val m) in
      ReqSolve (HSol FnSails [(Params, Pair threshold levels); (Filter, Real filter); (Sym, Num sym); (Loadbal, Real (e_trunc e load)); (Reuse, Num reuse);
        (Logging, Num (if verbose then 1 else 0))] (Some A) None) A b).
Proof. exact @sails_request. Qed.
Print Assumptions C91_sails_partial.

(** ParDiagScale *)
Theorem C91_diag :
  forall (S : scalar) (e : env (S := S)) os h i m iter tol verbose, reach e (os, h) -> square os i -> look_mat os i = Ok m ->
  exists s h', lstep e (os, h) (LDiag i iter tol verbose) = Ok (os ++ [Some (OSol Diag s)], h') /\
    forall b x, sol_mult Diag s h' b x = Ok (ReqDiag (pm_copy (e_reorder e) (mo_val m)) b).
Proof. exact @diag_request. Qed.
Print Assumptions C91_diag.

(** ParSmoother: relaxation with the given type, number of sweeps and weights and with the l1 norms of
    the rows of the matrix *)
Theorem C91_smoother :
  forall (S : scalar) (e : env (S := S)) os h i m type times weight omega norms st, reach e (os, h) -> square os i -> look_mat os i = Ok m ->
  l1_norms (e_half e) (e_ratio e) type (pm_copy (e_reorder e) (mo_val m)) [] = Ok (norms, st) -> norms <> [] ->
  exists s h', lstep e (os, h) (LSmooth i type times weight omega) = Ok (os ++ [Some (OSol Smoother s)], h') /\
    forall b x, sol_mult Smoother s h' b x = Ok (ReqRelax type times norms weight omega (pm_copy (e_reorder e) (mo_val m)) b x).
Proof. exact @smoother_request. Qed.
Print Assumptions C91_smoother.

(** Copies of a ParDiagScale ask for what the original asks for. *)
Theorem C91_copy_diag :
  forall (S : scalar) (e : env (S := S)) os h i s A, reach e (os, h) -> look os i = Ok (OSol Diag s) -> (forall b x, sol_mult Diag s h b x = Ok (ReqDiag A b)) ->
  exists n h', lstep e (os, h) (LCopy i) = Ok (os ++ [Some (OSol Diag n)], h') /\ forall b x, sol_mult Diag n h' b x = Ok (ReqDiag (pm_copy (e_reorder e) A) b).
Proof. exact @copy_diag. Qed.
Print Assumptions C91_copy_diag.

(** Copies of a ParSmoother ask for what the original asks for. *)
Theorem C91_copy_smoother :
  forall (S : scalar) (e : env (S := S)) os h i s type times norms weight omega A, reach e (os, h) -> look os i = Ok (OSol Smoother s) ->
  (forall b x, sol_mult Smoother s h b x = Ok (ReqRelax type times norms weight omega A b x)) ->
  exists n h', lstep e (os, h) (LCopy i) = Ok (os ++ [Some (OSol Smoother n)], h') /\
    forall b x, sol_mult Smoother n h' b x = Ok (ReqRelax type times norms weight omega (pm_copy (e_reorder e) A) b x).
Proof. exact @copy_smoother. Qed.
Print Assumptions C91_copy_smoother.

(** A copy of any BoomerAMG that can solve cannot: it has never been set up. *)
Theorem C91_copy_amg_refuted :
  forall (S : scalar) (e : env (S := S)) os h i s b x t A b', reach e (os, h) -> look os i = Ok (OSol AMG s) -> sol_mult AMG s h b x = Ok (ReqSolve t A b') ->
  exists n h', lstep e (os, h) (LCopy i) = Ok (os ++ [Some (OSol AMG n)], h') /\ sol_mult AMG n h' b x = Fail FUB.
Proof. exact @copy_amg_breaks. Qed.
Print Assumptions C91_copy_amg_refuted.

(** A copy of any ParCG that can solve has none of its parameters and no preconditioner. *)
Theorem C91_copy_cg_refuted :
  forall (S : scalar) (e : env (S := S)) os h i s b x t A b', reach e (os, h) -> look os i = Ok (OSol CG s) -> sol_mult CG s h b x = Ok (ReqSolve t A b') ->
  exists n h', lstep e (os, h) (LCopy i) = Ok (os ++ [Some (OSol CG n)], h') /\
    sol_mult CG n h' b x = Ok (let A' := pm_copy (e_reorder e) A in ReqSolve (HSol (hs_kind t) [] (Some A') None) A' b').
Proof. exact @copy_cg_forgets. Qed.
Print Assumptions C91_copy_cg_refuted.

Example C91_instance :
  exists os h, lrun exEnv (firstn 7 exHistory) = Ok (os, h) /\ reach exEnv (os, h) /\ square os 0 /\
  (exists s t b', look os 2 = Ok (OSol CG s) /\ sol_mult CG s h [1; 2] [0; 0] = Ok (ReqSolve t exL0' b') /\ hs_set t = [(Tol, @Real Zs 3); (MaxIter, Num 100); (PrintLevel, Num 0)]) /\
  (exists s t b', look os 3 = Ok (OSol AMG s) /\ sol_mult AMG s h [1; 2] [0; 0] = Ok (ReqSolve t exL0' b')) /\
  (exists s a, look os 6 = Ok (OSol Sails s) /\ so_solver s = Live a /\ so_destroy s = FnSails) /\
  (exists m, look_mat os 0 = Ok m /\ l1_norms (e_half exEnv) (e_ratio exEnv) 1 (pm_copy (e_reorder exEnv) (mo_val m)) [] = Ok ([6; -4], false)).
Proof.
  result_of (lrun exEnv (firstn 7 exHistory)) ltac:(fun f => match f with (?os, ?h) => exists os, h end). split; [vm_compute; reflexivity|]. split; [apply (checked exEnv (firstn 7 exHistory)); vm_compute; reflexivity|].
  split; [eexists; split; [reflexivity|]; split; [discriminate|]; split; reflexivity|].
  split; [eexists _, _, _; split; [reflexivity|]; split; vm_compute; reflexivity|].
  split; [eexists _, _, _; split; [reflexivity|]; vm_compute; reflexivity|].
  split; [eexists _, _; split; [reflexivity|]; split; reflexivity|].
  eexists. split; [reflexivity|]. vm_compute. reflexivity.
Qed.

(* ---------------------------------------------------------------- C92 *)

(** The constructor ParCG(A, M, ...), for any solver M: hypre is told to apply M's setup function as
    the preconditioner and to set it up with M's solve function. *)
Theorem C92_preconditioner_refuted :
  forall (S : scalar) (e : env (S := S)) os h i m M iter tol verbose, reach e (os, h) -> square os i -> look_mat os i = Ok m ->
  exists A h1 s h2, mat_copy (e_reorder e) m h = Ok (A, h1) /\ cg_make_precond A M iter tol verbose h1 = Ok (s, h2) /\
    forall b x, exists t A', sol_mult CG s h2 b x = Ok (ReqSolve t A' b) /\
      hs_pre t = Some (SetupOf (so_setup M), SolveOf (so_solve M), so_solver M) /\ hs_pre t <> Some (SolveOf (so_solve M), SetupOf (so_setup M), so_solver M).
Proof. exact @cg_precond_swapped. Qed.
Print Assumptions C92_preconditioner_refuted.

(** EnableDiagScaling installs the diagonal scaling and keeps matrix and parameters. *)
Theorem C92_diag_scaling :
  forall (S : scalar) (e : env (S := S)) os h k s t A b x, reach e (os, h) -> look os k = Ok (OSol CG s) -> sol_mult CG s h b x = Ok (ReqSolve t A b) -> hs_kind t = FnPCG ->
  exists h', cg_diag_scaling s h = Ok h' /\
    forall b x, sol_mult CG s h' b x = Ok (ReqSolve (HSol FnPCG (hs_set t) (hs_for t) (Some (SolveOf FnDiag, SetupOf FnDiag, Null))) A b).
Proof. exact @cg_diag_ok. Qed.
Print Assumptions C92_diag_scaling.

Example C92_instance :
  exists os h, lrun exEnv (firstn 4 exHistory) = Ok (os, h) /\ reach exEnv (os, h) /\ square os 0 /\
  exists s t, look os 2 = Ok (OSol CG s) /\ sol_mult CG s h [1; 2] [0; 0] = Ok (ReqSolve t exL0' [1; 2]) /\ hs_kind t = FnPCG.
Proof.
  result_of (lrun exEnv (firstn 4 exHistory)) ltac:(fun f => match f with (?os, ?h) => exists os, h end). split; [vm_compute; reflexivity|]. split; [apply (checked exEnv (firstn 4 exHistory)); vm_compute; reflexivity|].
  split; [eexists; split; [reflexivity|]; split; [discriminate|]; split; reflexivity|].
  eexists _, _. split; [reflexivity|]. split; vm_compute; reflexivity.
Qed.
