(** The iterative solvers (C40-C43, C74-C77). *)

From Coq Require Import ZArith List Bool Lia Floats QArith Qcanon Reals Lra.
From Verif Require Import Base Scalar Spec Sparse Block BlockSpec Solver SolverSpec SolverProofs SolverMinres SolverMore
  SolverEnergy KrylovFacts SolverConverge SolverLanczos SolverReuse SolverLinks HistoryProofs ScalarQ ScalarR SolverExamples.
Import ListNotations.
Open Scope Z_scope.

(* ---------------------------------------------------------------- C40 *)

(** After every pass through the loop, from any state in which r_ is the residual: r_ is the
    residual b - A x of the new x, z_ is the preconditioned residual, and the test for stopping
    is about them.  The pass may start from any iterate, so from any number of earlier passes. *)
Theorem C40_pcg_pass_keeps_residual :
  forall (S : scalar) (W : Type) (I : W -> Prop) (A : op S W) (M : option (op S W)) (dot : dotp S) (n : Z) (mA : mat S)
         (fM : list (car S) -> list (car S)) (d : list (car S) -> list (car S) -> car S),
  acts_as I A n mA -> prec_applies I M n fM -> dot_gives dot n d -> ring_laws S ->
  forall (par : sparams S) (tol : car S) (w : W) (u : pbuf S) (b x : list (car S)) (stop : bool) (w' : W) (u' : pbuf S) (x' : list (car S)),
  I w -> zlen (pb_p u) = n -> zlen (pb_z u) = n -> zlen b = n -> zlen x = n ->
  pb_r u = residual mA n b x ->
  pcg_step A M dot par tol w u x = Ok (stop, w', u', x') ->
  pb_r u' = residual mA n b x' /\ pb_z u' = fM (residual mA n b x') /\
  stop = slt (d (fM (residual mA n b x')) (residual mA n b x')) tol.
Proof. exact @pcg_step_residual. Qed.
Print Assumptions C40_pcg_pass_keeps_residual.

(** A whole call, whatever the buffers held before. *)
Theorem C40_pcg_ends_with_residual :
  forall (S : scalar) (W : Type) (I : W -> Prop) (A : op S W) (M : option (op S W)) (dot : dotp S) (n : Z) (mA : mat S)
         (fM : list (car S) -> list (car S)) (d : list (car S) -> list (car S) -> car S),
  acts_as I A n mA -> prec_applies I M n fM -> dot_gives dot n d -> ring_laws S ->
  forall (par : sparams S) (w : W) (u : pbuf S) (b x : list (car S)) (w' : W) (u' : pbuf S) (x' : list (car S)) (k : Z),
  I w -> zlen b = n -> zlen x = n ->
  pcg_mult A M dot par w u b x = Ok (w', u', x', k) ->
  zlen x' = n /\ pb_r u' = residual mA n b x' /\ pb_z u' = fM (residual mA n b x').
Proof. exact @pcg_residual_end. Qed.
Print Assumptions C40_pcg_ends_with_residual.

(** The only way not to return is the exception for non-positive curvature. *)
Theorem C40_pcg_returns_or_throws :
  forall (S : scalar) (W : Type) (I : W -> Prop) (A : op S W) (M : option (op S W)) (dot : dotp S) (n : Z) (mA : mat S)
         (fM : list (car S) -> list (car S)) (d : list (car S) -> list (car S) -> car S),
  acts_as I A n mA -> prec_applies I M n fM -> dot_gives dot n d ->
  forall (par : sparams S) (w : W) (u : pbuf S) (b x : list (car S)), I w -> zlen b = n -> zlen x = n ->
  pcg_mult A M dot par w u b x = Fail FThrow \/
  exists w' u' x' k, pcg_mult A M dot par w u b x = Ok (w', u', x', k) /\ I w' /\ zlen x' = n.
Proof. exact @pcg_never_faults. Qed.
Print Assumptions C40_pcg_returns_or_throws.

(** To run the model and check the outcome without writing it out. *)
Lemma run_check {X : Type} (m : res X) (P : X -> bool) :
  match m with Ok r => P r | Fail _ => false end = true -> exists r, m = Ok r /\ P r = true.
Proof. destruct m; intros H; [eauto|discriminate]. Qed.
Definition qeqs (l1 l2 : list Qc) : bool :=
  (zlen l1 =? zlen l2) && forallb (fun p => Qc_eq_bool (fst p) (snd p)) (combine l1 l2).
Lemma qeqs_eq l1 : forall l2, qeqs l1 l2 = true -> l1 = l2.
Proof.
  unfold qeqs. induction l1 as [|a l1 IH]; destruct l2 as [|b l2]; intros H; try reflexivity.
  - apply andb_prop in H. destruct H as [H _]. apply Z.eqb_eq in H. rewrite zlen_cons in H. pose proof (zlen_nonneg l2). change (zlen (@nil Qc)) with 0 in H. lia.
  - apply andb_prop in H. destruct H as [H _]. apply Z.eqb_eq in H. rewrite zlen_cons in H. pose proof (zlen_nonneg l1). change (zlen (@nil Qc)) with 0 in H. lia.
  - apply andb_prop in H. destruct H as [H1 H]. apply Z.eqb_eq in H1. rewrite !zlen_cons in H1. cbn [combine forallb fst snd] in H.
    apply andb_prop in H. destruct H as [H2 H]. apply Qc_eq_bool_correct in H2. f_equal; [exact H2|]. apply IH.
    apply andb_true_intro. split; [apply Z.eqb_eq; lia|exact H].
Qed.

Lemma qeqs_refl l : qeqs l l = true.
Proof.
  unfold qeqs. rewrite Z.eqb_refl. cbn [andb]. induction l as [|a l IH]; [reflexivity|]. cbn [combine forallb fst snd].
  rewrite IH. unfold Qc_eq_bool. destruct (Qc_eq_dec a a); [reflexivity|congruence].
Qed.

Definition q (z : Z) : Qc := Q2Qc (inject_Z z).
Definition parQ (max : Z) : sparams Qcs := @SParams Qcs max (Q2Qc (1 # 1000)) (Q2Qc (1 # 1000000)) (q (-1000000000000)).
Definition bufQ : pbuf Qcs := @PBuf Qcs [q 7] [q 7; q 7] [] [q 1].

(** Two passes on a 2 x 2 system, with and without preconditioner. *)
Example C40_instance :
  acts_as (fun _ => True) (sp_op (exSPD Qcs)) 2 (csr_mat (exSPD Qcs)) /\
  prec_applies (fun _ => True) (Some (sp_op (exSwap Qcs))) 2 (mat_list (csr_mat (exSwap Qcs)) 2) /\
  prec_applies (W := unit) (S := Qcs) (fun _ => True) None 2 (fun x => x) /\
  dot_gives (S := Qcs) l_inner 2 (fun x y => inner 2 (vec_of x) (vec_of y)) /\
  (exists w' u', pcg_mult (sp_op (exSPD Qcs)) None l_inner (parQ 10) tt bufQ [q 3; q 4] [q 0; q 0] = Ok (w', u', [q 1; q 1], 2)).
Proof.
  split; [apply exSPD_acts, Qcs_field|]. split; [exact (exSwap_acts Qcs Qcs_field)|].
  split; [intros x _; reflexivity|]. split; [apply l_inner_gives, Qcs_ring|].
  destruct (run_check (pcg_mult (sp_op (exSPD Qcs)) None l_inner (parQ 10) tt bufQ [q 3; q 4] [q 0; q 0])
    (fun r => let '(_, x', k) := r in qeqs x' [q 1; q 1] && (k =? 2))) as ([[[w' u'] x'] k] & E & H); [vm_compute; reflexivity|].
  apply andb_prop in H. destruct H as [Hx Hk]. apply qeqs_eq in Hx. apply Z.eqb_eq in Hk. subst x' k. exists w', u'. exact E.
Qed.

(* ---------------------------------------------------------------- C41 *)

(** Returned before the limit (or without a pass): the preconditioned residual is below the
    tolerance. *)
Theorem C41_pcg_stopping_contract :
  forall (S : scalar) (W : Type) (I : W -> Prop) (A : op S W) (M : option (op S W)) (dot : dotp S) (n : Z) (mA : mat S)
         (fM : list (car S) -> list (car S)) (d : list (car S) -> list (car S) -> car S),
  acts_as I A n mA -> prec_applies I M n fM -> dot_gives dot n d -> ring_laws S ->
  forall (par : sparams S) (w : W) (u : pbuf S) (b x : list (car S)) (w' : W) (u' : pbuf S) (x' : list (car S)) (k : Z),
  I w -> zlen b = n -> zlen x = n ->
  pcg_mult A M dot par w u b x = Ok (w', u', x', k) -> k < sp_max par \/ k = 1 ->
  slt (d (fM (residual mA n b x')) (residual mA n b x')) (tolerance par (d (fM (residual mA n b x)) (residual mA n b x))) = true.
Proof. exact @pcg_stopping. Qed.
Print Assumptions C41_pcg_stopping_contract.

Example C41_instance :
  acts_as (fun _ => True) (sp_op (exSPD Qcs)) 2 (csr_mat (exSPD Qcs)) /\
  (exists w' u' x', pcg_mult (sp_op (exSPD Qcs)) None l_inner (parQ 10) tt bufQ [q 3; q 4] [q 0; q 0] = Ok (w', u', x', 2)) /\
  2 < sp_max (parQ 10).
Proof.
  split; [apply exSPD_acts, Qcs_field|]. split; [|reflexivity].
  destruct (run_check (pcg_mult (sp_op (exSPD Qcs)) None l_inner (parQ 10) tt bufQ [q 3; q 4] [q 0; q 0])
    (fun r => snd r =? 2)) as ([[[w' u'] x'] k] & E & H); [vm_compute; reflexivity|].
  apply Z.eqb_eq in H. cbn in H. subst k. exists w', u', x'. exact E.
Qed.

(* ---------------------------------------------------------------- C42 *)

(** With max_iter at least 2, PCG applies A at most max_iter times (once before the loop, then
    once per pass) and reports at most max_iter. *)
Theorem C42_pcg_iterations_partial :
  forall (S : scalar) (W : Type) (A : op S W) (M : option (op S W)) (dot : dotp S) (par : sparams S)
         (w : W) (u : pbuf S) (b x : list (car S)) (w' : W * Z) (u' : pbuf S) (x' : list (car S)) (k : Z),
  2 <= sp_max par ->
  pcg_mult (counting A) (option_map beside M) dot par (w, 0) u b x = Ok (w', u', x', k) ->
  snd w' <= sp_max par /\ k <= sp_max par.
Proof. exact @pcg_count_partial. Qed.
Print Assumptions C42_pcg_iterations_partial.

(** MINRES and PMINRES make at most max_iter passes; the number they report may be one more. *)
Theorem C42_minres_iterations_partial :
  forall (S : scalar) (W : Type) (root : car S -> car S) (A : op S W) (dot : dotp S) (par : sparams S)
         (w : W) (u : mbuf S) (b x : list (car S)) (w' : W * Z) (u' : mbuf S) (l' : mloc S) (x' : list (car S)) (k : Z),
  0 <= sp_max par ->
  minres_mult (W := W * Z) root (counting A) dot par (w, 0) u b x = Ok (w', u', l', x', k) ->
  snd w' <= sp_max par + 1 /\ k <= sp_max par + 1.
Proof. exact @minres_count_partial. Qed.
Print Assumptions C42_minres_iterations_partial.

Theorem C42_pminres_iterations_partial :
  forall (S : scalar) (W : Type) (root : car S -> car S) (A M : op S W) (dot : dotp S) (par : sparams S)
         (w : W) (u : mbuf S) (b x : list (car S)) (w' : W * Z) (u' : mbuf S) (l' : mloc S) (x' : list (car S)) (k : Z),
  0 <= sp_max par ->
  pminres_mult (W := W * Z) root (counting A) (beside M) dot par (w, 0) u b x = Ok (w', u', l', x', k) ->
  snd w' <= sp_max par + 1 /\ k <= sp_max par + 1.
Proof. exact @pminres_count_partial. Qed.
Print Assumptions C42_pminres_iterations_partial.

(** With max_iter 0 (or 1) PCG changes x all the same, whenever the start is not good enough. *)
Theorem C42_pcg_ignores_small_limit :
  forall (S : scalar) (W : Type) (A : op S W) (M : option (op S W)) (dot : dotp S) (par : sparams S)
         (w : W) (u : pbuf S) (b x : list (car S)) (w' : W * Z) (u' : pbuf S) (x' : list (car S)) (k : Z),
  sp_max par <= 1 ->
  pcg_mult (counting A) (option_map beside M) dot par (w, 0) u b x = Ok (w', u', x', k) -> x' <> x ->
  snd w' = 2.
Proof. exact @pcg_ignores_limit. Qed.
Print Assumptions C42_pcg_ignores_small_limit.

Theorem C42_pcg_limit_refuted :
  exists (A : csr Qcs) (b x : list Qc) w' u' x' k, csr_valid A /\
    pcg_run (counting (sp_op A)) None l_inner (parQ 0) (tt, 0) b x = Ok (w', u', x', k) /\
    x' <> x /\ snd w' = 2 /\ sp_max (parQ 0) = 0 /\ k = 2.
Proof.
  destruct (run_check (pcg_run (counting (sp_op (exSPD Qcs))) None l_inner (parQ 0) (tt, 0) [q 3; q 4] [q 0; q 0])
    (fun r => let '(w', _, x', k) := r in negb (qeqs x' [q 0; q 0]) && (k =? 2) && (snd w' =? 2))) as ([[[w' u'] x'] k] & E & H); [vm_compute; reflexivity|].
  apply andb_prop in H. destruct H as [H Hw]. apply andb_prop in H. destruct H as [Hx Hk]. apply Z.eqb_eq in Hw. apply Z.eqb_eq in Hk.
  exists (exSPD Qcs), [q 3; q 4], [q 0; q 0], w', u', x', k. split; [apply exSPD_valid|]. split; [exact E|].
  split; [|split; [exact Hw|split; [reflexivity|exact Hk]]]. intros ->. discriminate Hx.
Qed.
Print Assumptions C42_pcg_limit_refuted.

Definition parF (max : Z) (rel ab : float) : sparams Fs := @SParams Fs max rel ab (-1000000000000)%float.

(** MINRES stopped by the limit reports one pass too many. *)
Theorem C42_minres_count_refuted :
  exists (A : csr Fs) (b x : list float) w' u' l' x', csr_valid A /\
    minres_run (S := Fs) PrimFloat.sqrt (sp_op A) l_inner (parF 1 0x1p-30 0x1p-50) tt b x = Ok (w', u', l', x', 2).
Proof.
  exists (exSPD Fs), [3; 4]%float, [0; 0]%float. eexists _, _, _, _. split; [apply exSPD_valid|].
  vm_compute. reflexivity.
Qed.
Print Assumptions C42_minres_count_refuted.

Example C42_instance :
  exists w' u' x' k, pcg_mult (counting (sp_op (exSPD Qcs))) (option_map beside None) l_inner (parQ 2) (tt, 0) bufQ [q 3; q 4] [q 0; q 0] = Ok (w', u', x', k).
Proof.
  destruct (run_check (pcg_mult (counting (sp_op (exSPD Qcs))) (option_map beside None) l_inner (parQ 2) (tt, 0) bufQ [q 3; q 4] [q 0; q 0]) (fun _ => true))
    as ([[[w' u'] x'] k] & E & _); [vm_compute; reflexivity|]. exists w', u', x', k. exact E.
Qed.

(* ---------------------------------------------------------------- C43 *)

(** PCG, when the tolerance of a zero residual is positive (abs_tol nonzero and its square not
    rounded to zero): x is returned as it was.  True in particular of floating point, where the
    computed residual must be zero. *)
Theorem C43_pcg_exact_start_partial :
  forall (S : scalar) (W : Type) (I : W -> Prop) (A : op S W) (M : option (op S W)) (dot : dotp S) (n : Z) (mA : mat S)
         (fM : list (car S) -> list (car S)) (d : list (car S) -> list (car S) -> car S),
  acts_as I A n mA -> prec_applies I M n fM -> dot_gives dot n d ->
  forall (par : sparams S) (w : W) (u : pbuf S) (b x : list (car S)), I w -> zlen b = n -> zlen x = n ->
  (forall i, 0 <= i < n -> (vec_of b i - mat_vec mA n (vec_of x) i)%S = s0) ->
  (forall r, zlen r = n -> all_zero r -> d (fM r) r = s0) ->
  slt s0 (tolerance par s0) = true ->
  exists w' u', pcg_mult A M dot par w u b x = Ok (w', u', x, 1).
Proof. exact @pcg_exact_start. Qed.
Print Assumptions C43_pcg_exact_start_partial.

Example C43_instance :
  acts_as (fun _ => True) (sp_op (exSPD Qcs)) 2 (csr_mat (exSPD Qcs)) /\
  (forall i, 0 <= i < 2 -> (vec_of (S := Qcs) [q 3; q 4] i - mat_vec (csr_mat (exSPD Qcs)) 2 (vec_of (S := Qcs) [q 1; q 1]) i)%S = s0) /\
  (forall r : list Qc, zlen r = 2 -> all_zero (S := Qcs) r -> inner (S := Qcs) 2 (vec_of (S := Qcs) r) (vec_of (S := Qcs) r) = s0) /\
  slt (s := Qcs) s0 (tolerance (parQ 10) s0) = true.
Proof.
  split; [apply exSPD_acts, Qcs_field|]. split; [apply two; vm_compute; reflexivity|]. split; [|vm_compute; reflexivity].
  intros r Hr Hz. apply (inner_0_l Qcs_ring). intros i Hi. apply Hz. rewrite <- Hr in Hi. exact Hi.
Qed.

(** With both tolerances zero PCG computes 0/0: the solution is overwritten with NaN, and if a
    second pass is allowed the call ends with an exception. *)
Theorem C43_pcg_refuted :
  exists (A : csr Fs) (b x : list float) w' u' x' k, csr_valid A /\
    sp_mult A x [0; 0]%float = Ok b /\
    pcg_run (sp_op A) None l_inner (parF 2 0 0) tt b x = Ok (w', u', x', k) /\
    Forall (fun a => PrimFloat.is_nan a = true) x' /\
    pcg_run (sp_op A) None l_inner (parF 10 0 0) tt b x = Fail FThrow.
Proof.
  exists (exSPD Fs), [3; 4]%float, [1; 1]%float. eexists _, _, _, _. split; [apply exSPD_valid|].
  split; [vm_compute; reflexivity|]. split; [vm_compute; reflexivity|]. split; [repeat constructor|vm_compute; reflexivity].
Qed.
Print Assumptions C43_pcg_refuted.

(** MINRES and PMINRES abort (or, with assertions off, divide by zero) on every system, from
    every exact start, with every tolerance. *)
Theorem C43_minres_refuted :
  forall (S : scalar) (W : Type) (I : W -> Prop) (A : op S W) (dot : dotp S) (n : Z) (mA : mat S)
         (d : list (car S) -> list (car S) -> car S) (root : car S -> car S) (par : sparams S) (w : W) (b x : list (car S)),
  acts_as I A n mA -> dot_gives dot n d -> I w -> zlen b = n -> zlen x = n ->
  (forall i, 0 <= i < n -> (vec_of b i - mat_vec mA n (vec_of x) i)%S = s0) ->
  (forall r, zlen r = n -> all_zero r -> root (d r r) = s0) -> seqb (s0 : car S) s0 = true -> 1 <= sp_max par ->
  minres_run root A dot par w b x = Fail FAssert.
Proof. exact @minres_run_exact. Qed.
Print Assumptions C43_minres_refuted.

Theorem C43_pminres_refuted :
  forall (S : scalar) (W : Type) (I : W -> Prop) (A M : op S W) (dot : dotp S) (n : Z) (mA : mat S) (fM : list (car S) -> list (car S))
         (d : list (car S) -> list (car S) -> car S) (root : car S -> car S) (par : sparams S) (w : W) (b x : list (car S)),
  acts_as I A n mA -> o_rows M = n -> o_cols M = n -> op_applies I M fM -> dot_gives dot n d -> I w -> zlen b = n -> zlen x = n ->
  (forall i, 0 <= i < n -> (vec_of b i - mat_vec mA n (vec_of x) i)%S = s0) ->
  (forall r, zlen r = n -> all_zero r -> root (d (fM r) r) = s0) -> seqb (s0 : car S) s0 = true -> 1 <= sp_max par ->
  pminres_run root A M dot par w b x = Fail FAssert.
Proof. exact @pminres_run_exact. Qed.
Print Assumptions C43_pminres_refuted.

Example C43_minres_instance :
  minres_run (S := Fs) PrimFloat.sqrt (sp_op (exSPD Fs)) l_inner (parF 10 0x1p-30 0x1p-50) tt [3; 4]%float [1; 1]%float = Fail FAssert.
Proof. vm_compute. reflexivity. Qed.

(* ---------------------------------------------------------------- C74 *)

(** For a symmetric positive definite A, however long PCG runs and whatever the preconditioner,
    the result is not further from the solution y, in the energy norm, than the start. *)
Theorem C74_pcg_energy_norm_never_grows :
  forall (S : scalar), field_laws S -> eqb_laws S -> order_laws S -> sum_order_laws S -> prod_order_laws S ->
  forall (W : Type) (I : W -> Prop) (A : op S W) (M : option (op S W)) (n : Z) (mA : mat S) (fM : list (car S) -> list (car S)),
  acts_as I A n mA -> prec_applies I M n fM -> mat_sym n mA -> mat_pos_def n mA ->
  forall (par : sparams S) (w : W) (u : pbuf S) (b x y : list (car S)) (w' : W) (u' : pbuf S) (x' : list (car S)) (k : Z),
  I w -> zlen b = n -> zlen x = n -> (forall i, 0 <= i < n -> mat_vec mA n (vec_of y) i = vec_of b i) ->
  pcg_mult A M l_inner par w u b x = Ok (w', u', x', k) ->
  sle (energy_dist mA n (vec_of x') (vec_of y)) (energy_dist mA n (vec_of x) (vec_of y)).
Proof. exact @pcg_energy. Qed.
Print Assumptions C74_pcg_energy_norm_never_grows.

Example C74_instance :
  mat_sym 2 (csr_mat (exSPD Qcs)) /\ mat_pos_def 2 (csr_mat (exSPD Qcs)) /\
  (forall i, 0 <= i < 2 -> mat_vec (csr_mat (exSPD Qcs)) 2 (vec_of (S := Qcs) [q 1; q 1]) i = vec_of (S := Qcs) [q 3; q 4] i) /\
  (exists w' u' x' k, pcg_mult (sp_op (exSPD Qcs)) (Some (sp_op (exSwap Qcs))) l_inner (parQ 2) tt bufQ [q 3; q 4] [q 0; q 0] = Ok (w', u', x', k)).
Proof.
  split; [apply exSPD_sym, Qcs_field|]. split; [apply (exSPD_pos Qcs Qcs_field Qcs_order Qcs_sum_order Qcs_prod_order)|].
  split; [apply two; vm_compute; reflexivity|].
  destruct (run_check (pcg_mult (sp_op (exSPD Qcs)) (Some (sp_op (exSwap Qcs))) l_inner (parQ 2) tt bufQ [q 3; q 4] [q 0; q 0]) (fun _ => true))
    as ([[[w' u'] x'] k] & E & _); [vm_compute; reflexivity|]. exists w', u', x', k. exact E.
Qed.

(* ---------------------------------------------------------------- C76 *)

(** In exact arithmetic, on an n x n symmetric positive definite system with a symmetric
    preconditioner, PCG reaches the tolerance in at most n passes, if max_iter exceeds n. *)
Theorem C76_pcg_converges_in_n_passes :
  forall (S : scalar), field_laws S -> eqb_laws S -> order_laws S ->
  forall (W : Type) (I : W -> Prop) (A : op S W) (n : Z) (mA : mat S),
  acts_as I A n mA -> mat_sym n mA ->
  forall (M : option (op S W)) (mM : mat S) (par : sparams S) (w : W) (u : pbuf S) (b x : list (car S)),
  mat_pos_def n mA -> prec_applies I M n (mat_list mM n) -> mat_sym n mM ->
  I w -> zlen b = n -> zlen x = n ->
  slt s0 (tolerance par (inner n (vec_of (mat_list mM n (residual mA n b x))) (vec_of (residual mA n b x)))) = true ->
  slt (sp_floor par) s0 = true -> n < sp_max par ->
  exists w' u' x' k, pcg_mult A M l_inner par w u b x = Ok (w', u', x', k) /\ 1 <= k <= Z.max 1 n /\
    slt (inner n (vec_of (mat_list mM n (residual mA n b x'))) (vec_of (residual mA n b x')))
        (tolerance par (inner n (vec_of (mat_list mM n (residual mA n b x))) (vec_of (residual mA n b x)))) = true.
Proof. exact @pcg_converges_within. Qed.
Print Assumptions C76_pcg_converges_in_n_passes.

(** Without a preconditioner the matrix mM is the identity. *)
Theorem C76_no_preconditioner :
  forall (S : scalar), field_laws S -> forall (n : Z) (x : list (car S)), zlen x = n -> mat_list id_mat n x = x.
Proof. exact @idm_list. Qed.
Print Assumptions C76_no_preconditioner.

(** MINRES and PMINRES: symmetric nonsingular A, possibly indefinite. *)
Theorem C76_minres_converges_in_n_passes :
  forall (S : scalar), field_laws S -> eqb_laws S -> order_laws S -> sum_order_laws S -> prod_order_laws S -> abs_laws S ->
  forall (W : Type) (I : W -> Prop) (A : op S W) (n : Z) (mA : mat S),
  acts_as I A n mA -> mat_sym n mA -> forall (root : car S -> car S), mat_nonsingular n mA -> root_laws root ->
  forall (par : sparams S) (w : W) (u : mbuf S) (b x : list (car S)),
  minres_state I root A l_inner par n w u -> zlen b = n -> zlen x = n -> n <= sp_max par ->
  (exists i, 0 <= i < n /\ vec_of (residual mA n b x) i <> s0) ->
  (forall e, norm_of n id_mat (residual mA n b x) e -> slt s0 (tolerance par e) = true) ->
  exists w' u' l' x' k, minres_mult root A l_inner par w u b x = Ok (w', u', l', x', k) /\ 1 <= k <= n.
Proof. exact @minres_terminates. Qed.
Print Assumptions C76_minres_converges_in_n_passes.

Theorem C76_pminres_converges_in_n_passes :
  forall (S : scalar), field_laws S -> eqb_laws S -> order_laws S -> sum_order_laws S -> prod_order_laws S -> abs_laws S ->
  forall (W : Type) (I : W -> Prop) (A : op S W) (n : Z) (mA : mat S),
  acts_as I A n mA -> mat_sym n mA -> forall (root : car S -> car S), mat_nonsingular n mA -> root_laws root ->
  forall (M : op S W) (mM : mat S) (par : sparams S) (w : W) (u : mbuf S) (b x : list (car S)),
  acts_as I M n mM -> mat_sym n mM -> mat_pos_def n mM ->
  pminres_state I root A M l_inner par n w u -> zlen b = n -> zlen x = n -> n <= sp_max par ->
  (exists i, 0 <= i < n /\ vec_of (residual mA n b x) i <> s0) ->
  (forall e, norm_of n mM (residual mA n b x) e -> slt s0 (tolerance par e) = true) ->
  exists w' u' l' x' k, pminres_mult root A M l_inner par w u b x = Ok (w', u', l', x', k) /\ 1 <= k <= n.
Proof. exact @pminres_terminates. Qed.
Print Assumptions C76_pminres_converges_in_n_passes.

Example C76_instance :
  prec_applies (W := unit) (S := Qcs) (fun _ => True) None 2 (mat_list id_mat 2) /\ mat_sym 2 (@id_mat Qcs) /\
  slt (s := Qcs) s0 (tolerance (parQ 3) (inner 2 (vec_of (mat_list id_mat 2 (residual (csr_mat (exSPD Qcs)) 2 [q 3; q 4] [q 0; q 0])))
     (vec_of (residual (csr_mat (exSPD Qcs)) 2 [q 3; q 4] [q 0; q 0])))) = true /\
  slt (s := Qcs) (sp_floor (parQ 3)) s0 = true.
Proof.
  split; [exact (fun x Hx => idm_list Qcs_field 2 x Hx)|]. split; [apply idm_sym|]. split; vm_compute; reflexivity.
Qed.

Definition parR (max : Z) : sparams Rs := @SParams Rs max (1 / 1000)%R (1 / 1000000)%R (-1000000000000)%R.

(** An indefinite system over the reals. *)
Example C76_minres_instance :
  acts_as (fun _ => True) (sp_op (exSwap Rs)) 2 (csr_mat (exSwap Rs)) /\ mat_sym 2 (csr_mat (exSwap Rs)) /\
  mat_nonsingular 2 (csr_mat (exSwap Rs)) /\ root_laws (S := Rs) sqrt /\
  acts_as (fun _ => True) (sp_op (exSPD Rs)) 2 (csr_mat (exSPD Rs)) /\ mat_sym 2 (csr_mat (exSPD Rs)) /\ mat_pos_def 2 (csr_mat (exSPD Rs)) /\
  (exists u, minres_state (S := Rs) (fun _ => True) sqrt (sp_op (exSwap Rs)) l_inner (parR 2) 2 tt u) /\
  (exists u, pminres_state (S := Rs) (fun _ => True) sqrt (sp_op (exSwap Rs)) (sp_op (exSPD Rs)) l_inner (parR 2) 2 tt u) /\
  (forall e, slt (s := Rs) s0 (tolerance (parR 2) e) = true).
Proof.
  split; [apply exSwap_acts, Rs_field|]. split; [apply exSwap_sym, Rs_field|]. split; [apply exSwap_nonsingular, Rs_field|].
  split; [apply Rs_root|]. split; [apply exSPD_acts, Rs_field|]. split; [apply exSPD_sym, Rs_field|].
  split; [apply (exSPD_pos Rs Rs_field Rs_order Rs_sum_order Rs_prod_order)|].
  split; [eexists _, [], tt, _; refine (conj Logic.I (conj eq_refl (conj (Forall_nil _) eq_refl)))|].
  split; [eexists _, [], tt, _; refine (conj Logic.I (conj eq_refl (conj (Forall_nil _) eq_refl)))|].
  intros e. unfold tolerance, larger. cbn.
  set (a := (e * (1 / 1000) * (1 / 1000))%R). set (c := (1 / 1000000 * (1 / 1000000))%R).
  assert (Hc : (0 < c)%R) by (unfold c; lra).
  destruct (Rlt_dec a c) as [H|H].
  - destruct (Rlt_dec 0 c); [reflexivity|contradiction].
  - destruct (Rlt_dec 0 a); [reflexivity|]. exfalso. apply n. lra.
Qed.

(* ---------------------------------------------------------------- C75 *)

(** Whatever was solved before with the same object: the number MINRES compares with its
    tolerance (and prints) is the norm of the residual of the x it returns; the residual is not
    larger than at the start; and when the reported number of iterations is within the limit, it
    is below the tolerance. *)
Theorem C75_minres_residual_norm :
  forall (S : scalar), field_laws S -> eqb_laws S -> order_laws S -> sum_order_laws S -> prod_order_laws S ->
  abs_laws S -> abs_square_law S ->
  forall (W : Type) (I : W -> Prop) (A : op S W) (n : Z) (mA : mat S),
  acts_as I A n mA -> mat_sym n mA -> forall (root : car S -> car S), mat_nonsingular n mA -> root_laws root ->
  forall (par : sparams S) (w : W) (u : mbuf S) (b x : list (car S)) (w' : W) (u' : mbuf S) (l' : mloc S) (x' : list (car S)) (k : Z),
  minres_state I root A l_inner par n w u -> zlen b = n -> zlen x = n ->
  minres_mult root A l_inner par w u b x = Ok (w', u', l', x', k) ->
  zlen x' = n /\ exists e0 e, norm_of n id_mat (residual mA n b x) e0 /\ norm_of n id_mat (residual mA n b x') e /\
    sabs (m_eta l') = e /\ sle (smul e e) (smul e0 e0) /\
    (k <= sp_max par -> slt e (tolerance par e0) = true).
Proof. exact @minres_residual. Qed.
Print Assumptions C75_minres_residual_norm.

(** PMINRES: the norm is the one given by the preconditioner. *)
Theorem C75_pminres_residual_norm :
  forall (S : scalar), field_laws S -> eqb_laws S -> order_laws S -> sum_order_laws S -> prod_order_laws S ->
  abs_laws S -> abs_square_law S ->
  forall (W : Type) (I : W -> Prop) (A : op S W) (n : Z) (mA : mat S),
  acts_as I A n mA -> mat_sym n mA -> forall (root : car S -> car S), mat_nonsingular n mA -> root_laws root ->
  forall (M : op S W) (mM : mat S) (par : sparams S) (w : W) (u : mbuf S) (b x : list (car S)) (w' : W) (u' : mbuf S) (l' : mloc S) (x' : list (car S)) (k : Z),
  acts_as I M n mM -> mat_sym n mM -> mat_pos_def n mM ->
  pminres_state I root A M l_inner par n w u -> zlen b = n -> zlen x = n ->
  pminres_mult root A M l_inner par w u b x = Ok (w', u', l', x', k) ->
  zlen x' = n /\ exists e0 e, norm_of n mM (residual mA n b x) e0 /\ norm_of n mM (residual mA n b x') e /\
    sabs (m_eta l') = e /\ sle (smul e e) (smul e0 e0) /\
    (k <= sp_max par -> slt e (tolerance par e0) = true).
Proof. exact @pminres_residual. Qed.
Print Assumptions C75_pminres_residual_norm.

(** MINRES compares a norm with the squares of the tolerances.  For tolerances in [0, 1] that is
    stricter than what is advertised. *)
Theorem C75_tolerance_partial :
  forall (S : scalar), field_laws S -> order_laws S -> sum_order_laws S -> prod_order_laws S ->
  forall (par : sparams S) (e0 e : car S), sle s0 e0 -> sle s0 (sp_rel par) -> sle (sp_rel par) s1 ->
  sle s0 (sp_abs par) -> sle (sp_abs par) s1 ->
  slt e (tolerance par e0) = true -> slt e (larger (smul e0 (sp_rel par)) (sp_abs par)) = true.
Proof. exact @tolerance_advertised. Qed.
Print Assumptions C75_tolerance_partial.

(** Above one it is weaker: asked for a residual below 4, MINRES is content with 5. *)
Theorem C75_tolerance_refuted :
  exists (A : csr Fs) (b x : list float) w' u' l' x', csr_valid A /\
    minres_run (S := Fs) PrimFloat.sqrt (sp_op A) l_inner (parF 10 0 4) tt b x = Ok (w', u', l', x', 1) /\
    PrimFloat.ltb 4 (PrimFloat.abs (m_eta l')) = true.
Proof.
  exists (exSwap Fs), [7; 1]%float, [0; 0]%float. eexists _, _, _, _. split; [apply exSwap_valid|].
  split; [vm_compute; reflexivity|]. vm_compute. reflexivity.
Qed.
Print Assumptions C75_tolerance_refuted.

(* ---------------------------------------------------------------- C77 *)

(** A solver object that was used for any number of systems gives the same answer as a new one,
    whatever functions the operators compute: the law of no number is used, so this holds of doubles. *)
Theorem C77_pcg_reusable :
  forall (S : scalar) (W : Type) (I : W -> Prop) (A : op S W) (dot : dotp S) (n : Z)
         (fA fM : list (car S) -> list (car S)) (d : list (car S) -> list (car S) -> car S),
  computes I A n fA -> dot_gives dot n d -> forall (M : option (op S W)), prec_applies I M n fM ->
  forall (par : sparams S) (l : list (list (car S) * list (car S))) (w : W) (u : pbuf S) (w' : W) (u' : pbuf S) (b x : list (car S)),
  I w -> pcg_new A M par = Ok u -> Forall (fun c => zlen (fst c) = n /\ zlen (snd c) = n) l ->
  zlen b = n -> zlen x = n -> pcg_calls A M dot par l w u = Ok (w', u') ->
  same_pcg (pcg_mult A M dot par w' u' b x) (pcg_run A M dot par w b x).
Proof. exact @pcg_history. Qed.
Print Assumptions C77_pcg_reusable.

Theorem C77_minres_reusable :
  forall (S : scalar) (W : Type) (I : W -> Prop) (A : op S W) (dot : dotp S) (n : Z)
         (fA fM : list (car S) -> list (car S)) (d : list (car S) -> list (car S) -> car S),
  computes I A n fA -> dot_gives dot n d -> forall (root : car S -> car S), (forall v, zlen v = n -> fM v = v) ->
  forall (par : sparams S) (l : list (list (car S) * list (car S))) (w : W) (u : mbuf S) (w' : W) (u' : mbuf S) (b x : list (car S)),
  I w -> minres_new A None par = Ok u -> Forall (fun c => zlen (fst c) = n /\ zlen (snd c) = n) l ->
  zlen b = n -> zlen x = n -> minres_calls root A dot par l w u = Ok (w', u') ->
  same_minres (minres_mult root A dot par w' u' b x) (minres_run root A dot par w b x).
Proof. exact @minres_history. Qed.
Print Assumptions C77_minres_reusable.

Theorem C77_pminres_reusable :
  forall (S : scalar) (W : Type) (I : W -> Prop) (A : op S W) (dot : dotp S) (n : Z)
         (fA fM : list (car S) -> list (car S)) (d : list (car S) -> list (car S) -> car S),
  computes I A n fA -> dot_gives dot n d -> forall (root : car S -> car S) (M : op S W) (par : sparams S)
         (l : list (list (car S) * list (car S))) (w : W) (u : mbuf S) (w' : W) (u' : mbuf S) (b x : list (car S)),
  o_rows M = n -> o_cols M = n -> op_applies I M fM ->
  I w -> minres_new A (Some M) par = Ok u -> Forall (fun c => zlen (fst c) = n /\ zlen (snd c) = n) l ->
  zlen b = n -> zlen x = n -> pminres_calls root A M dot par l w u = Ok (w', u') ->
  same_minres (pminres_mult root A M dot par w' u' b x) (pminres_run root A M dot par w b x).
Proof. exact @pminres_history. Qed.
Print Assumptions C77_pminres_reusable.

Example C77_instance :
  exists u w' u', pcg_new (sp_op (exSPD Qcs)) None (parQ 2) = Ok u /\
    pcg_calls (sp_op (exSPD Qcs)) None l_inner (parQ 2) [([q 1; q 2], [q 3; q 4]); ([q 5; q 6], [q 0; q 0])] tt u = Ok (w', u').
Proof.
  destruct (run_check (u <- pcg_new (sp_op (exSPD Qcs)) None (parQ 2) ;;
     pcg_calls (sp_op (exSPD Qcs)) None l_inner (parQ 2) [([q 1; q 2], [q 3; q 4]); ([q 5; q 6], [q 0; q 0])] tt u) (fun _ => true))
    as ([w' u'] & E & _); [vm_compute; reflexivity|].
  destruct (pcg_new (sp_op (exSPD Qcs)) None (parQ 2)) as [u|]; [|discriminate E]. cbn [bind] in E. exists u, w', u'. split; [reflexivity|exact E].
Qed.

(** A solver is an Operator, but its Mult takes the old content of the output as initial guess:
    used as a preconditioner it is not a function of its input. *)
Theorem C77_result_depends_on_initial_guess :
  exists (A : csr Qcs) (b out1 out2 : list Qc) w1 u1 x1 k1 w2 u2 x2 k2, csr_valid A /\
    pcg_run (sp_op A) None l_inner (parQ 2) tt b out1 = Ok (w1, u1, x1, k1) /\
    pcg_run (sp_op A) None l_inner (parQ 2) tt b out2 = Ok (w2, u2, x2, k2) /\ x1 <> x2.
Proof.
  destruct (run_check (r1 <- pcg_run (sp_op (exSPD Qcs)) None l_inner (parQ 2) tt [q 3; q 4] [q 0; q 0] ;;
      r2 <- pcg_run (sp_op (exSPD Qcs)) None l_inner (parQ 2) tt [q 3; q 4] [q 1; q 0] ;; Ok (r1, r2))
    (fun r => negb (qeqs (snd (fst (fst r))) (snd (fst (snd r)))))) as ([[[[w1 u1] x1] k1] [[[w2 u2] x2] k2]] & E & H); [vm_compute; reflexivity|].
  apply bind_Ok in E. destruct E as (r1 & E1 & E). apply bind_Ok in E. destruct E as (r2 & E2 & E). injection E as -> ->.
  exists (exSPD Qcs), [q 3; q 4], [q 0; q 0], [q 1; q 0], w1, u1, x1, k1, w2, u2, x2, k2. split; [apply exSPD_valid|].
  split; [exact E1|]. split; [exact E2|]. intros ->. cbn [fst snd] in H. rewrite qeqs_refl in H. discriminate.
Qed.
Print Assumptions C77_result_depends_on_initial_guess.
