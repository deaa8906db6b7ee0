(** The products of a ParMatrix whose ranks own consecutive rows act on the pieces like the whole matrix. *)

From Coq Require Import ZArith List Bool Lia.
From Verif Require Import Base Scalar Spec SumFacts LoopFacts LifeProofs Vec Dense Sparse SparseProofs Block BlockSpec BlockOp Solver SolverSpec SolverProofs KrylovFacts SolverLinks Par ParSpec ParProofs ParLinks
  HypreTransposeSpec ParMatvec ParMatvecSpec ParMatvecProofs I32ParProofs Spmd SpmdSpec SpmdProofs SpmdSolvers.
Import ListNotations.
Open Scope Z_scope.

Section SpmdMatrix.
Context {S : scalar}.
Notation T := (car S).

Lemma concat_at (vs : list (list T)) : forall r v i, get vs r = Ok v -> 0 <= i < zlen v ->
  zn s0 (concat vs) (first_of (map zlen vs) r + i) = zn s0 v i.
Proof.
  induction vs as [|w vs IH]; intros r v i G Hi; [apply get_range in G; unfold zlen in G; cbn in G; lia|].
  pose proof (proj1 (get_range _ _ _ G)) as Br. rewrite zlen_cons in Br. cbn [map concat].
  destruct (Z.eq_dec r 0) as [->|N].
  - cbn in G. injection G as <-. rewrite first_of_0, zn_app_l by lia. f_equal. 
  - replace r with ((r - 1) + 1) by lia. rewrite first_cons by lia.
    assert (G' : get vs (r - 1) = Ok v). { rewrite (get_ok []) in G by (rewrite zlen_cons; lia). rewrite zn_cons_pos in G by lia. rewrite (get_ok []) by lia. exact G. }
    assert (0 <= first_of (map zlen vs) (r - 1)).
    { rewrite <- (first_of_0 (map zlen vs)). unfold first_of. apply zsum_le; [lia|]. intros k Hk. rewrite (zn_map [] 0) by lia. apply zlen_nonneg. }
    rewrite zn_app_r by lia. replace (zlen w + first_of (map zlen vs) (r - 1) + i - zlen w) with (first_of (map zlen vs) (r - 1) + i) by lia. now apply IH.
Qed.

Lemma concat_len (vs : list (list T)) : zlen (concat vs) = first_of (map zlen vs) (zlen vs).
Proof.
  induction vs as [|w vs IH]; [reflexivity|]. cbn [concat map]. rewrite zlen_app, zlen_cons. pose proof (zlen_nonneg vs). rewrite first_cons by lia. lia.
Qed.

Section Layout.
Context (sizes : list Z) (As : list (parmat S)).
Hypothesis OW : owns sizes As.
Let N : Z := first_of sizes (zlen sizes).

Lemma owns_at r A : get As r = Ok A -> 0 <= r < zlen sizes /\ zn 0 (pm_rs A) 0 = first_of sizes r /\ zn 0 (pm_rs A) 1 = first_of sizes (r + 1) /\ pm_cs A = pm_rs A.
Proof.
  intros G. destruct OW as (L & H). destruct (H r A G) as (E & C). pose proof (proj1 (get_range _ _ _ G)). rewrite E. split; [lia|]. repeat split; try reflexivity. congruence.
Qed.

Lemma same : same_split As.
Proof. intros r A G. symmetry. exact (proj2 (proj2 OW r A G)). Qed.

Lemma pieces_holds xs X : pieces sizes xs X -> holds pm_rs As xs (vec_of X).
Proof.
  intros (Hs & <-). assert (L : zlen xs = zlen As) by (rewrite <- (proj1 OW), <- Hs, zlen_map; reflexivity). pose proof (proj1 OW) as LO.
  split; [split; [exact L|]|].
  - intros r A v G Gv. destruct (owns_at r A G) as (B & E0 & E1 & _). rewrite E0, E1, first_of_S by lia. rewrite <- Hs.
    rewrite (zn_map [] 0) by lia. rewrite (get_ok []) in Gv by lia. injection Gv as ->. lia.
  - intros r A v i G Gv Hi. destruct (owns_at r A G) as (B & E0 & _). rewrite E0. unfold vec_of. rewrite <- Hs. symmetry. now apply concat_at.
Qed.

Lemma holds_pieces ys F : holds pm_rs As ys F -> pieces sizes ys (map F (zrange 0 N)).
Proof.
  intros ((L & Hf) & Hv). pose proof (proj1 OW) as LO.
  assert (Hl : forall r, 0 <= r < zlen As -> zlen (zn [] ys r) = zn 0 sizes r).
  { intros r Hr. assert (exists A, get As r = Ok A) as (A & G). { destruct As as [|A0 l] eqn:E; [unfold zlen in Hr; cbn in Hr; lia|]. rewrite <- E in *. exists (zn A0 As r). now apply get_ok. }
    destruct (owns_at r A G) as (B & E0 & E1 & _). rewrite (Hf r A (zn [] ys r) G) by (apply get_ok; lia). rewrite E0, E1, first_of_S by lia. lia. }
  assert (Hs : map zlen ys = sizes).
  { apply (list_ext 0); [rewrite zlen_map, L; symmetry; exact (proj1 OW)|]. intros r Hr. rewrite zlen_map in Hr. rewrite (zn_map [] 0) by lia. apply Hl. lia. }
  split; [exact Hs|].
  assert (LN : zlen (concat ys) = N) by (rewrite concat_len, Hs, L; unfold N; rewrite (proj1 OW); reflexivity).
  apply (list_ext s0); [rewrite zlen_map_zrange by (rewrite <- LN; apply zlen_nonneg); exact LN|].
  intros t Ht. rewrite LN in Ht. rewrite zn_map_zrange by lia.
  destruct (owner_exists sizes t) as (r & Hr & Ho); [|exact Ht|].
  { intros r Hr. rewrite <- Hs. rewrite <- Hs, zlen_map in Hr. rewrite (zn_map [] 0) by lia. apply zlen_nonneg. }
  assert (exists A, get As r = Ok A) as (A & G). { rewrite (proj1 OW) in Hr. destruct As as [|A0 l] eqn:E; [unfold zlen in Hr; cbn in Hr; lia|]. rewrite <- E in *. exists (zn A0 As r). now apply get_ok. }
  destruct (owns_at r A G) as (B & E0 & _).
  assert (Gy : get ys r = Ok (zn [] ys r)) by (apply get_ok; rewrite L, <- (proj1 OW); exact Hr).
  rewrite first_of_S in Ho by lia. rewrite <- (Hl r) in Ho by (rewrite <- (proj1 OW); exact Hr).
  replace t with (first_of (map zlen ys) r + (t - first_of sizes r)) at 1 by (rewrite Hs; lia).
  rewrite (concat_at ys r _ _ Gy) by lia. rewrite (Hv r A _ _ G Gy) by lia. rewrite E0. f_equal. lia.
Qed.

Lemma owns_tiles : (forall r, 0 <= r < zlen sizes -> 0 <= zn 0 sizes r) -> tiles pm_cs N As.
Proof.
  intros P i Hi. destruct (owner_exists sizes i P Hi) as (r & Hr & Ho).
  assert (exists A, get As r = Ok A) as (A & G). { rewrite (proj1 OW) in Hr. destruct As as [|A0 l] eqn:E; [unfold zlen in Hr; cbn in Hr; lia|]. rewrite <- E in *. exists (zn A0 As r). now apply get_ok. }
  destruct (owns_at r A G) as (B & E0 & E1 & EC). exists r, A. split; [exact G|]. rewrite EC, E0, E1. exact Ho.
Qed.

Lemma to_cols xs X : holds pm_rs As xs X -> holds pm_cs As xs X.
Proof.
  intros ((L & Hf) & Hv). split; [split; [exact L|]|].
  - intros r A v G. rewrite (proj2 (proj2 (proj2 (owns_at r A G)))). now apply Hf.
  - intros r A v i G. rewrite (proj2 (proj2 (proj2 (owns_at r A G)))). now apply Hv.
Qed.

Context (R : ring_laws S) (H : hypre S) (MU : multiplies H) (D : distributed N N As).
Context (G : csr S) (VG : csr_valid G) (RG : c_rows G = N) (CG : c_cols G = N).
Context (EG : forall i j, 0 <= i < N -> 0 <= j < N -> world_mat As i j = csr_mat G i j).

Lemma matrix_collective xs ys X Y : pieces sizes xs X -> pieces sizes ys Y ->
  exists Z zs, of_op (sp_op G) X Y = Ok Z /\ view_mult H As xs ys = Ok zs /\ pieces sizes zs Z.
Proof.
  intros Px Py.
  assert (P : forall r, 0 <= r < zlen sizes -> 0 <= zn 0 sizes r).
  { intros r Hr. rewrite <- (proj1 Px) in Hr |- *. rewrite zlen_map in Hr. rewrite (zn_map [] 0) by lia. apply zlen_nonneg. }
  assert (LX : forall (vs : list (list T)) V, pieces sizes vs V -> zlen V = N).
  { intros vs V (Hs & <-). rewrite concat_len, Hs. unfold N. rewrite <- Hs, zlen_map. reflexivity. }
  destruct (sp_mult_spec R G X Y VG) as (Z & EZ & LZ & VZ); [rewrite CG; exact (LX _ _ Px)|rewrite RG; exact (LX _ _ Py)|].
  destruct (view_mult_value H N N As xs ys (vec_of X) MU D (owns_tiles P) same (to_cols _ _ (pieces_holds _ _ Px)) (proj1 (pieces_holds _ _ Py))) as (zs & Es & Hz).
  exists Z, zs. split; [|split; [exact Es|]].
  - unfold of_op, op_mult_vec. cbn [sp_op o_rows o_mult]. rewrite l_set_size_same by (rewrite RG; exact (LX _ _ Py)). cbn [bind]. rewrite EZ. reflexivity.
  - apply holds_pieces in Hz. replace Z with (map (mat_vec (world_mat As) N (vec_of X)) (zrange 0 N)); [exact Hz|].
    assert (0 <= N) by (rewrite <- (LX _ _ Px); apply zlen_nonneg).
    apply (list_ext s0); [rewrite zlen_map_zrange by assumption; lia|]. intros t Ht. rewrite zlen_map_zrange in Ht by assumption. rewrite zn_map_zrange by lia.
    change (zn s0 Z t) with (vec_of Z t). rewrite VZ by lia. unfold mat_vec. rewrite CG. apply sum_range_ext. intros j Hj. rewrite EG by lia. reflexivity.
Qed.

End Layout.
(* ---------------------------------------------------------------- the solvers *)

Section Solvers.
Context (R : ring_laws S) (H : hypre S) (MU : multiplies H) (red : allreduce (S := S)) (SR : sums red).
Context (sizes : list Z) (As : list (parmat S)) (G : csr S) (SD : spread sizes As G).
Context (M : option (op S unit)) (P : option (list (list T) -> list (list T) -> res (list (list T)))) (PC : precond sizes M P).
Let N : Z := first_of sizes (zlen sizes).

Lemma pieces_N (vs : list (list T)) V : pieces sizes vs V -> zlen V = N.
Proof. intros (Hs & <-). rewrite concat_len, Hs. unfold N. rewrite <- Hs, zlen_map. reflexivity. Qed.

Lemma ops_collective : collective sizes (par_ops H As P) (solver_ops (sp_op G) M).
Proof.
  intros o xs ys X Y Px Py. unfold par_ops, solver_ops. destruct (o =? 0).
  - destruct SD as [OW D V Rr Rc E].
    destruct (matrix_collective sizes As OW R H MU D G V Rr Rc (fun i j Hi Hj => E i j (eq_ind_r (fun n => 0 <= i < n) Hi Rr) (eq_ind_r (fun n => 0 <= j < n) Hj Rc)) xs ys X Y Px Py) as (Z & zs & E1 & E2 & E3).
    rewrite E1. exists zs. now split.
  - unfold precond in PC. destruct M as [m|], P as [p|]; try contradiction; [|reflexivity]. now apply PC.
Qed.

Lemma sp_keeps : keeps N (sp_op G).
Proof.
  intros x y z Lx Ly. destruct SD as [OW D V Rr Rc E]. unfold op_mult_vec. cbn [sp_op o_rows o_mult]. rewrite l_set_size_same by (rewrite Rr; exact Ly). cbn [bind].
  destruct (sp_mult_spec R G x y V) as (z' & E' & L & _); [rewrite Rc; exact Lx|rewrite Rr; exact Ly|]. rewrite E'. cbn [bind]. intros Ez. injection Ez as <-. rewrite L. exact Rr.
Qed.

Lemma prec_keeps m : M = Some m -> keeps N m.
Proof. intros E. unfold precond in PC. rewrite E in PC. destruct P; [|contradiction]. exact (proj1 PC). Qed.

Context (sts : list (store S)) (st : store S) (NE : sts <> []) (C : cut sizes sts st).

Lemma cut_sized : sized N st.
Proof. intros v. exact (pieces_N _ _ (C v)). Qed.

Lemma pcg_par par u : pb_Ap u = st vAp -> pb_z u = st vZ ->
  match pcg_mult (sp_op G) M l_inner par tt u (st vB) (st vX) with
  | Ok (_, _, x, k) => exists sts', spmd true red (par_ops H As P) (s_pcg (isM M) par) sts = Done (map (fun s => (k, s)) sts') /\
      pieces sizes (map (fun s : store S => s vX) sts') x
  | Fail f => spmd true red (par_ops H As P) (s_pcg (isM M) par) sts = Crash f
  end.
Proof.
  intros Eu Ez. rewrite (pcg_eq N (sp_op G) M par (sd_rows _ _ _ SD) (sd_cols _ _ _ SD) sp_keeps prec_keeps st u cut_sized Eu Ez).
  pose proof (spmd_run R red sizes _ _ SR ops_collective (s_pcg (isM M) par) st sts NE C) as E. unfold agree in E.
  destruct (run (solver_ops (sp_op G) M) (s_pcg (isM M) par) st) as [(k, st')|f]; cbn [bind pcg_state fst snd]; [|exact E].
  destruct E as (sts' & E & C'). exists sts'. split; [exact E|apply C'].
Qed.

Context (root : T -> T).

Lemma minres_par par :
  match minres_mult root (sp_op G) l_inner par tt (mb st) (st vB) (st vX) with
  | Ok (_, _, _, x, k) => exists sts', spmd true red (par_ops H As P) (s_minres root par) sts = Done (map (fun s => (k, s)) sts') /\
      pieces sizes (map (fun s : store S => s vX) sts') x
  | Fail f => spmd true red (par_ops H As P) (s_minres root par) sts = Crash f
  end.
Proof.
  pose proof (minres_eq N (sp_op G) M par (sd_rows _ _ _ SD) (sd_cols _ _ _ SD) sp_keeps prec_keeps root st cut_sized) as E'.
  pose proof (spmd_run R red sizes _ _ SR ops_collective (s_minres root par) st sts NE C) as E. unfold agree in E.
  destruct (minres_mult root (sp_op G) l_inner par tt (mb st) (st vB) (st vX)) as [((((w, u), l), x), k)|f].
  - destruct E' as (st' & _ & _ & -> & E'). rewrite E' in E. destruct E as (sts' & E & C'). exists sts'. split; [exact E|apply C'].
  - rewrite E' in E. exact E.
Qed.

Lemma pminres_par par m : M = Some m ->
  match pminres_mult root (sp_op G) m l_inner par tt (mb st) (st vB) (st vX) with
  | Ok (_, _, _, x, k) => exists sts', spmd true red (par_ops H As P) (s_pminres root par) sts = Done (map (fun s => (k, s)) sts') /\
      pieces sizes (map (fun s : store S => s vX) sts') x
  | Fail f => spmd true red (par_ops H As P) (s_pminres root par) sts = Crash f
  end.
Proof.
  intros EM. pose proof (pminres_eq N (sp_op G) M par (sd_rows _ _ _ SD) (sd_cols _ _ _ SD) sp_keeps prec_keeps root m EM st cut_sized) as E'.
  pose proof (spmd_run R red sizes _ _ SR ops_collective (s_pminres root par) st sts NE C) as E. unfold agree in E.
  destruct (pminres_mult root (sp_op G) m l_inner par tt (mb st) (st vB) (st vX)) as [((((w, u), l), x), k)|f].
  - destruct E' as (st' & _ & _ & -> & E'). rewrite E' in E. destruct E as (sts' & E & C'). exists sts'. split; [exact E|apply C'].
  - rewrite E' in E. exact E.
Qed.
End Solvers.

Theorem pcg_par_converges (F : field_laws S) (E : eqb_laws S) (O : order_laws S) (H : hypre S) (MU : multiplies H) (red : allreduce (S := S)) (SR : sums red)
    (sizes : list Z) (As : list (parmat S)) (G : csr S) (SD : spread sizes As G) (sts : list (store S)) (st : store S) (NE : sts <> []) (C : cut sizes sts st) :
  let n := c_rows G in let A := csr_mat G in
  mat_sym n A -> mat_pos_def n A ->
  forall par : sparams S,
  slt s0 (tolerance par (inner n (vec_of (residual A n (st vB) (st vX))) (vec_of (residual A n (st vB) (st vX))))) = true ->
  slt (sp_floor par) s0 = true -> n < sp_max par ->
  exists sts' x k, spmd true red (par_ops H As None) (s_pcg false par) sts = Done (map (fun s => (k, s)) sts') /\ 1 <= k <= Z.max 1 n /\
    pieces sizes (map (fun s : store S => s vX) sts') x /\
    slt (inner n (vec_of (residual A n (st vB) x)) (vec_of (residual A n (st vB) x)))
        (tolerance par (inner n (vec_of (residual A n (st vB) (st vX))) (vec_of (residual A n (st vB) (st vX))))) = true.
Proof.
  intros n A Sy Po par Ht Hf Hm. pose proof (field_ring S F) as R.
  assert (Ac : acts_as (fun _ : unit => True) (sp_op G) n A).
  { apply matrix_acts; [apply (sp_op_matrix R); exact (sd_valid _ _ _ SD)|reflexivity|]. exact (eq_trans (sd_cols _ _ _ SD) (eq_sym (sd_rows _ _ _ SD))). }
  assert (Ln : forall v, zlen (st v) = n) by (intros v; unfold n; rewrite (sd_rows _ _ _ SD); exact (cut_sized sizes sts st C v)).
  assert (Lr : forall x, zlen (residual A n (st vB) x) = n) by (intros x; unfold residual; apply zlen_map_zrange; rewrite <- (Ln vX); apply zlen_nonneg).
  assert (I : forall x, mat_list id_mat n (residual A n (st vB) x) = residual A n (st vB) x) by (intros x; apply (idm_list F); apply Lr).
  destruct (pcg_converges_within F E O (fun _ : unit => True) (sp_op G) n A Ac Sy None id_mat par tt (PBuf (st vAp) (st vR) (st vP) (st vZ)) (st vB) (st vX) Po
    (fun x Hx => idm_list F n x Hx) (idm_sym n) Logic.I (Ln _) (Ln _)) as (w & u & x & k & Ek & Bk & Hr); try assumption; [rewrite !I; exact Ht|].
  rewrite !I in Hr.
  pose proof (pcg_par R H MU red SR sizes As G SD None None Logic.I sts st NE C par (PBuf (st vAp) (st vR) (st vP) (st vZ)) eq_refl eq_refl) as P.
  rewrite Ek in P. destruct P as (sts' & P & Px). exists sts', x, k. split; [exact P|]. split; [exact Bk|]. split; [exact Px|exact Hr].
Qed.

End SpmdMatrix.
