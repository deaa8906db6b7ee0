(** Consequences for particular programs on solver objects (C107). *)

From Coq Require Import ZArith List Bool Lia.
From Verif Require Import Base Scalar Spec LoopFacts SparseProofs Sparse Block BlockSpec Solver SolverSpec SolverProofs SolverMinres SolverMore SolverReuse
  Life LifeProofs SolverObj SolverObjSpec SolverObjProofs.
Import ListNotations.
Open Scope Z_scope.

Section More.
Context {S : scalar}.
Notation T := (car S).

(** A SparseMatrix, whatever the numbers. *)
Lemma sparse_good (A : csr S) : csr_valid A -> good_op (c_rows A, c_cols A) (Some (sp_op A)).
Proof.
  intros V. cbn [good_op sp_op o_rows o_cols]. pose proof (cv_rows V). pose proof (cv_cols V).
  split; [reflexivity|]. split; [lia|]. split; [lia|]. intros E.
  exists (fun x => map (fun i => fold_left (dot_step x) (row_entries A i) s0) (zrange 0 (c_rows A))).
  split; [reflexivity|]. split; [cbn; lia|]. split; [cbn; lia|]. intros w x out _ Hx Ho. cbn [sp_op o_rows o_cols o_mult] in *.
  rewrite zlen_map_zrange by lia. split; [lia|]. exists w. split; [|exact I]. rewrite sp_mult_exact by auto. reflexivity.
Qed.

(** InnerProduct *)
Lemma inner_good : good_dots (S := S) [l_inner].
Proof.
  intros dot [<-|[]] n _. exists (fun x y => fold_left (fun s i => sadd s (smul (vec_of x i) (vec_of y i))) (zrange 0 (zlen x)) s0).
  intros x y Hx Hy. unfold l_inner. rewrite Hx, Hy, Z.eqb_refl. cbn [assert_ bind]. rewrite <- Hx.
  unfold for_. rewrite (foldM_pure_in _ (fun s i => sadd s (smul (vec_of x i) (vec_of y i)))); [reflexivity|].
  intros s i Hi. apply In_zrange in Hi. rewrite !(get_ok s0) by lia. reflexivity.
Qed.

Context (root : T -> T) (floor : T) (dots : list (dotp S)).

(** SetOperator on a solver without operator *)
Lemma default_set_operator {O} (K : skind S O) m a : sk_base K (k_fresh (sk_class K)) = so_new ->
  arun K (m, []) [ADefault; ASetOperator 0 a] = ([], Some FUB).
Proof.
  intros E. cbn [arun astep app]. unfold on_base. change (get [k_fresh (sk_class K)] 0) with (Ok (k_fresh (sk_class K))). cbn [bind].
  rewrite E. unfold so_set_operator. cbn [so_new so_A deref_opt]. unfold deref. unfold get.
  destruct (a <? 0); [reflexivity|]. destruct (nth_error m (Z.to_nat a)) as [[A|]|]; reflexivity.
Qed.

(** With the limit set to zero or less, MINRES leaves x alone. *)
Lemma minres_nothing (A : op S unit) dot n fA f par u b x : computes (fun _ => True) A n fA -> dot_gives dot n f ->
  mbuf_ok n u -> zlen b = n -> zlen x = n -> sp_max par <= 0 ->
  exists w' u' l', minres_mult root A dot par tt u b x = Ok (w', u', l', x, 1).
Proof.
  intros (E1 & E2 & H) Hf Hu Hb Hx Hp.
  destruct (minres_mult_loop (fun _ => True) A dot n fA (fun v => v) f root E1 E2 H Hf par tt u b x
      (fun v _ => eq_refl) Logic.I Hu Hb Hx) as (_ & _ & w' & u' & _ & Hu' & _ & ->).
  destruct (Z.to_nat (sp_max par)); cbn [mloop]; (destruct (Z.leb_spec 1 (sp_max par)); [lia|]); eauto.
Qed.

Lemma minres_limit size (Hd : good_dots dots) (m : memory_of_ops S) a (A : op S unit) n max rel abs vb d dot k b v t :
  good_ops size m -> get m a = Ok (Some A) -> o_rows A = n -> o_cols A = n -> 0 <= max -> get dots d = Ok dot -> k <= 0 -> zlen b = n -> zlen v = n ->
  arun (mr_kind root floor dots) (m, []) [ANew a None max rel abs vb d; AMaxIter 0 k; AMult 0 b v t; AGetNum 0] = ([OVec v; OInt 1], None).
Proof.
  intros Hm Ea E1 E2 Hx Ed Hk Hb Hv.
  rewrite (minres_programs root floor dots size Hd) by (auto; intros p [<-|[<-|[<-|[<-|[]]]]]; exact I).
  assert (EA : operator_at m a = Ok A) by (unfold operator_at; now rewrite Ea).
  assert (H0 : 0 <= n) by (destruct (Hm a _ Ea) as (_ & H0 & _); lia).
  destruct (square_at size m a A n Hm EA) as (_ & _ & _ & fA & HA).
  { destruct (Hm a _ Ea) as (Es & _). now rewrite <- Es, E1, E2. }
  destruct (Hd dot (get_In _ _ _ Ed) n H0) as (f & Hf).
  cbn [hrun hstep]. unfold construct. rewrite EA. cbn [bind]. rewrite E1, E2, Z.eqb_refl. apply Z.leb_le in Hx. rewrite Hx. cbn [andb maybe_at bind app].
  cbn [hstep]. unfold update, get, set, zlen. cbn [Z.ltb Z.compare Z.to_nat nth_error bind length Z.of_nat Pos.of_succ_nat andb Z.leb upd
    h_n h_A h_M h_dot h_max h_rel h_abs h_verbose h_last hstep app].
  unfold get. cbn [Z.ltb Z.compare Z.to_nat nth_error bind].
  unfold solve. cbn [h_n h_A h_M h_dot h_max h_rel h_abs h_verbose h_last]. rewrite EA. cbn [bind]. rewrite E1, Hb, Hv, Z.eqb_refl. cbn [andb maybe_at bind].
  rewrite Ed. cbn [bind]. unfold solve_new.
  destruct (minres_new_gives A None (new_settings floor) n E1 E2 H0 (Z.le_refl 0)) as (u & -> & Hu); [discriminate|]. cbn [bind].
  destruct (minres_nothing A dot n fA f (SParams k rel abs floor) u b v HA Hf Hu Hb Hv Hk) as (w' & u' & l' & ->). cbn [bind].
  reflexivity.
Qed.

End More.
