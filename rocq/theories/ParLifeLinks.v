(** From the ownership invariant to the statements about parallel objects. *)

From Coq Require Import ZArith List Bool Lia Permutation.
From Verif Require Import Base Scalar Spec Dense Sparse LoopFacts CsrFacts Par ParSpec ParProofs HypreNorms ParLife ParLifeSpec ParLifeProofs.
Import ListNotations.
Open Scope Z_scope.

Section Links.
Context {S : scalar}.
Notation T := (car S).
Notation csr := (csr S).
Notation parmat := (parmat S).
Notation hobj := (hobj (S := S)).
Notation heap := (heap (S := S)).
Notation matobj := (matobj (S := S)).
Notation vecobj := (vecobj (S := S)).
Notation solobj := (solobj (S := S)).
Notation obj := (obj (S := S)).
Notation env := (env (S := S)).
Notation lop := (lop (S := S)).

(* ---------------------------------------------------------------- moving and staying *)

Lemma vec_held (v : vecobj) l : vec_owns v l -> held (vo_p v) l.
Proof.
  intros [(-> & _)|(a & n & -> & _ & _ & ->)]; [now left|]. right. eexists _, _. split; [reflexivity|now left].
Qed.

Lemma observe_frame (o : obj) l h h' R R' : owns (Some o) l -> holds h R -> holds h' R' -> incl l R -> incl l R' -> forall b x, observe o h b x = observe o h' b x.
Proof.
  intros O H H' I I' b x. destruct o as [m|v|c s]; cbn [observe].
  - now rewrite (mat_deref_agree h h' m (held_deref h h' R R' l _ H H' I I' (mat_held m l O))).
  - unfold vec_deref. now rewrite (held_deref h h' R R' l _ H H' I I' (vec_held v l O)).
  - now rewrite (sol_mult_frame c s l h h' R R' O H H' I I' b x).
Qed.

Lemma kept (e : env) os h op os' h' k k0 o : reach e (os, h) -> allowed e os op -> lstep e (os, h) op = Ok (os', h') ->
  from op (zlen os) k = Some k0 -> 0 <= k -> look os k0 = Ok o ->
  look os' k = Ok o /\ forall b x, observe o h' b x = observe o h b x.
Proof.
  intros Rc K E F Hk E0. destruct (reach_inv _ _ Rc) as (ls & I). destruct (step_ok e os h ls op I K) as (st' & ls' & E' & I' & Fr).
  assert (st' = (os', h')) by congruence. subst st'. cbn [fst] in Fr. destruct (inv_at _ _ _ _ _ I E0) as (O & Ic & Hk0). pose proof (look_inv _ _ _ E0) as (_ & Z0).
  destruct (Fr k k0 Hk F Hk0) as (Hk' & Eo & El). assert (E1 : look os' k = Ok o) by (apply look_ok; [lia|congruence]). split; [exact E1|].
  destruct (inv_at _ _ _ _ _ I' E1) as (O' & Ic' & _). rewrite El in Ic', O'. intros b x.
  exact (observe_frame o _ h' h _ _ O (proj2 (proj2 I')) (proj2 (proj2 I)) Ic' Ic b x).
Qed.

Lemma fresh_empty (o : obj) h : empty (fst (fresh o h)).
Proof. destruct o; cbn; repeat split. Qed.

(** The source of a move *)
Lemma moved_from (e : env) os h i o os' h' : look os i = Ok o -> movable o -> lstep e (os, h) (LMove i) = Ok (os', h') ->
  exists o', look os' i = Ok o' /\ empty o' /\ same_class o o'.
Proof.
  intros E M L. pose proof (look_inv _ _ _ E) as (Hi & _). unfold lstep in L. rewrite E in L. cbn [bind] in L. rewrite (move_eq o h M) in L. rewrite set_ok in L by lia. cbn [bind] in L. injection L as <- <-.
  exists (fst (fresh o h)). split; [|split; [apply fresh_empty|now destruct o]]. apply look_ok; [rewrite zlen_app, zlen_upd; change (zlen [Some o]) with 1; lia|]. rewrite zn_app_l by (rewrite zlen_upd; lia). rewrite zn_upd by lia. now rewrite Z.eqb_refl.
Qed.

(* ---------------------------------------------------------------- copies *)

(** What a solver with this list of hypre objects asks for, if anything *)
Lemma copied_ok reorder c (s n : solobj) l lo la ls lb h R h' : sol_owns c s l -> holds h R -> incl l R ->
  op_owns (so_op n) lo -> mat_owns (so_A n) la -> handle_owns c n ls -> shell_owns n lb -> holds h' ((lb ++ ls ++ la ++ lo) ++ R) -> copy_of reorder c s n ls ->
  forall b x r, sol_mult c s h b x = Ok r -> sol_mult c n h' b x = copied reorder c r.
Proof.
  intros O H I Oo OA OH OS H' CO b x r Er.
  assert (On : sol_owns c n (lb ++ ls ++ la ++ lo)) by (now apply sol_owns_intro).
  set (l' := lb ++ ls ++ la ++ lo) in *. set (R' := l' ++ R) in *. assert (I' : incl l' R') by apply incl_app_l'.
  assert (Io : incl lo R') by (intros y Iy; unfold R', l'; rewrite !in_app_iff; tauto).
  assert (Ia : incl la R') by (intros y Iy; unfold R', l'; rewrite !in_app_iff; tauto).
  assert (Is : incl ls R') by (intros y Iy; unfold R', l'; rewrite !in_app_iff; tauto).
  assert (Ib : incl lb R') by (intros y Iy; unfold R', l'; rewrite !in_app_iff; tauto).
  destruct CO as [EF EN EV ES EC EH]. unfold family in EF. injection EF as F1 F2 F3 F4.
  unfold sol_mult in Er. destruct O as (lo0 & la0 & ls0 & lb0 & Oo0 & OA0 & OH0 & OS0 & El).
  assert (Ila0 : incl la0 R) by (intros y Iy; apply I; rewrite El, !in_app_iff; tauto).
  assert (Cm : op_comm (so_op s) = true).
  { destruct Oo0 as [(_ & E1 & E2 & _)|(C & _)]; [|exact C]. rewrite E2 in Er. discriminate. }
  assert (Ilo0 : incl lo0 R) by (intros y Iy; apply I; rewrite El, !in_app_iff; tauto).
  destruct (op_deref _ _ h R Oo0 Cm H Ilo0) as (Dx & Db). rewrite Dx, Db in Er. cbn [bind] in Er.
  destruct (op_deref _ _ h' R' Oo ltac:(congruence) H' Io) as (Dx' & Db'). unfold sol_mult. rewrite Dx', Db'. cbn [bind].
  (** the matrix *)
  assert (Dmat : forall A, mat_deref h (so_A s) = Ok A -> A = mo_val (so_A s) /\ mat_deref h' (so_A n) = Ok (pm_copy reorder A) /\ mo_val (so_A n) = pm_copy reorder A).
  { intros A EA. assert (NA : mo_A (so_A s) <> Null) by (intros E; unfold mat_deref in EA; rewrite E in EA; discriminate).
    rewrite (mat_deref_in _ _ h R OA0 H Ila0 NA) in EA. injection EA as <-. split; [reflexivity|].
    assert (EV' : mo_val (so_A n) = pm_copy reorder (mo_val (so_A s))) by (destruct (mo_A (so_A s)); [contradiction|assumption|assumption]).
    split; [|exact EV']. rewrite (mat_deref_in _ _ h' R' OA H' Ia) by tauto. now rewrite EV'. }
  destruct (class_eqb c Smoother) eqn:Ec.
  - assert (c = Smoother) by (now destruct c). subst c. cbn match in *. destruct (ES eq_refl) as (a & Sm).
    match type of Er with bind ?m _ = _ => destruct m as [d|]; [cbn [bind] in Er|discriminate] end.
    destruct (mat_deref h (so_A s)) as [A|] eqn:EA; [|discriminate]. cbn [bind] in Er. destruct (Dmat A eq_refl) as (_ & DA & _).
    destruct (negb (zlen (sm_norms (so_smooth s)) =? 0)) eqn:En; [|discriminate]. cbn [assert_ bind] in Er. injection Er as <-.
    destruct OS as [(E & _)|(a' & E & _ & ->)]; [rewrite Sm in E; discriminate|]. rewrite E, (holds_deref h' R' _ _ H' (Ib _ (or_introl eq_refl))). cbn [bind]. rewrite DA. cbn [bind].
    rewrite Sm. cbn [sm_norms sm_type sm_times sm_weight sm_omega]. rewrite En. reflexivity.
  - assert (Er' : match so_solve s with
        | FnNone => Ok ReqNone
        | FnDiag => A <- mat_deref h (so_A s) ;; Ok (ReqDiag A b)
        | FnGarbage => Fail FUB
        | f => A <- mat_deref h (so_A s) ;; o <- deref h (so_solver s) ;;
          match o with
          | HSolver t => if fn_eqb (hs_kind t) f then match hs_for t with Some _ => Ok (ReqSolve t A b) | None => Fail FUB end else Fail FUB
          | _ => Fail FUB
          end
        end = Ok r) by (destruct c; first [exact Er|discriminate Ec]).
    enough (Goal' : match so_solve n with
        | FnNone => Ok ReqNone
        | FnDiag => A <- mat_deref h' (so_A n) ;; Ok (ReqDiag A b)
        | FnGarbage => Fail FUB
        | f => A <- mat_deref h' (so_A n) ;; o <- deref h' (so_solver n) ;;
          match o with
          | HSolver t => if fn_eqb (hs_kind t) f then match hs_for t with Some _ => Ok (ReqSolve t A b) | None => Fail FUB end else Fail FUB
          | _ => Fail FUB
          end
        end = copied reorder c r) by (destruct c; first [exact Goal'|discriminate Ec]).
    rewrite F4. clear Er.
    (** the families *)
    assert (Fam : so_solve s = FnNone \/ so_solve s = FnDiag \/ exists a t, so_solver s = Live a /\ In (a, HSolver t) ls0 /\ hs_kind t = so_solve s /\ (so_solve s = FnAMG \/ so_solve s = FnPCG \/ so_solve s = FnSails) /\ (so_solve s <> FnSails -> so_create s = so_solve s) /\ (so_solve s = FnSails -> so_create s = FnNone /\ c = Sails)).
    { destruct OH0 as [(_ & _ & [F|(F & _)])|(a & t & Es & -> & _ & F)].
      - injection F as _ _ _ ->. now left.
      - injection F as _ _ _ ->. right. now left.
      - right. right. exists a, t. split; [exact Es|]. split; [now left|]. destruct F as [(Ek & F)|[(Ek & F)|(Ek & F & Ecl)]]; injection F as E1 E2 E3 E4; rewrite E4, E1; split; try assumption; repeat split; auto; try discriminate; intros; contradiction || congruence. }
    destruct Fam as [Fs|[Fs|(a & t & Es & It & Ek & Fs & Fc & Fsails)]].
    + rewrite Fs in *. injection Er' as <-. reflexivity.
    + rewrite Fs in *. destruct (mat_deref h (so_A s)) as [A|] eqn:EA; [|discriminate]. cbn [bind] in Er'. injection Er' as <-. destruct (Dmat A eq_refl) as (_ & -> & _). reflexivity.
    + assert (It' : In (a, HSolver t) R) by (apply I; rewrite El, !in_app_iff; tauto).
      rewrite Es, (holds_deref h R _ _ H It') in Er'.
      assert (Er2 : exists A, mat_deref h (so_A s) = Ok A /\ r = ReqSolve t A b).
      { destruct (mat_deref h (so_A s)) as [A|] eqn:EA; [|destruct Fs as [Fs|[Fs|Fs]]; rewrite Fs in Er'; discriminate]. exists A. split; [reflexivity|].
        destruct Fs as [Fs|[Fs|Fs]]; rewrite Fs in Er'; cbn [bind] in Er'; rewrite Ek, Fs in Er'; cbn [fn_eqb] in Er'; destruct (hs_for t); try discriminate; now injection Er' as <-. }
      destruct Er2 as (A & EA & ->). destruct (Dmat A EA) as (_ & DA & EV'). cbn [copied].
      destruct EH as [([(E1 & Ep & _)|(E1 & a' & Ep & El')] & NCG)|(Ecg & a' & Ep & El')].
      * (** the pointer of the copy is null *) rewrite DA, Ep. cbn [deref bind].
        assert (Hf : so_solve s = FnSails) by (destruct Fs as [Fs|[Fs|Fs]]; [|now rewrite <- Fc in Fs by congruence; congruence|exact Fs]; exfalso; rewrite <- Fc in Fs by congruence; congruence).
        destruct (Fsails Hf) as (_ & ->). now rewrite Hf.
      * rewrite DA, Ep. rewrite (holds_deref h' R' a' _ H' ltac:(apply Is; rewrite El'; now left)). cbn [bind hs_kind hs_for].
        destruct (class_eqb c CG) eqn:Ecg.
        -- assert (Q : c = CG) by (now destruct c). rewrite (NCG Q) in Ep. discriminate.
        -- destruct c; try discriminate Ecg; destruct Fs as [Fs|[Fs|Fs]]; rewrite Fs; destruct (fn_eqb _ _); reflexivity.
      * subst c. rewrite DA, Ep. rewrite (holds_deref h' R' a' _ H' ltac:(apply Is; rewrite El'; now left)). cbn [bind hs_kind hs_for].
        assert (Hf : so_solve s <> FnSails) by (intros Hf; destruct (Fsails Hf) as (_ & Q); discriminate). rewrite (Fc Hf), EV', Ek.
        destruct Fs as [Fs|[Fs|Fs]]; [| |contradiction]; rewrite Fs; reflexivity.
Qed.

Lemma copy_solver (e : env) os h i c s : reach e (os, h) -> look os i = Ok (OSol c s) -> copyable (OSol c s) ->
  exists n h', lstep e (os, h) (LCopy i) = Ok (os ++ [Some (OSol c n)], h') /\
    forall b x r, sol_mult c s h b x = Ok r -> sol_mult c n h' b x = copied (e_reorder e) c r.
Proof.
  intros Rc E K. destruct (reach_inv _ _ Rc) as (ls & I). destruct (inv_at _ _ _ _ _ I E) as (O & Ic & _). destruct I as (_ & _ & H). cbn [snd] in H.
  destruct (sol_copy_ok (e_reorder e) c s _ h _ O K H) as (n & h' & lo & la & lh & lb & E1 & Oo & OA & OH & OS & H' & CO).
  exists n, h'. split.
  - unfold lstep. rewrite E. cbn [bind copy]. rewrite E1. reflexivity.
  - exact (copied_ok (e_reorder e) c s n _ lo la lh lb h _ h' O H Ic Oo OA OH OS H' CO).
Qed.

Lemma copy_mat (e : env) os h i m : reach e (os, h) -> look os i = Ok (OMat m) ->
  exists n h', lstep e (os, h) (LCopy i) = Ok (os ++ [Some (OMat n)], h') /\
    (mo_A m <> Null -> mat_deref h' n = Ok (pm_copy (e_reorder e) (mo_val m))) /\ (mo_A m = Null -> mo_A n = Null /\ mo_val n = mo_val m).
Proof.
  intros Rc E. destruct (reach_inv _ _ Rc) as (ls & I). destruct (inv_at _ _ _ _ _ I E) as (O & Ic & _). destruct I as (_ & _ & H). cbn [snd] in H.
  destruct (mat_copy_ok (e_reorder e) m _ h _ O H) as (n & h' & l' & E1 & O' & H' & EN & EV & _). exists n, h'. split; [|split].
  - unfold lstep. rewrite E. cbn [bind copy]. rewrite E1. reflexivity.
  - intros N. rewrite (mat_deref_ok n l' h' _ O' H') by tauto. rewrite EV. destruct (mo_A m); [contradiction|reflexivity|reflexivity].
  - intros N. split; [tauto|]. now rewrite N in EV.
Qed.

Lemma copy_vec (e : env) os h i v : reach e (os, h) -> look os i = Ok (OVec v) -> vo_p v <> Null ->
  exists n h', lstep e (os, h) (LCopy i) = Ok (os ++ [Some (OVec n)], h') /\ vec_deref h' n = Ok (b_val (vo_data v)) /\ b_val (vo_part n) = b_val (vo_part v) /\ vo_gsize n = vo_gsize v.
Proof.
  intros Rc E N. destruct (reach_inv _ _ Rc) as (ls & I). destruct (inv_at _ _ _ _ _ I E) as (O & Ic & _). destruct I as (_ & _ & H). cbn [snd] in H.
  destruct (vec_copy_ok v _ h _ O N H) as (n & h' & l' & E1 & O' & H' & Ed & Ep & Eg & Nn). exists n, h'. split; [|split; [|split; assumption]].
  - unfold lstep. rewrite E. cbn [bind copy]. rewrite E1. reflexivity.
  - rewrite (vec_deref_ok n l' h' _ O' H' Nn). now rewrite Ed.
Qed.

(* ---------------------------------------------------------------- constructed solvers *)

Lemma constructed (e : env) os h ls op c (P : solobj -> list (Z * hobj) -> Prop) (r : list T -> list T -> request) : inv (os, h) ls -> constructs e os h ls op c P ->
  (forall s l h' R, sol_owns c s l -> holds h' R -> incl l R -> P s l -> forall b x, sol_mult c s h' b x = Ok (r b x)) ->
  exists s h', lstep e (os, h) op = Ok (os ++ [Some (OSol c s)], h') /\ forall b x, sol_mult c s h' b x = Ok (r b x).
Proof.
  intros I (s & h' & l & E & O & H & Ps) M. exists s, h'. split; [exact E|]. exact (M s l h' _ O H (incl_app_l' _ _) Ps).
Qed.

Lemma amg_request (e : env) os h i m iter tol verbose : reach e (os, h) -> square os i -> look_mat os i = Ok m ->
  exists s h', lstep e (os, h) (LAMG i iter tol verbose) = Ok (os ++ [Some (OSol AMG s)], h') /\
    forall b x, sol_mult AMG s h' b x = Ok (let A := pm_copy (e_reorder e) (mo_val m) in ReqSolve (HSol FnAMG (amg_params (e_quarter e) iter tol verbose) (Some A) None) A b).
Proof.
  intros Rc K Em. destruct (reach_inv _ _ Rc) as (ls & I).
  apply (constructed e os h ls _ AMG _ (fun b _ => let A := pm_copy (e_reorder e) (mo_val m) in ReqSolve (HSol FnAMG (amg_params (e_quarter e) iter tol verbose) (Some A) None) A b) I (amg_step e os h ls i iter tol verbose m I K Em)).
  intros s l h' R O H Il P. apply (sol_mult_handle AMG s l h' R _ _ _ O ltac:(discriminate) H Il P). now left.
Qed.

Lemma cg_request (e : env) os h i m iter tol verbose : reach e (os, h) -> square os i -> look_mat os i = Ok m ->
  exists s h', lstep e (os, h) (LCG i iter tol verbose) = Ok (os ++ [Some (OSol CG s)], h') /\
    forall b x, sol_mult CG s h' b x = Ok (let A := pm_copy (e_reorder e) (mo_val m) in ReqSolve (HSol FnPCG (cg_params iter tol verbose) (Some A) None) A b).
Proof.
  intros Rc K Em. destruct (reach_inv _ _ Rc) as (ls & I).
  apply (constructed e os h ls _ CG _ (fun b _ => let A := pm_copy (e_reorder e) (mo_val m) in ReqSolve (HSol FnPCG (cg_params iter tol verbose) (Some A) None) A b) I (cg_step e os h ls i iter tol verbose m I K Em)).
  intros s l h' R O H Il P. apply (sol_mult_handle CG s l h' R _ _ _ O ltac:(discriminate) H Il P). right. now left.
Qed.

Lemma sails_request (e : env) os h i m verbose reuse sym load threshold filter levels : reach e (os, h) -> square os i -> look_mat os i = Ok m ->
  exists s h', lstep e (os, h) (LSails i verbose reuse sym load threshold filter levels) = Ok (os ++ [Some (OSol Sails s)], h') /\
    forall b x, sol_mult Sails s h' b x = Ok (let A := pm_copy (e_reorder e) (mo_val m) in
      ReqSolve (HSol FnSails (sails_params (e_trunc e) verbose reuse sym load threshold filter levels) (Some A) None) A b).
Proof.
  intros Rc K Em. destruct (reach_inv _ _ Rc) as (ls & I).
  apply (constructed e os h ls _ Sails _ (fun b _ => let A := pm_copy (e_reorder e) (mo_val m) in ReqSolve (HSol FnSails (sails_params (e_trunc e) verbose reuse sym load threshold filter levels) (Some A) None) A b) I (sails_step e os h ls i verbose reuse sym load threshold filter levels m I K Em)).
  intros s l h' R O H Il P. apply (sol_mult_handle Sails s l h' R _ _ _ O ltac:(discriminate) H Il P). right. now right.
Qed.

Lemma diag_request (e : env) os h i m iter tol verbose : reach e (os, h) -> square os i -> look_mat os i = Ok m ->
  exists s h', lstep e (os, h) (LDiag i iter tol verbose) = Ok (os ++ [Some (OSol Diag s)], h') /\
    forall b x, sol_mult Diag s h' b x = Ok (ReqDiag (pm_copy (e_reorder e) (mo_val m)) b).
Proof.
  intros Rc K Em. destruct (reach_inv _ _ Rc) as (ls & I).
  apply (constructed e os h ls _ Diag _ (fun b _ => ReqDiag (pm_copy (e_reorder e) (mo_val m)) b) I (diag_step e os h ls i iter tol verbose m I K Em)).
  intros s l h' R O H Il P. apply (sol_mult_diag Diag s l h' R _ O ltac:(discriminate) H Il P).
Qed.

Lemma smoother_request (e : env) os h i m type times weight omega norms st : reach e (os, h) -> square os i -> look_mat os i = Ok m ->
  l1_norms (e_half e) (e_ratio e) type (pm_copy (e_reorder e) (mo_val m)) [] = Ok (norms, st) -> norms <> [] ->
  exists s h', lstep e (os, h) (LSmooth i type times weight omega) = Ok (os ++ [Some (OSol Smoother s)], h') /\
    forall b x, sol_mult Smoother s h' b x = Ok (ReqRelax type times norms weight omega (pm_copy (e_reorder e) (mo_val m)) b x).
Proof.
  intros Rc K Em EN N. destruct (reach_inv _ _ Rc) as (ls & I).
  apply (constructed e os h ls _ Smoother _ (fun b x => ReqRelax type times norms weight omega (pm_copy (e_reorder e) (mo_val m)) b x) I (smooth_step e os h ls i type times weight omega m norms st I K Em EN)).
  intros s l h' R O H Il P. apply (sol_mult_smoother s l h' R _ _ _ _ _ _ O H Il P N).
Qed.

(* ---------------------------------------------------------------- failures *)

Lemma set_look os i (o : option obj) x : look os i = Ok x -> set os i o = Ok (upd os (Z.to_nat i) o).
Proof. intros E. apply look_inv in E. apply set_ok. lia. Qed.

Lemma look_upd os i (o x : obj) l : look os i = Ok x -> look (upd os (Z.to_nat i) (Some o) ++ l) i = Ok o.
Proof.
  intros E. apply look_inv in E. destruct E as (Hi & _). pose proof (zlen_nonneg l). apply look_ok; [rewrite zlen_app, zlen_upd; lia|]. rewrite zn_app_l by (rewrite zlen_upd; lia). rewrite zn_upd by lia. now rewrite Z.eqb_refl.
Qed.

Lemma look_last os (o : obj) : look (os ++ [Some o]) (zlen os) = Ok o.
Proof.
  pose proof (zlen_nonneg os). apply look_ok; [rewrite zlen_app; change (zlen [Some o]) with 1; lia|]. rewrite zn_app_r by lia. now rewrite Z.sub_diag.
Qed.

Lemma move_base_breaks (e : env) os h i c s : look os i = Ok (OSol c s) -> c = Base \/ c = Smoother ->
  exists os' h', lstep e (os, h) (LMove i) = Ok (os', h') /\ look os' (zlen os) = Ok (OSol c s) /\ lstep e (os', h') (LDestroy i) = Fail FUB.
Proof.
  intros E Hc. pose proof (look_inv _ _ _ E) as (Hi & _). unfold lstep at 1. rewrite E. cbn [bind move]. unfold sol_move. destruct (sol_default h) as (n, h') eqn:Ed.
  assert (En : sm_shell (so_smooth n) = Null) by (unfold sol_default in Ed; injection Ed as <- _; reflexivity).
  destruct Hc as [->| ->].
  - rewrite sol_swap_eq. rewrite (set_look os i _ _ E). cbn [bind]. eexists _, _. split; [reflexivity|]. split.
    + match goal with |- look (?u ++ _) _ = _ => replace (zlen os) with (zlen u) by (now rewrite zlen_upd) end. apply look_last.
    + unfold lstep. rewrite (look_upd os i _ _ _ E). cbn [bind destroy]. unfold sol_destroy. cbn [so_smooth so_destroy so_solver]. rewrite En. reflexivity.
  - rewrite sol_swap_eq. rewrite (set_look os i _ _ E). cbn [bind]. eexists _, _. split; [reflexivity|]. split.
    + match goal with |- look (?u ++ _) _ = _ => replace (zlen os) with (zlen u) by (now rewrite zlen_upd) end. apply look_last.
    + unfold lstep. rewrite (look_upd os i _ _ _ E). reflexivity.
Qed.

Lemma copy_sails_breaks (e : env) os h i s a : reach e (os, h) -> look os i = Ok (OSol Sails s) -> so_solver s = Live a -> so_destroy s = FnSails ->
  exists n h', lstep e (os, h) (LCopy i) = Ok (os ++ [Some (OSol Sails n)], h') /\ lstep e (os ++ [Some (OSol Sails n)], h') (LDestroy (zlen os)) = Fail FUB.
Proof.
  intros Rc E Es Ed. destruct (reach_inv _ _ Rc) as (ls & I). destruct (inv_at _ _ _ _ _ I E) as (O & Ic & _). destruct I as (_ & _ & H). cbn [snd] in H.
  destruct O as (lo0 & la0 & ls0 & lb0 & Oo & OA & OH & OS & _).
  assert (F : family s = (FnNone, FnSails, FnSails, FnSails)).
  { destruct OH as [(Es' & _)|(a' & t & _ & _ & _ & [(_ & F)|[(_ & F)|(_ & F & _)]])]; [congruence| | |exact F]; injection F as _ F _ _; congruence. }
  injection F as F1 F2 F3 F4.
  unfold lstep at 1. rewrite E. cbn [bind copy]. unfold sol_copy, base_copy.
  destruct (op_copy_ok _ _ h _ Oo H) as (o & h1 & lo & -> & _ & H1 & _). cbn [bind].
  destruct (mat_copy_ok (e_reorder e) _ _ h1 _ OA H1) as (A & h2 & la & -> & _). cbn [bind]. rewrite F1. cbn [call_create bind].
  eexists _, h2. split; [reflexivity|]. unfold lstep. rewrite look_last. cbn [bind destroy]. unfold sol_destroy. cbn [so_smooth so_destroy so_solver no_smooth sm_shell destroy_vector bind]. rewrite F2. reflexivity.
Qed.

Lemma copy_default_vec (e : env) os h : exists v h', lstep e (os, h) LVec0 = Ok (os ++ [Some (OVec v)], h') /\ lstep e (os ++ [Some (OVec v)], h') (LCopy (zlen os)) = Fail FUB.
Proof.
  eexists _, _. split; [reflexivity|]. unfold lstep. rewrite look_last. reflexivity.
Qed.

Lemma copy_default_smoother (e : env) os h : exists s h', lstep e (os, h) (LSol0 Smoother) = Ok (os ++ [Some (OSol Smoother s)], h') /\ lstep e (os ++ [Some (OSol Smoother s)], h') (LCopy (zlen os)) = Fail FAssert.
Proof.
  eexists _, _. split; [reflexivity|]. unfold lstep. rewrite look_last. reflexivity.
Qed.

Lemma grown_vec l part (h : heap) v h' n : vec_make l part h = Ok (v, h') -> zlen l < n ->
  let '(v2, h2) := vec_set_size v n h' in b_val (vo_data v2) = resize l n s0 /\ vec_deref h2 v2 = Fail FUB.
Proof.
  unfold vec_make. intros E Hn. destruct (pv_init (zlen l) part) as [g|]; [|discriminate]. cbn [bind store] in E. unfold vec_create in E. cbn [vo_comm vo_gsize new_obj vo_part vo_data] in E. injection E as <- <-.
  unfold vec_set_size. cbn [vo_data b_val]. destruct (Z.leb_spec n (zlen l)); [lia|]. cbn [store h_objs h_next vo_data b_val]. split; [reflexivity|].
  unfold vec_deref. cbn [vo_p deref h_objs]. pose proof (zlen_nonneg (h_objs h)). rewrite (get_ok None) by (rewrite zlen_app; change (zlen [Some (HVector (h_next h + 1) (Some (h_next h)))]) with 1; lia). rewrite zn_app_r by lia. rewrite Z.sub_diag. cbn [zn].
  change (zn None [Some (HVector (h_next h + 1) (Some (h_next h)))] 0) with (Some (@HVector S (h_next h + 1) (Some (h_next h)))). cbn [bind vo_part b_id vo_data].
  destruct (Z.eqb_spec (h_next h) (h_next h + 1 + 1)); [lia|]. now rewrite andb_false_r.
Qed.

(* ---------------------------------------------------------------- preconditioners *)

(** The constructor ParCG(A, M, ...): what is solved with which preconditioner *)
Lemma cg_precond_ok (e : env) os h i m M iter tol verbose : reach e (os, h) -> square os i -> look_mat os i = Ok m ->
  exists A h1 s h2, mat_copy (e_reorder e) m h = Ok (A, h1) /\ cg_make_precond A M iter tol verbose h1 = Ok (s, h2) /\
    forall b x, sol_mult CG s h2 b x = Ok (let A' := pm_copy (e_reorder e) (mo_val m) in
      ReqSolve (HSol FnPCG (cg_params iter tol verbose) (Some A') (Some (SetupOf (so_setup M), SolveOf (so_solve M), so_solver M))) A' b).
Proof.
  intros Rc K Em. destruct (reach_inv _ _ Rc) as (ls & I).
  destruct (square_copy e os h ls i I K) as (m' & A & h1 & la & E & E1 & OA & MA & H1 & EV). assert (m' = m) by congruence. subst m'.
  destruct (cg_make_ok A la iter tol verbose h1 _ OA MA H1) as (s & h2 & lo & a & E2 & Oo & (EA & _ & _ & _ & EF & Cm & _) & Es & Sm & H2).
  destruct (holds_update FnPCG (with_precond (SetupOf (so_setup M), SolveOf (so_solve M), so_solver M)) h2 a _ _ H2 eq_refl) as (h3 & E3 & H3).
  exists A, h1, s, h3. split; [exact E1|]. unfold cg_make_precond. rewrite E2. cbn [bind]. rewrite Es, E3. cbn [bind]. split; [reflexivity|].
  intros b x. unfold sol_mult. injection EF as F1 F2 F3 F4. subst A.
  destruct (op_deref _ _ h3 _ Oo Cm H3) as (Dx & Db). { intros y Iy. right. cbn [app]. rewrite !in_app_iff. tauto. }
  rewrite Dx, Db. cbn [bind]. rewrite F4, (mat_deref_in _ _ h3 _ OA H3) by (try apply MA; intros y Iy; right; cbn [app]; rewrite !in_app_iff; tauto).
  rewrite Es, (holds_deref h3 _ a _ H3 (or_introl eq_refl)), EV. reflexivity.
Qed.

Lemma cg_diag_ok (e : env) os h k s t A b x : reach e (os, h) -> look os k = Ok (OSol CG s) -> sol_mult CG s h b x = Ok (ReqSolve t A b) -> hs_kind t = FnPCG ->
  exists h', cg_diag_scaling s h = Ok h' /\ forall b x, sol_mult CG s h' b x = Ok (ReqSolve (HSol FnPCG (hs_set t) (hs_for t) (Some (SolveOf FnDiag, SetupOf FnDiag, Null))) A b).
Proof.
  intros Rc E Er Ek. destruct (reach_inv _ _ Rc) as (ls & I). destruct (inv_at _ _ _ _ _ I E) as (O & Ic & _). destruct I as (_ & _ & H). cbn [snd] in H.
  unfold sol_mult in Er. destruct (deref h (op_b (so_op s))) as [db|] eqn:Db; [|discriminate]. destruct (deref h (op_x (so_op s))) as [dx|] eqn:Dx; [|discriminate]. cbn [bind] in Er.
  pose proof O as (lo & la & lh & lb & Oo & OA & OH & OS & El).
  assert (Cm : op_comm (so_op s) = true). { destruct Oo as [(_ & E1 & E2 & _)|(C & _)]; [|exact C]. rewrite E2 in Db. discriminate. }
  destruct OH as [(_ & _ & [F|(F & _)])|(a & t' & Es & Elh & NA & F)].
  - injection F as _ _ _ F. rewrite F in Er. discriminate.
  - injection F as _ _ _ F. rewrite F in Er. destruct (mat_deref h (so_A s)); discriminate.
  - assert (Ia : incl la (concat ls)) by (intros y Iy; apply Ic; rewrite El, !in_app_iff; tauto).
    assert (It : In (a, HSolver t') (concat ls)) by (apply Ic; rewrite El, Elh, !in_app_iff; cbn; tauto).
    rewrite (mat_deref_in _ _ h _ OA H Ia NA), Es, (holds_deref h _ _ _ H It) in Er.
    assert (Et : t' = t /\ mo_val (so_A s) = A /\ hs_for t <> None).
    { destruct F as [(K & F)|[(K & F)|(K & F & _)]]; injection F as _ _ _ F; rewrite F in Er; cbn [bind] in Er; rewrite K in Er; cbn [fn_eqb] in Er; destruct (hs_for t') eqn:Ef; try discriminate; injection Er as -> ->; repeat split; congruence. }
    destruct Et as (-> & EV & Nf).
    destruct F as [(K & F)|[(_ & F)|(K & F & _)]]; [congruence| |congruence]. injection F as F1 F2 F3 F4.
    destruct (in_split _ _ It) as (R1 & R2 & ER).
    assert (P : Permutation (concat ls) ((a, HSolver t) :: R1 ++ R2)) by (rewrite ER; apply Permutation_sym, Permutation_middle).
    destruct (holds_update FnPCG (with_precond (SolveOf FnDiag, SetupOf FnDiag, Null)) h a t (R1 ++ R2) (holds_perm _ _ _ H P) Ek) as (h' & EU & H').
    exists h'. unfold cg_diag_scaling. rewrite Es. split; [exact EU|]. intros b' x'.
    (** the other handles are different objects *)
    assert (Keep : forall id o, In (id, o) (concat ls) -> (match o with HSolver _ => False | _ => True end) -> deref h' (Live id) = Ok o).
    { intros id o Io Ho. apply (holds_deref h' _ id o H'). right. apply (Permutation_in _ P) in Io. destruct Io as [Io|Io]; [injection Io as _ <-; contradiction|exact Io]. }
    unfold sol_mult.
    destruct Oo as [(C & _)|(_ & _ & _ & xa & xb & Ex & Eb & Elo)]; [congruence|].
    rewrite Eb, (Keep xb (HVector (b_id (op_cs (so_op s))) None)) by (try exact Logic.I; apply Ic; rewrite El, Elo, !in_app_iff; cbn; tauto). cbn [bind].
    rewrite Ex, (Keep xa (HVector (b_id (op_rs (so_op s))) None)) by (try exact Logic.I; apply Ic; rewrite El, Elo, !in_app_iff; cbn; tauto). cbn [bind].
    assert (Dm : mat_deref h' (so_A s) = Ok (mo_val (so_A s))).
    { destruct OA as (lo' & _ & [(EA & _)|(am & EA & _ & Ela)]); [contradiction|]. unfold mat_deref. rewrite EA, (Keep am (mo_view (so_A s))); [cbn [bind]; unfold mo_view; now rewrite !Z.eqb_refl|apply Ic; rewrite El, Ela, !in_app_iff; cbn; tauto|exact Logic.I]. }
    rewrite F4, Dm, Es, (holds_deref h' _ a _ H' (or_introl eq_refl)), EV. unfold with_precond. cbn [bind hs_kind hs_set hs_for]. rewrite Ek. cbn [fn_eqb]. destruct (hs_for t) eqn:Ef; [reflexivity|contradiction].
Qed.


Lemma copy_diag (e : env) os h i s A : reach e (os, h) -> look os i = Ok (OSol Diag s) -> (forall b x, sol_mult Diag s h b x = Ok (ReqDiag A b)) ->
  exists n h', lstep e (os, h) (LCopy i) = Ok (os ++ [Some (OSol Diag n)], h') /\ forall b x, sol_mult Diag n h' b x = Ok (ReqDiag (pm_copy (e_reorder e) A) b).
Proof.
  intros Rc E M. destruct (copy_solver e os h i Diag s Rc E Logic.I) as (n & h' & E1 & C). exists n, h'. split; [exact E1|]. intros b x. exact (C b x _ (M b x)).
Qed.

Lemma copy_smoother (e : env) os h i s type times norms weight omega A : reach e (os, h) -> look os i = Ok (OSol Smoother s) ->
  (forall b x, sol_mult Smoother s h b x = Ok (ReqRelax type times norms weight omega A b x)) ->
  exists n h', lstep e (os, h) (LCopy i) = Ok (os ++ [Some (OSol Smoother n)], h') /\
    forall b x, sol_mult Smoother n h' b x = Ok (ReqRelax type times norms weight omega (pm_copy (e_reorder e) A) b x).
Proof.
  intros Rc E M.
  assert (K : copyable (OSol Smoother s)).
  { cbn. intros N. specialize (M [] []). unfold sol_mult in M. rewrite N in M. destruct (deref h (op_b (so_op s))); [|discriminate]. destruct (deref h (op_x (so_op s))); discriminate. }
  destruct (copy_solver e os h i Smoother s Rc E K) as (n & h' & E1 & C). exists n, h'. split; [exact E1|]. intros b x. exact (C b x _ (M b x)).
Qed.

Lemma copy_amg_breaks (e : env) os h i s b x t A b' : reach e (os, h) -> look os i = Ok (OSol AMG s) -> sol_mult AMG s h b x = Ok (ReqSolve t A b') ->
  exists n h', lstep e (os, h) (LCopy i) = Ok (os ++ [Some (OSol AMG n)], h') /\ sol_mult AMG n h' b x = Fail FUB.
Proof.
  intros Rc E M. destruct (copy_solver e os h i AMG s Rc E Logic.I) as (n & h' & E1 & C). exists n, h'. split; [exact E1|]. exact (C b x _ M).
Qed.

Lemma copy_cg_forgets (e : env) os h i s b x t A b' : reach e (os, h) -> look os i = Ok (OSol CG s) -> sol_mult CG s h b x = Ok (ReqSolve t A b') ->
  exists n h', lstep e (os, h) (LCopy i) = Ok (os ++ [Some (OSol CG n)], h') /\
    sol_mult CG n h' b x = Ok (let A' := pm_copy (e_reorder e) A in ReqSolve (HSol (hs_kind t) [] (Some A') None) A' b').
Proof.
  intros Rc E M. destruct (copy_solver e os h i CG s Rc E Logic.I) as (n & h' & E1 & C). exists n, h'. split; [exact E1|]. exact (C b x _ M).
Qed.

Lemma cg_precond_swapped (e : env) os h i m M iter tol verbose : reach e (os, h) -> square os i -> look_mat os i = Ok m ->
  exists A h1 s h2, mat_copy (e_reorder e) m h = Ok (A, h1) /\ cg_make_precond A M iter tol verbose h1 = Ok (s, h2) /\
    forall b x, exists t A', sol_mult CG s h2 b x = Ok (ReqSolve t A' b) /\
      hs_pre t = Some (SetupOf (so_setup M), SolveOf (so_solve M), so_solver M) /\ hs_pre t <> Some (SolveOf (so_solve M), SetupOf (so_setup M), so_solver M).
Proof.
  intros Rc K Em. destruct (cg_precond_ok e os h i m M iter tol verbose Rc K Em) as (A & h1 & s & h2 & E1 & E2 & R). exists A, h1, s, h2. split; [exact E1|]. split; [exact E2|].
  intros b x. rewrite R. eexists _, _. split; [reflexivity|]. split; [reflexivity|discriminate].
Qed.

End Links.
