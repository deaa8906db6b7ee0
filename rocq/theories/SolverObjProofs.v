(** Programs on solver objects see what the programs on handles see (C107). *)

From Coq Require Import ZArith List Bool Lia.
From Verif Require Import Base Scalar Spec LoopFacts Block Solver SolverSpec SolverProofs SolverMinres SolverMore SolverReuse
  Life LifeProofs SolverObj SolverObjSpec.
Import ListNotations.
Open Scope Z_scope.

Section Refine.
Context {S : scalar}.
Notation T := (car S).
Context (root : T -> T) (floor : T) (dots : list (dotp S)) (size : Z -> Z * Z).
Notation ops := (memory_of_ops S).

Section Generic.
Context {O : Type} (K : skind S O) (c : method).
Context (vm : O -> option Z) (core : Z -> O -> Prop).

Definition hview (b : sobj S) (M : option Z) : handle S :=
  Handle (so_rows b) (so_A b) M (so_dot b) (so_max b) (so_rel b) (so_abs b) (so_verbose b) (so_num b).
Definition view (o : O) : handle S := hview (sk_base K o) (vm o).
Definition inv (o : O) : Prop :=
  let b := sk_base K o in
  so_cols b = so_rows b /\ 0 <= so_rows b /\
  (forall a, so_A b = Some a -> size a = (so_rows b, so_rows b) /\ core (so_rows b) o).
Definition all_inv (st : list O) : Prop := forall o, In o st -> inv o.

Record refines : Prop := {
  r_swap : forall a b, k_swap (sk_class K) a b = (b, a);
  r_copy : forall o, inv o -> k_copy (sk_class K) o = Ok o;
  r_fresh : sk_base K (k_fresh (sk_class K)) = so_new /\ vm (k_fresh (sk_class K)) = None;
  r_put : forall o b, sk_base K (sk_put K o b) = b /\ vm (sk_put K o b) = vm o /\ (forall n, core n o -> core n (sk_put K o b));
  r_make : forall m a M max rel abs verbose d, good_ops size m -> takes c M ->
    match construct m a M max rel abs verbose d with
    | Ok h => exists o, sk_make K m a M max rel abs verbose d = Ok o /\ view o = h /\ inv o
    | Fail e => sk_make K m a M max rel abs verbose d = Fail e
    end;
  r_mult : forall m o b x, good_ops size m -> inv o ->
    match solve root floor dots c m (view o) b x with
    | Ok (x', k) => exists o', sk_mult K m o b x = Ok (o', x') /\ sk_base K o' = so_count (sk_base K o) k /\ vm o' = vm o /\
                      core (so_rows (sk_base K o)) o'
    | Fail e => sk_mult K m o b x = Fail e
    end;
  r_torn : forall m o b x t, good_ops size m -> inv o -> sk_mult K m o b x = Fail FThrow ->
    sk_base K (sk_torn K o t) = so_count (sk_base K o) (fst t) /\ vm (sk_torn K o t) = vm o /\
    core (so_rows (sk_base K o)) (sk_torn K o t)
}.
Context (R : refines).

Definition agrees (sp : res (ops * list (handle S) * list (out S))) (im : res (ops * list O * list (out S))) : Prop :=
  match sp with
  | Ok (m, hs, r) => exists st, im = Ok (m, st, r) /\ map view st = hs /\ good_ops size m /\ all_inv st
  | Fail e => im = Fail e
  end.

Lemma all_inv_app st o : all_inv st -> inv o -> all_inv (st ++ [o]).
Proof. intros H Ho x Hx. apply in_app_or in Hx. destruct Hx as [Hx|[<-|[]]]; [exact (H x Hx)|exact Ho]. Qed.

Lemma all_inv_set st x o st' : all_inv st -> inv o -> set st x o = Ok st' -> all_inv st'.
Proof. intros H Ho E. apply set_Ok_inv in E. destruct E as (_ & ->). intros y Hy. apply In_upd in Hy. destruct Hy as [->|Hy]; auto. Qed.

Lemma agrees_push m st o h r : good_ops size m -> all_inv st -> inv o -> view o = h ->
  agrees (Ok (m, map view st ++ [h], r)) (Ok (m, st ++ [o], r)).
Proof. intros Hm Hs Ho <-. exists (st ++ [o]). rewrite map_app. auto using all_inv_app. Qed.

Lemma agrees_set m st x o h r : good_ops size m -> all_inv st -> inv o -> view o = h ->
  agrees (hs <- set (map view st) x h ;; Ok (m, hs, r)) (st <- set st x o ;; Ok (m, st, r)).
Proof.
  intros Hm Hs Ho <-. rewrite set_map. destruct (set st x o) as [st'|e] eqn:E; cbn [bind agrees]; [|reflexivity].
  exists st'. eauto using all_inv_set.
Qed.

Lemma inv_fresh : inv (k_fresh (sk_class K)) /\ view (k_fresh (sk_class K)) = blank.
Proof.
  unfold inv, view. destruct (r_fresh R) as (-> & ->). split; [|reflexivity]. cbn. split; [reflexivity|]. split; [lia|]. discriminate.
Qed.

Lemma inv_put o b : inv o -> so_rows b = so_rows (sk_base K o) -> so_cols b = so_cols (sk_base K o) -> so_A b = so_A (sk_base K o) ->
  inv (sk_put K o b) /\ view (sk_put K o b) = hview b (vm o).
Proof.
  intros (H1 & H2 & H3) E1 E2 E3. destruct (r_put R o b) as (Eb & Ev & Hc). unfold inv, view. rewrite Eb, Ev. split; [|reflexivity].
  rewrite E1, E2, E3. split; [exact H1|]. split; [exact H2|]. intros a Ha. destruct (H3 a Ha). auto.
Qed.

Lemma agrees_setter m st x (f : sobj S -> sobj S) (g : handle S -> handle S) : good_ops size m -> all_inv st ->
  (forall b, so_rows (f b) = so_rows b /\ so_cols (f b) = so_cols b /\ so_A (f b) = so_A b) ->
  (forall b M, hview (f b) M = g (hview b M)) ->
  agrees (hs <- update (map view st) x (fun h => Ok (g h)) ;; Ok (m, hs, []))
         (st <- on_base K st x (fun b => Ok (f b)) ;; Ok (m, st, [])).
Proof.
  intros Hm Hs Hf Hg. unfold update, on_base. rewrite get_map. destruct (get st x) as [o|e] eqn:E; cbn [bind]; [|reflexivity].
  destruct (Hf (sk_base K o)) as (E1 & E2 & E3). 
  destruct (inv_put o (f (sk_base K o)) (Hs o (get_In _ _ _ E)) E1 E2 E3) as (Hi & Hv).
  apply agrees_set; auto. rewrite Hv, Hg. reflexivity.
Qed.

Lemma agrees_see m st x (f : sobj S -> out S) (g : handle S -> out S) : good_ops size m -> all_inv st ->
  (forall o, In o st -> f (sk_base K o) = g (view o)) ->
  agrees (h <- get (map view st) x ;; Ok (m, map view st, [g h])) (r <- see K st x f ;; Ok (m, st, r)).
Proof.
  intros Hm Hs Hf. unfold see. rewrite get_map. destruct (get st x) as [o|e] eqn:E; cbn [bind agrees]; [|reflexivity].
  exists st. rewrite (Hf o (get_In _ _ _ E)). auto.
Qed.

Lemma deref_at (m : ops) p : deref m p = operator_at m p.
Proof.
  unfold deref, operator_at. destruct (get m p) as [[A|]|e] eqn:E; cbn [bind]; try reflexivity.
  unfold get in E. destruct (p <? 0); [congruence|]. destruct (nth_error m (Z.to_nat p)); congruence.
Qed.

Lemma good_at (m : ops) p (A : op S unit) : good_ops size m -> operator_at m p = Ok A -> good_op (size p) (Some A).
Proof.
  intros Hm E. unfold operator_at in E. destruct (get m p) as [[B|]|] eqn:E1; try discriminate. injection E as <-. exact (Hm p _ E1).
Qed.

Lemma step_agrees m st p : good_ops size m -> all_inv st -> good_act c size p ->
  agrees (hstep root floor dots c (m, map view st) p) (astep K (m, st) p).
Proof.
  intros Hm Hs Hp. destruct inv_fresh as (Hf & Ef).
  destruct p as [|a M max rel abs vb d|y|y|x y|x y|x y|x v|x k|x t|x t|x a|x b v t|x|x|x|x|a B]; cbn [hstep astep].
  - apply agrees_push; auto.
  - pose proof (r_make R m a M max rel abs vb d Hm Hp) as H. destruct (construct m a M max rel abs vb d) as [h|e]; cbn [bind].
    + destruct H as (o & -> & Ev & Hi). cbn [bind]. apply agrees_push; auto.
    + now rewrite H.
  - unfold special. cbn [lstep]. rewrite get_map. destruct (get st y) as [o|e] eqn:E; cbn [bind]; [|reflexivity].
    pose proof (Hs o (get_In _ _ _ E)) as Hi. rewrite (r_copy R) by exact Hi. cbn [bind]. apply agrees_push; auto.
  - unfold special. cbn [lstep]. rewrite get_map. destruct (get st y) as [o|e] eqn:E; cbn [bind]; [|reflexivity].
    pose proof (Hs o (get_In _ _ _ E)) as Hi. unfold move_ctor. rewrite (r_swap R). rewrite <- Ef, set_map.
    destruct (set st y (k_fresh (sk_class K))) as [st'|e] eqn:E2; cbn [bind]; [|reflexivity].
    apply agrees_push; auto. eauto using all_inv_set.
  - unfold special. cbn [lstep]. rewrite get_map. destruct (get st y) as [o|e] eqn:E; cbn [bind]; [|reflexivity].
    pose proof (Hs o (get_In _ _ _ E)) as Hi. rewrite (r_copy R) by exact Hi. cbn [bind].
    destruct (get st x) as [o2|e2] eqn:E2; cbn [bind].
    + unfold assign_by. rewrite (r_swap R). cbn [fst]. apply agrees_set; auto.
    + rewrite set_map. assert (e2 = FUB) as -> by (unfold get in E2; destruct (x <? 0); [congruence|]; destruct (nth_error st (Z.to_nat x)); congruence).
      destruct (set st x o) as [st'|] eqn:E3; cbn [bind agrees].
      * apply set_Ok_inv in E3. destruct E3 as (E3 & _). now rewrite (get_ok (k_fresh (sk_class K))) in E2 by exact E3.
      * unfold set in E3. destruct (_ && _); congruence.
  - unfold special. cbn [lstep]. rewrite get_map. destruct (get st y) as [o|e] eqn:E; cbn [bind]; [|reflexivity].
    pose proof (Hs o (get_In _ _ _ E)) as Hi. unfold move_ctor. rewrite (r_swap R). rewrite <- Ef, set_map.
    destruct (set st y (k_fresh (sk_class K))) as [st'|e] eqn:E1; cbn [bind]; [|reflexivity].
    assert (Hs' : all_inv st') by eauto using all_inv_set.
    destruct (get st' x) as [o2|e2] eqn:E2; cbn [bind].
    + unfold assign_by. rewrite (r_swap R). cbn [fst]. apply agrees_set; auto.
    + rewrite set_map. assert (e2 = FUB) as -> by (unfold get in E2; destruct (x <? 0); [congruence|]; destruct (nth_error st' (Z.to_nat x)); congruence).
      destruct (set st' x o) as [st2|] eqn:E3; cbn [bind agrees].
      * apply set_Ok_inv in E3. destruct E3 as (E3 & _). now rewrite (get_ok (k_fresh (sk_class K))) in E2 by exact E3.
      * unfold set in E3. destruct (_ && _); congruence.
  - unfold special. cbn [lstep]. rewrite !get_map. destruct (get st x) as [o|e] eqn:E; cbn [bind]; [|reflexivity].
    destruct (get st y) as [o2|e] eqn:E2; cbn [bind]; [|reflexivity]. rewrite (r_swap R), set_map.
    pose proof (Hs o (get_In _ _ _ E)). pose proof (Hs o2 (get_In _ _ _ E2)).
    destruct (set st x o2) as [st'|e] eqn:E3; cbn [bind]; [|reflexivity]. apply agrees_set; eauto using all_inv_set.
  - apply (agrees_setter m st x (fun b => so_set_verbose b v)
      (fun h => Handle (h_n h) (h_A h) (h_M h) (h_dot h) (h_max h) (h_rel h) (h_abs h) v (h_last h))); auto.
  - apply (agrees_setter m st x (fun b => so_set_max b k)
      (fun h => Handle (h_n h) (h_A h) (h_M h) (h_dot h) k (h_rel h) (h_abs h) (h_verbose h) (h_last h))); auto.
  - apply (agrees_setter m st x (fun b => so_set_rel b t)
      (fun h => Handle (h_n h) (h_A h) (h_M h) (h_dot h) (h_max h) t (h_abs h) (h_verbose h) (h_last h))); auto.
  - apply (agrees_setter m st x (fun b => so_set_abs b t)
      (fun h => Handle (h_n h) (h_A h) (h_M h) (h_dot h) (h_max h) (h_rel h) t (h_verbose h) (h_last h))); auto.
  - unfold update, on_base. rewrite get_map. destruct (get st x) as [o|e] eqn:E; cbn [bind]; [|reflexivity].
    pose proof (Hs o (get_In _ _ _ E)) as Hi. unfold redirect, so_set_operator. rewrite deref_at.
    destruct (operator_at m a) as [A|e] eqn:EA; cbn [bind]; [|reflexivity].
    cbn [view hview h_A]. unfold deref_opt. destruct (so_A (sk_base K o)) as [p|] eqn:Ep; [|reflexivity]. rewrite deref_at.
    destruct (operator_at m p) as [old|e] eqn:Eo; cbn [bind]; [|reflexivity].
    destruct (o_rows A =? o_rows old) eqn:Q1; cbn [andb assert_ bind]; [|reflexivity].
    destruct (o_cols A =? o_cols old) eqn:Q2; cbn [andb assert_ bind]; [|reflexivity].
    destruct (good_at m a A Hm EA) as (EsA & _). destruct (good_at m p old Hm Eo) as (Eso & _).
    destruct Hi as (H1 & H2 & H3). destruct (H3 p Ep) as (H4 & H5).
    match goal with |- agrees _ (bind (set st x (sk_put K o ?b)) _) => destruct (r_put R o b) as (Eb & Ev & Hc) end.
    apply agrees_set; auto.
    + unfold inv. rewrite Eb. cbn [so_rows so_cols so_A]. split; [exact H1|]. split; [exact H2|]. intros a' [= <-]. split; [|apply Hc; exact H5].
      apply Z.eqb_eq in Q1, Q2. rewrite <- EsA, Q1, Q2, Eso. exact H4.
    + unfold view. rewrite Eb, Ev. reflexivity.
  - rewrite get_map. destruct (get st x) as [o|e] eqn:E; cbn [bind]; [|reflexivity].
    pose proof (Hs o (get_In _ _ _ E)) as Hi. pose proof (r_mult R m o b v Hm Hi) as H.
    destruct (solve root floor dots c m (view o) b v) as [[v' k]|e] eqn:Es.
    + destruct H as (o' & -> & Eb & Ev & Hc). apply agrees_set; auto; unfold inv, view; rewrite Eb; [|rewrite Ev; reflexivity].
      destruct Hi as (H1 & H2 & H3). cbn [so_count so_rows so_cols so_A]. split; [exact H1|]. split; [exact H2|].
      intros a Ha. split; [exact (proj1 (H3 a Ha))|exact Hc].
    + rewrite H. destruct e; try reflexivity.
      destruct (r_torn R m o b v t Hm Hi H) as (Eb & Ev & Hc). apply agrees_set; auto; unfold inv, view; rewrite Eb; [|rewrite Ev; reflexivity].
      destruct Hi as (H1 & H2 & H3). cbn [so_count so_rows so_cols so_A]. split; [exact H1|]. split; [exact H2|].
      intros a Ha. split; [exact (proj1 (H3 a Ha))|exact Hc].
  - apply (agrees_see m st x _ (fun h => OInt (h_last h))); auto.
  - apply (agrees_see m st x _ (fun h => OPtr (h_A h))); auto.
  - apply (agrees_see m st x _ (fun h => OInt (h_n h))); auto.
  - apply (agrees_see m st x _ (fun h => OInt (h_n h))); auto. intros o Ho. cbn [view hview h_n]. now rewrite (proj1 (Hs o Ho)).
  - destruct (set m a B) as [m'|e] eqn:E; cbn [bind agrees]; [|reflexivity]. exists st. split; [reflexivity|]. split; [reflexivity|].
    split; [|exact Hs]. apply set_Ok_inv in E. destruct E as (Ha & ->). intros a' o Ho.
    destruct (Z.eq_dec a' a) as [->|Hn].
    + apply (get_Ok_inv (@None (op S unit))) in Ho. destruct Ho as (_ & ->). rewrite zn_upd by lia. rewrite Z.eqb_refl. exact Hp.
    + apply Hm. rewrite <- Ho. pose proof Ho as Hg. apply (get_Ok_inv (@None (op S unit))) in Hg. destruct Hg as (Hr & _).
      rewrite zlen_upd in Hr. rewrite !(get_ok (@None (op S unit))) by (rewrite ?zlen_upd; lia). rewrite zn_upd by lia.
      destruct (Z.eqb_spec a' a); [contradiction|reflexivity].
Qed.

Lemma run_agrees ps : forall m st, good_ops size m -> all_inv st -> (forall p, In p ps -> good_act c size p) ->
  arun K (m, st) ps = hrun root floor dots c (m, map view st) ps.
Proof.
  induction ps as [|p ps IH]; intros m st Hm Hs Hp; cbn [arun hrun]; [reflexivity|].
  pose proof (step_agrees m st p Hm Hs (Hp p (or_introl eq_refl))) as H.
  destruct (hstep root floor dots c (m, map view st) p) as [[[m' hs] r]|e]; cbn [agrees] in H.
  - destruct H as (st' & -> & <- & Hm' & Hs'). rewrite (IH m' st' Hm' Hs'); [reflexivity|]. intros p' Hp'. apply Hp. now right.
  - now rewrite H.
Qed.

End Generic.

(* ---------------------------------------------------------------- the three classes *)

Context (Hd : good_dots dots).

Lemma dot_good d dot n : get dots d = Ok dot -> 0 <= n -> exists f, dot_gives dot n f.
Proof. intros E. exact (Hd dot (get_In _ _ _ E) n). Qed.

(** The operator a solver of n unknowns points to *)
Lemma square_at (m : ops) p (A : op S unit) n : good_ops size m -> operator_at m p = Ok A -> size p = (n, n) ->
  o_rows A = n /\ o_cols A = n /\ 0 <= n /\ exists fA, computes (fun _ => True) A n fA.
Proof.
  intros Hm E Es. destruct (good_at m p A Hm E) as (E1 & H0 & _ & Ha). rewrite Es in E1. injection E1 as E1 E2.
  split; [exact E1|]. split; [exact E2|]. split; [lia|]. destruct Ha as (fA & Ha); [congruence|]. exists fA. now rewrite E1 in Ha.
Qed.

Lemma op_copy_ok r s : 0 <= r -> 0 <= s -> op_copy r s = Ok tt.
Proof. intros H1 H2. unfold op_copy. apply Z.leb_le in H1, H2. rewrite H1, H2. reflexivity. Qed.

Lemma so_copy_ok (b : sobj S) : so_cols b = so_rows b -> 0 <= so_rows b -> so_copy b = Ok b.
Proof. intros E H. unfold so_copy. rewrite op_copy_ok by (rewrite ?E; exact H). now destruct b. Qed.

Lemma so_swap_ok (a b : sobj S) : so_swap a b = (b, a).
Proof. now destruct a, b. Qed.

(** Solver(A, ...) *)
Lemma so_make_case (m : ops) a (A : op S unit) max rel abs vb d : good_ops size m -> operator_at m a = Ok A ->
  if (o_rows A =? o_cols A) && (0 <=? max)
  then so_make floor A a max rel abs vb d = Ok (SObj (o_rows A) (o_cols A) (Some a) max vb rel abs (Some d) 0) /\
       solver_checks A (SParams max rel abs floor) = Ok tt
  else so_make floor A a max rel abs vb d = Fail FAssert.
Proof.
  intros Hm E. destruct (good_at m a A Hm E) as (_ & H1 & H2 & _). unfold so_make. rewrite op_copy_ok by assumption. cbn [bind].
  unfold so_par, solver_checks. cbn [so_max so_rel so_abs sp_max].
  destruct (0 <=? max); destruct (o_rows A =? o_cols A); cbn [assert_ bind andb]; auto.
Qed.

Definition pcg_vm (o : pcgobj S) : option Z := match pg_M o with Some M => M | None => None end.
Definition pcg_core (n : Z) (o : pcgobj S) : Prop := exists M, pg_M o = Some M /\ (forall p, M = Some p -> size p = (n, n)).


Lemma pcg_new_ok (A : op S unit) M par n : o_rows A = n -> o_cols A = n -> 0 <= n -> 0 <= sp_max par ->
  (forall P, M = Some P -> o_rows P = n /\ o_cols P = n) ->
  exists u, pcg_new A M par = Ok u.
Proof.
  intros E1 E2 H0 H1 HM. unfold pcg_new, solver_checks. rewrite E1, E2. apply Z.leb_le in H1. rewrite H1, Z.eqb_refl. cbn [assert_ bind].
  rewrite vec_ok by exact H0.
  destruct M as [P|]; cbn [bind]; [|eauto]. destruct (HM P eq_refl) as (-> & ->). rewrite Z.eqb_refl. cbn [assert_ bind]. eauto.
Qed.

Lemma minres_new_gives (A : op S unit) M par n : o_rows A = n -> o_cols A = n -> 0 <= n -> 0 <= sp_max par ->
  (forall P, M = Some P -> o_rows P = n /\ o_cols P = n) ->
  exists u, minres_new A M par = Ok u /\ mbuf_ok n u.
Proof.
  intros E1 E2 H0 H1 HM. unfold minres_new, solver_checks. rewrite E1, E2. apply Z.leb_le in H1. rewrite H1, Z.eqb_refl. cbn [assert_ bind].
  rewrite vec_ok by exact H0.
  assert (Hz : mbuf_ok n (MBuf (repeat s0 (Z.to_nat n)) (repeat s0 (Z.to_nat n)) (repeat s0 (Z.to_nat n)) (repeat s0 (Z.to_nat n))
                            (repeat s0 (Z.to_nat n)) (repeat (@s0 S) (Z.to_nat n)))).
  { refine (conj _ (conj _ _)); cbn [mb_w0 mb_w1 mb_v0]; rewrite zlen_repeat; lia. }
  destruct M as [P|]; cbn [bind]; [|eauto]. destruct (HM P eq_refl) as (-> & ->). rewrite Z.eqb_refl. cbn [assert_ bind]. eauto.
Qed.

(** The checks of the constructors about M *)
Lemma prec_checks (A P : op S unit) n : o_rows A = n ->
  (assert_ (o_rows A =? o_cols P) ;;; assert_ (o_rows P =? o_cols P)) =
  if (o_rows P =? o_rows A) && (o_cols P =? o_rows A) then Ok tt else Fail FAssert.
Proof.
  intros <-. destruct (Z.eqb_spec (o_rows A) (o_cols P)); cbn [assert_ bind].
  - destruct (Z.eqb_spec (o_rows P) (o_cols P)), (Z.eqb_spec (o_rows P) (o_rows A)), (Z.eqb_spec (o_cols P) (o_rows A)); cbn [andb assert_]; reflexivity || (exfalso; lia).
  - destruct (Z.eqb_spec (o_rows P) (o_rows A)), (Z.eqb_spec (o_cols P) (o_rows A)); cbn [andb]; reflexivity || (exfalso; lia).
Qed.

Lemma pcg_refines : refines (pg_kind floor dots) UsePCG pcg_vm pcg_core.
Proof.
  split.
  - intros [[] ] [[] ]. reflexivity.
  - intros o (H1 & H2 & _). cbn. rewrite so_copy_ok by assumption. cbn [bind]. now destruct o.
  - split; reflexivity.
  - intros o b. cbn. split; [reflexivity|]. split; [reflexivity|]. intros n H. exact H.
  - intros m a M max rel abs vb d Hm _. cbn [pg_kind sk_make]. unfold construct, pg_make. rewrite deref_at.
    destruct (operator_at m a) as [A|e] eqn:EA; cbn [bind]; [|reflexivity].
    pose proof (so_make_case m a A max rel abs vb d Hm EA) as Hc.
    destruct ((o_rows A =? o_cols A) && (0 <=? max)) eqn:Eq; [|now rewrite Hc].
    destruct Hc as (-> & Hc). cbn [bind]. apply andb_true_iff in Eq. destruct Eq as (Eq & Em). apply Z.eqb_eq in Eq. apply Z.leb_le in Em.
    destruct (good_at m a A Hm EA) as (EsA & H0 & _).
    assert (HE : (P <- match M with Some p => o <- deref m p ;; Ok (Some o) | None => Ok None end ;; Ok P) = maybe_at m M).
    { destruct M as [p|]; [|reflexivity]. unfold maybe_at. rewrite deref_at. now destruct (operator_at m p). }
    destruct (maybe_at m M) as [P|e] eqn:EM.
    + assert (match M with Some p => o <- deref m p ;; Ok (Some o) | None => Ok None end = Ok P) as ->
        by (destruct (match M with Some p => o <- deref m p ;; Ok (Some o) | None => Ok None end); cbn in HE; congruence).
      cbn [bind]. destruct (match P with Some P0 => (o_rows P0 =? o_rows A) && (o_cols P0 =? o_rows A) | None => true end) eqn:EP.
      * assert (HP : forall Q, P = Some Q -> o_rows Q = o_rows A /\ o_cols Q = o_rows A).
        { intros Q ->. apply andb_true_iff in EP. destruct EP as (P1 & P2). apply Z.eqb_eq in P1, P2. auto. }
        destruct (pcg_new_ok A P (so_par floor (SObj (o_rows A) (o_cols A) (Some a) max vb rel abs (Some d) 0)) (o_rows A) eq_refl (eq_sym Eq) H0 Em HP) as (u & Eu).
        rewrite Eu. cbn [bind]. eexists. split; [reflexivity|]. split; [reflexivity|].
        unfold inv. cbn. split; [now rewrite Eq|]. split; [exact H0|]. intros a' [= <-]. split; [now rewrite <- EsA, Eq|].
        exists M. split; [reflexivity|]. intros p ->. unfold maybe_at in EM.
        destruct (operator_at m p) as [Q|] eqn:EQ; cbn [bind] in EM; [|discriminate]. injection EM as <-.
        destruct (good_at m p Q Hm EQ) as (EsQ & _). destruct (HP Q eq_refl) as (Q1 & Q2). now rewrite <- EsQ, Q1, Q2.
      * destruct P as [P|]; [|discriminate]. unfold pcg_new.
        change (so_par floor _) with (SParams max rel abs floor). rewrite Hc. cbn [bind].
        rewrite (prec_checks A P _ eq_refl), EP. reflexivity.
    + destruct (match M with Some p => o <- deref m p ;; Ok (Some o) | None => Ok None end); cbn in HE; [discriminate|]. injection HE as ->. reflexivity.
  - intros m o b x Hm (H1 & H2 & H3). cbn [pg_kind sk_mult sk_base]. unfold solve, pg_mult. cbn [view hview h_A h_M h_dot h_max h_rel h_abs pg_kind sk_base].
    cbn [pg_kind sk_base] in H1, H2, H3.
    destruct (so_A (pg_base o)) as [a|] eqn:Ea; [|reflexivity]. rewrite deref_at.
    destruct (operator_at m a) as [A|e] eqn:EA; cbn [bind]; [|reflexivity].
    destruct (H3 a eq_refl) as (Es & M & EM & HM). set (n := so_rows (pg_base o)) in *.
    destruct (square_at m a A n Hm EA Es) as (E1 & E2 & _ & fA & Ha). rewrite E1.
    destruct (zlen b =? n) eqn:Qb; destruct (zlen x =? n) eqn:Qx; cbn [andb assert_ bind]; try reflexivity.
    apply Z.eqb_eq in Qb, Qx. unfold pcg_vm. rewrite EM.
    assert (match M with None => Ok None | Some p => M0 <- deref m p ;; Ok (Some M0) end = maybe_at m M) as ->
      by (destruct M; [unfold maybe_at; now rewrite deref_at|reflexivity]).
    destruct (maybe_at m M) as [P|e] eqn:EP; cbn [bind]; [|reflexivity].
    unfold dot_at. destruct (so_dot (pg_base o)) as [d|]; [|reflexivity].
    destruct (get dots d) as [dot|e] eqn:Ed; cbn [bind]; [|reflexivity].
    destruct (dot_good d dot n Ed H2) as (f & Hf).
    assert (HP : exists fM, prec_applies (fun _ => True) P n fM).
    { unfold maybe_at in EP. destruct M as [p|]; [|injection EP as <-; exists (fun v => v); intros v _; reflexivity].
      destruct (operator_at m p) as [Q|] eqn:EQ; cbn [bind] in EP; [|discriminate]. injection EP as <-.
      destruct (square_at m p Q n Hm EQ (HM p eq_refl)) as (_ & _ & _ & fQ & HQ). exists fQ. exact HQ. }
    destruct HP as (fM & HP).
    assert (HPs : forall Q, P = Some Q -> o_rows Q = n /\ o_cols Q = n) by (intros Q ->; destruct HP as (? & ? & _); auto).
    unfold solve_new. destruct (pcg_new_ok A P (new_settings floor) n E1 E2 H2 (Z.le_refl 0) HPs) as (u & ->). cbn [bind].
    pose proof (pcg_reuse (fun _ => True) A dot n fA fM f Ha Hf P HP (so_par floor (pg_base o)) tt tt
                  (PBuf (pg_Ap o) (pg_r o) (pg_p o) (pg_z o)) u b x Logic.I Logic.I Qb Qx) as Hsame.
    change (SParams (so_max (pg_base o)) (so_rel (pg_base o)) (so_abs (pg_base o)) floor) with (so_par floor (pg_base o)).
    destruct (pcg_mult A P dot (so_par floor (pg_base o)) tt (PBuf (pg_Ap o) (pg_r o) (pg_p o) (pg_z o)) b x) as [[[[w1 u1] x1] k1]|e1];
      destruct (pcg_mult A P dot (so_par floor (pg_base o)) tt u b x) as [[[[w2 u2] x2] k2]|e2]; cbn [same_pcg bind] in *; try contradiction.
    + destruct Hsame as (<- & <-). eexists. split; [reflexivity|]. split; [reflexivity|]. split; [reflexivity|].
      exists M. auto.
    + now subst.
  - intros m o b x t Hm (H1 & H2 & H3) E. cbn [pg_kind sk_torn sk_base sk_mult] in *. split; [reflexivity|]. split; [reflexivity|].
    unfold pg_mult in E. destruct (so_A (pg_base o)) as [a|] eqn:Ea; [|discriminate]. destruct (H3 a eq_refl) as (_ & M & EM & HM).
    exists M. auto.
Qed.

(* ---------------------------------------------------------------- MINRES *)

Definition mr_buf (o : mrobj S) : mbuf S := MBuf (mr_w0 o) (mr_w1 o) (mr_v0 o) (mr_v1 o) [] (mr_q o).
Definition mr_core (n : Z) (o : mrobj S) : Prop := mbuf_ok n (mr_buf o).

(** Mult keeps the sizes of the work vectors and throws nothing, whatever the limit. *)
Lemma minres_outcome (A : op S unit) dot n fA f par u b x : computes (fun _ => True) A n fA -> dot_gives dot n f ->
  mbuf_ok n u -> zlen b = n -> zlen x = n ->
  match minres_mult root A dot par tt u b x with
  | Ok (_, u', _, _, _) => mbuf_ok n u'
  | Fail e => e = FAssert
  end.
Proof.
  intros (E1 & E2 & H) Hf Hu Hb Hx. 
  destruct (Z_le_gt_dec 0 (sp_max par)) as [Hp|Hp].
  - destruct (minres_mult_inv (fun _ => True) A dot n fA (fun v => v) f root E1 E2 H Hf (fun _ => True) par tt u b x
      (fun v _ => eq_refl) Logic.I Hu Hb Hx Hp Logic.I) as [->|(w' & u' & s' & k & -> & _ & Hu' & _)]; auto.
  - destruct (minres_mult_loop (fun _ => True) A dot n fA (fun v => v) f root E1 E2 H Hf par tt u b x
      (fun v _ => eq_refl) Logic.I Hu Hb Hx) as (_ & _ & w' & u' & _ & Hu' & _ & ->).
    destruct (Z.to_nat (sp_max par)); cbn [mloop]; (destruct (Z.leb_spec 1 (sp_max par)); [lia|exact Hu']).
Qed.

Lemma minres_refines : refines (mr_kind root floor dots) UseMINRES (fun _ => None) mr_core.
Proof.
  split.
  - intros [[] ] [[] ]. reflexivity.
  - intros o (H1 & H2 & _). cbn. rewrite so_copy_ok by assumption. cbn [bind]. now destruct o.
  - split; reflexivity.
  - intros o b. cbn. split; [reflexivity|]. split; [reflexivity|]. intros n H. exact H.
  - intros m a M max rel abs vb d Hm Ht. cbn [mr_kind sk_make]. destruct M as [p|]; [contradiction|]. unfold construct, mr_make. rewrite deref_at.
    destruct (operator_at m a) as [A|e] eqn:EA; cbn [bind]; [|reflexivity].
    pose proof (so_make_case m a A max rel abs vb d Hm EA) as Hc.
    destruct ((o_rows A =? o_cols A) && (0 <=? max)) eqn:Eq; [|now rewrite Hc].
    destruct Hc as (-> & Hc). cbn [bind maybe_at]. apply andb_true_iff in Eq. destruct Eq as (Eq & Em). apply Z.eqb_eq in Eq. apply Z.leb_le in Em.
    destruct (good_at m a A Hm EA) as (EsA & H0 & _).
    destruct (minres_new_gives A None (so_par floor (SObj (o_rows A) (o_cols A) (Some a) max vb rel abs (Some d) 0)) (o_rows A) eq_refl (eq_sym Eq) H0 Em)
      as (u & Eu & Hu); [discriminate|]. rewrite Eu. cbn [bind]. eexists. split; [reflexivity|]. split; [reflexivity|].
    unfold inv. cbn. split; [now rewrite Eq|]. split; [exact H0|]. intros a' [= <-]. split; [now rewrite <- EsA, Eq|].
    exact Hu.
  - intros m o b x Hm (H1 & H2 & H3). cbn [mr_kind sk_mult sk_base]. unfold solve, mr_mult. cbn [view hview h_A h_M h_dot h_max h_rel h_abs mr_kind sk_base].
    cbn [mr_kind sk_base] in H1, H2, H3.
    destruct (so_A (mr_base o)) as [a|] eqn:Ea; [|reflexivity]. rewrite deref_at.
    destruct (operator_at m a) as [A|e] eqn:EA; cbn [bind]; [|reflexivity].
    destruct (H3 a eq_refl) as (Es & Hu). set (n := so_rows (mr_base o)) in *.
    destruct (square_at m a A n Hm EA Es) as (E1 & E2 & _ & fA & Ha). rewrite E1.
    destruct (zlen b =? n) eqn:Qb; destruct (zlen x =? n) eqn:Qx; cbn [andb assert_ bind maybe_at]; try reflexivity.
    apply Z.eqb_eq in Qb, Qx.
    unfold dot_at. destruct (so_dot (mr_base o)) as [d|]; [|reflexivity].
    destruct (get dots d) as [dot|e] eqn:Ed; cbn [bind]; [|reflexivity].
    destruct (dot_good d dot n Ed H2) as (f & Hf).
    unfold solve_new. destruct (minres_new_gives A None (new_settings floor) n E1 E2 H2 (Z.le_refl 0)) as (u & -> & Hu0); [discriminate|]. cbn [bind].
    pose proof (minres_reuse (fun _ => True) A dot n fA (fun v => v) f Ha Hf root (fun v _ => eq_refl) (so_par floor (mr_base o)) tt tt
                  (mr_buf o) u b x Logic.I Logic.I Hu Hu0 Qb Qx) as Hsame.
    pose proof (minres_outcome A dot n fA f (so_par floor (mr_base o)) (mr_buf o) b x Ha Hf Hu Qb Qx) as Hout.
    change (SParams (so_max (mr_base o)) (so_rel (mr_base o)) (so_abs (mr_base o)) floor) with (so_par floor (mr_base o)).
    unfold mr_buf in Hsame, Hout.
    destruct (minres_mult root A dot (so_par floor (mr_base o)) tt (MBuf (mr_w0 o) (mr_w1 o) (mr_v0 o) (mr_v1 o) [] (mr_q o)) b x) as [[[[[w1 u1] l1] x1] k1]|e1];
      destruct (minres_mult root A dot (so_par floor (mr_base o)) tt u b x) as [[[[[w2 u2] l2] x2] k2]|e2]; cbn [same_minres bind] in *; try contradiction.
    + destruct Hsame as (<- & <-). eexists. split; [reflexivity|]. split; [reflexivity|]. split; [reflexivity|]. exact Hout.
    + now subst.
  - intros m o b x t Hm (H1 & H2 & H3) E. exfalso. cbn [mr_kind sk_base sk_mult] in *. unfold mr_mult in E.
    destruct (so_A (mr_base o)) as [a|] eqn:Ea; [|discriminate]. rewrite deref_at in E.
    destruct (operator_at m a) as [A|e] eqn:EA; cbn [bind] in E;
      [|unfold operator_at in EA; destruct (get m a) as [[]|]; congruence].
    destruct (H3 a eq_refl) as (Es & Hu). set (n := so_rows (mr_base o)) in *.
    destruct (square_at m a A n Hm EA Es) as (E1 & E2 & _ & fA & Ha). rewrite E1 in E.
    destruct (zlen x =? n) eqn:Qx; destruct (zlen b =? n) eqn:Qb; cbn [assert_ bind] in E; try discriminate. apply Z.eqb_eq in Qb, Qx.
    unfold dot_at in E. destruct (so_dot (mr_base o)) as [d|]; [|discriminate].
    destruct (get dots d) as [dot|e] eqn:Ed; cbn [bind] in E;
      [|unfold get in Ed; destruct (d <? 0); [congruence|]; destruct (nth_error dots (Z.to_nat d)); congruence].
    destruct (dot_good d dot n Ed H2) as (f & Hf).
    pose proof (minres_outcome A dot n fA f (so_par floor (mr_base o)) (mr_buf o) b x Ha Hf Hu Qb Qx) as Hout. unfold mr_buf in Hout.
    destruct (minres_mult root A dot (so_par floor (mr_base o)) tt (MBuf (mr_w0 o) (mr_w1 o) (mr_v0 o) (mr_v1 o) [] (mr_q o)) b x) as [[[[[w1 u1] l1] x1] k1]|e1];
      cbn [bind] in E; congruence.
Qed.

(* ---------------------------------------------------------------- PMINRES *)

Definition pmr_buf (o : pmrobj S) : mbuf S := MBuf (pm_w0 o) (pm_w1 o) (pm_v0 o) (pm_v1 o) (pm_u1 o) (pm_q o).
Definition pmr_vm (o : pmrobj S) : option Z := match pm_M o with Some M => M | None => None end.
Definition pmr_core (n : Z) (o : pmrobj S) : Prop := (exists p, pm_M o = Some (Some p) /\ size p = (n, n)) /\ mbuf_ok n (pmr_buf o).

Lemma pminres_outcome (A M : op S unit) dot n fA fM f par u b x : computes (fun _ => True) A n fA -> computes (fun _ => True) M n fM ->
  dot_gives dot n f -> mbuf_ok n u -> zlen b = n -> zlen x = n ->
  match pminres_mult root A M dot par tt u b x with
  | Ok (_, u', _, _, _) => mbuf_ok n u'
  | Fail e => e = FAssert
  end.
Proof.
  intros (E1 & E2 & H) (M1 & M2 & HM) Hf Hu Hb Hx. 
  destruct (Z_le_gt_dec 0 (sp_max par)) as [Hp|Hp].
  - destruct (pminres_mult_inv (fun _ => True) A dot n fA fM f root E1 E2 H Hf (fun _ => True) M par tt u b x
      M1 M2 HM Logic.I Hu Hb Hx Hp Logic.I) as [->|(w' & u' & s' & k & -> & _ & Hu' & _)]; auto.
  - destruct (pminres_mult_loop (fun _ => True) A dot n fA fM f root E1 E2 H Hf M par tt u b x
      M1 M2 HM Logic.I Hu Hb Hx) as (_ & _ & w' & u' & _ & Hu' & _ & ->).
    destruct (Z.to_nat (sp_max par)); cbn [mloop]; (destruct (Z.leb_spec 1 (sp_max par)); [lia|exact Hu']).
Qed.

Lemma operator_at_fails (m : ops) p e : operator_at m p = Fail e -> e = FUB.
Proof. unfold operator_at. destruct (get m p) as [[]|]; congruence. Qed.

Lemma pminres_refines : refines (pmr_kind root floor dots) UsePMINRES pmr_vm pmr_core.
Proof.
  split.
  - intros [[] ] [[] ]. reflexivity.
  - intros o (H1 & H2 & _). cbn. rewrite so_copy_ok by assumption. cbn [bind]. now destruct o.
  - split; reflexivity.
  - intros o b. cbn. split; [reflexivity|]. split; [reflexivity|]. intros n H. exact H.
  - intros m a M max rel abs vb d Hm Ht. cbn [pmr_kind sk_make]. destruct M as [p|]; [|contradiction]. unfold construct, pmr_make. rewrite deref_at.
    destruct (operator_at m a) as [A|e] eqn:EA; cbn [bind]; [|reflexivity].
    pose proof (so_make_case m a A max rel abs vb d Hm EA) as Hc.
    destruct ((o_rows A =? o_cols A) && (0 <=? max)) eqn:Eq; [|now rewrite Hc].
    destruct Hc as (-> & Hc). cbn [bind maybe_at]. apply andb_true_iff in Eq. destruct Eq as (Eq & Em). apply Z.eqb_eq in Eq. apply Z.leb_le in Em.
    rewrite deref_at. destruct (operator_at m p) as [P|e] eqn:EP; cbn [bind]; [|reflexivity].
    destruct (good_at m a A Hm EA) as (EsA & H0 & _). destruct (good_at m p P Hm EP) as (EsP & _).
    destruct ((o_rows P =? o_rows A) && (o_cols P =? o_rows A)) eqn:EQ.
    + apply andb_true_iff in EQ. destruct EQ as (P1 & P2). apply Z.eqb_eq in P1, P2.
      destruct (minres_new_gives A (Some P) (so_par floor (SObj (o_rows A) (o_cols A) (Some a) max vb rel abs (Some d) 0)) (o_rows A) eq_refl (eq_sym Eq) H0 Em)
        as (u & Eu & Hu); [intros Q [= <-]; auto|]. rewrite Eu. cbn [bind]. eexists. split; [reflexivity|]. split; [reflexivity|].
      unfold inv. cbn. split; [now rewrite Eq|]. split; [exact H0|]. intros a' [= <-]. split; [now rewrite <- EsA, Eq|].
      split; [|exact Hu]. exists p. split; [reflexivity|]. now rewrite <- EsP, P1, P2.
    + unfold minres_new. change (so_par floor _) with (SParams max rel abs floor). rewrite Hc. cbn [bind].
      rewrite (prec_checks A P _ eq_refl), EQ. reflexivity.
  - intros m o b x Hm (H1 & H2 & H3). cbn [pmr_kind sk_mult sk_base]. unfold solve, pmr_mult. cbn [view hview h_A h_M h_dot h_max h_rel h_abs pmr_kind sk_base].
    cbn [pmr_kind sk_base] in H1, H2, H3.
    destruct (so_A (pm_base o)) as [a|] eqn:Ea; [|reflexivity]. rewrite deref_at.
    destruct (operator_at m a) as [A|e] eqn:EA; cbn [bind]; [|reflexivity].
    destruct (H3 a eq_refl) as (Es & (p & EM & Ep) & Hu). set (n := so_rows (pm_base o)) in *.
    destruct (square_at m a A n Hm EA Es) as (E1 & E2 & _ & fA & Ha). rewrite E1, E2.
    destruct (zlen b =? n) eqn:Qb; destruct (zlen x =? n) eqn:Qx; cbn [andb assert_ bind]; try reflexivity.
    apply Z.eqb_eq in Qb, Qx. unfold pmr_vm. rewrite EM. cbn [maybe_at]. rewrite deref_at.
    destruct (operator_at m p) as [P|e] eqn:EP; cbn [bind]; [|reflexivity].
    destruct (square_at m p P n Hm EP Ep) as (P1 & P2 & _ & fP & HP).
    unfold dot_at. destruct (so_dot (pm_base o)) as [d|]; [|reflexivity].
    destruct (get dots d) as [dot|e] eqn:Ed; cbn [bind]; [|reflexivity].
    destruct (dot_good d dot n Ed H2) as (f & Hf).
    unfold solve_new. destruct (minres_new_gives A (Some P) (new_settings floor) n E1 E2 H2 (Z.le_refl 0)) as (u & -> & Hu0); [intros Q [= <-]; auto|]. cbn [bind].
    pose proof (pminres_reuse (fun _ => True) A dot n fA fP f Ha Hf root P (so_par floor (pm_base o)) tt tt
                  (pmr_buf o) u b x P1 P2 (proj2 (proj2 HP)) Logic.I Logic.I Hu Hu0 Qb Qx) as Hsame.
    pose proof (pminres_outcome A P dot n fA fP f (so_par floor (pm_base o)) (pmr_buf o) b x Ha HP Hf Hu Qb Qx) as Hout.
    change (SParams (so_max (pm_base o)) (so_rel (pm_base o)) (so_abs (pm_base o)) floor) with (so_par floor (pm_base o)).
    unfold pmr_buf in Hsame, Hout.
    destruct (pminres_mult root A P dot (so_par floor (pm_base o)) tt (MBuf (pm_w0 o) (pm_w1 o) (pm_v0 o) (pm_v1 o) (pm_u1 o) (pm_q o)) b x) as [[[[[w1 u1] l1] x1] k1]|e1];
      destruct (pminres_mult root A P dot (so_par floor (pm_base o)) tt u b x) as [[[[[w2 u2] l2] x2] k2]|e2]; cbn [same_minres bind] in *; try contradiction.
    + destruct Hsame as (<- & <-). eexists. split; [reflexivity|]. split; [reflexivity|]. split; [reflexivity|].
      split; [|exact Hout]. exists p. auto.
    + now subst.
  - intros m o b x t Hm (H1 & H2 & H3) E. exfalso. cbn [pmr_kind sk_base sk_mult] in *. unfold pmr_mult in E.
    destruct (so_A (pm_base o)) as [a|] eqn:Ea; [|discriminate]. rewrite deref_at in E.
    destruct (operator_at m a) as [A|e] eqn:EA; cbn [bind] in E; [|apply operator_at_fails in EA; congruence].
    destruct (H3 a eq_refl) as (Es & (p & EM & Ep) & Hu). set (n := so_rows (pm_base o)) in *.
    destruct (square_at m a A n Hm EA Es) as (E1 & E2 & _ & fA & Ha). rewrite E1, E2 in E.
    destruct (zlen b =? n) eqn:Qb; destruct (zlen x =? n) eqn:Qx; cbn [assert_ bind] in E; try discriminate. apply Z.eqb_eq in Qb, Qx.
    rewrite EM, deref_at in E. destruct (operator_at m p) as [P|e] eqn:EP; cbn [bind] in E; [|apply operator_at_fails in EP; congruence].
    destruct (square_at m p P n Hm EP Ep) as (P1 & P2 & _ & fP & HP).
    unfold dot_at in E. destruct (so_dot (pm_base o)) as [d|]; [|discriminate].
    destruct (get dots d) as [dot|e] eqn:Ed; cbn [bind] in E;
      [|unfold get in Ed; destruct (d <? 0); [congruence|]; destruct (nth_error dots (Z.to_nat d)); congruence].
    destruct (dot_good d dot n Ed H2) as (f & Hf).
    pose proof (pminres_outcome A P dot n fA fP f (so_par floor (pm_base o)) (pmr_buf o) b x Ha HP Hf Hu Qb Qx) as Hout. unfold pmr_buf in Hout.
    destruct (pminres_mult root A P dot (so_par floor (pm_base o)) tt (MBuf (pm_w0 o) (pm_w1 o) (pm_v0 o) (pm_v1 o) (pm_u1 o) (pm_q o)) b x) as [[[[[w1 u1] l1] x1] k1]|e1];
      cbn [bind] in E; congruence.
Qed.

(** Programs that start without solvers *)
Lemma pcg_programs (m : ops) ps : good_ops size m -> (forall p, In p ps -> good_act UsePCG size p) ->
  arun (pg_kind floor dots) (m, []) ps = hrun root floor dots UsePCG (m, []) ps.
Proof. intros Hm Hp. apply (run_agrees _ _ _ _ pcg_refines ps m []); auto. intros o []. Qed.
Lemma minres_programs (m : ops) ps : good_ops size m -> (forall p, In p ps -> good_act UseMINRES size p) ->
  arun (mr_kind root floor dots) (m, []) ps = hrun root floor dots UseMINRES (m, []) ps.
Proof. intros Hm Hp. apply (run_agrees _ _ _ _ minres_refines ps m []); auto. intros o []. Qed.
Lemma pminres_programs (m : ops) ps : good_ops size m -> (forall p, In p ps -> good_act UsePMINRES size p) ->
  arun (pmr_kind root floor dots) (m, []) ps = hrun root floor dots UsePMINRES (m, []) ps.
Proof. intros Hm Hp. apply (run_agrees _ _ _ _ pminres_refines ps m []); auto. intros o []. Qed.

End Refine.
