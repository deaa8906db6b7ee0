(** The scripts of the solvers, run in one process, are the solvers of Solver.v. *)

From Coq Require Import ZArith List Bool Lia.
From Verif Require Import Base Scalar Spec LoopFacts Vec Block BlockSpec BlockOp Solver SolverSpec SolverProofs SolverMinres Spmd SpmdSpec.
Import ListNotations.
Open Scope Z_scope.

Section SpmdSolvers.
Context {S : scalar}.
Notation T := (car S).
Notation store := (store S).
Context (n : Z) (A : op S unit) (M : option (op S unit)) (par : sparams S).

Notation solver_ops := (solver_ops A M).
Notation keeps := (keeps n).
Hypothesis HrA : o_rows A = n.
Hypothesis HcA : o_cols A = n.
Hypothesis KA : keeps A.
Hypothesis KM : forall m, M = Some m -> keeps m.

Definition sized (st : store) : Prop := forall v, zlen (st v) = n.

Lemma sized_put st d v : sized st -> zlen v = n -> sized (put st d v).
Proof. intros H Hv u. unfold put. destruct (u =? d); [exact Hv|apply H]. Qed.

Lemma each_raw f st d i j l : sized st ->
  each f st d i j l = Ok (map (fun t => f (zn s0 (st i) t) (zn s0 (st j) t) (zn s0 (st l) t)) (zrange 0 n)).
Proof. intros H. unfold each. rewrite !H, Z.eqb_refl. reflexivity. Qed.

Lemma n_nonneg st : sized st -> 0 <= n.
Proof. intros H. rewrite <- (H 0). apply zlen_nonneg. Qed.

Lemma zlen_range (f : Z -> T) st : sized st -> zlen (map f (zrange 0 n)) = n.
Proof. intros H. apply zlen_map_zrange. now apply (n_nonneg st). Qed.

Lemma copy_range (x : list T) : zlen x = n -> map (fun t => zn s0 x t) (zrange 0 n) = x.
Proof. intros <-. apply map_zn_zrange. Qed.

Lemma map_range (f : T -> T) (x : list T) : zlen x = n -> map (fun t => f (zn s0 x t)) (zrange 0 n) = map f x.
Proof. intros H. transitivity (map f (map (fun t => zn s0 x t) (zrange 0 n))); [rewrite map_map; reflexivity|rewrite copy_range by exact H; reflexivity]. Qed.

Lemma zip_range (f : T -> T -> T) (x y : list T) : zlen x = n -> zlen y = n ->
  l_zip f x y = Ok (map (fun t => f (zn s0 x t) (zn s0 y t)) (zrange 0 n)).
Proof. intros Hx Hy. rewrite l_zip_ok by lia. unfold zipw. rewrite Hx. reflexivity. Qed.

Lemma of_op_cases (o : op S unit) x y : match of_op o x y with
  | Ok z => op_mult_vec o tt x y = Ok (tt, z)
  | Fail f => op_mult_vec o tt x y = Fail f end.
Proof. unfold of_op. destruct (op_mult_vec o tt x y) as [([], z)|f]; reflexivity. Qed.

Lemma put_same (st : store) d v : put st d v d = v.
Proof. unfold put. rewrite Z.eqb_refl. reflexivity. Qed.
Lemma put_other (st : store) d v r : (r =? d) = false -> put st d v r = st r.
Proof. unfold put. intros ->. reflexivity. Qed.

Ltac look := repeat first [rewrite put_same | rewrite put_other by reflexivity].

(** What PCGSolver::Mult leaves *)
Definition pcg_state (r : Z * store) : unit * pbuf S * list T * Z :=
  (tt, PBuf (snd r vAp) (snd r vR) (snd r vP) (snd r vZ), snd r vX, fst r).

Definition isM : bool := match M with Some _ => true | None => false end.

Lemma prec_eq st k : sized st ->
  run solver_ops (s_prec isM k) st =
  ('(_, z) <- pcg_prec M tt (st vR) (st vZ) ;; run solver_ops k (put st vZ z)) /\
  (forall z, pcg_prec M tt (st vR) (st vZ) = Ok (tt, z) -> zlen z = n).
Proof.
  intros H. assert (CM : (exists m, M = Some m) \/ M = None) by (destruct M; eauto).
  unfold s_prec, isM, pcg_prec. destruct CM as [(m & EM)|EM]; rewrite EM.
  - cbn [run]. unfold SpmdSpec.solver_ops at 1. cbn [Z.eqb]. pose proof (of_op_cases m (st vR) (st vZ)) as C.
    destruct (of_op m (st vR) (st vZ)) as [z|f]; rewrite C; cbn [bind].
    + split; [reflexivity|]. intros z' E. injection E as <-. exact (KM m EM _ _ _ (H _) (H _) C).
    + split; [reflexivity|discriminate].
  - cbn [run]. rewrite each_raw by exact H. cbn [bind]. rewrite copy_range by apply H. split; [reflexivity|]. intros z E. injection E as <-. apply H.
Qed.

Definition buf (st : store) : pbuf S := PBuf (st vAp) (st vR) (st vP) (st vZ).

Lemma pcg_step_eq tol num next st : sized st ->
  match pcg_step A M l_inner par tol tt (buf st) (st vX) with
  | Fail f => run solver_ops (s_pcg_step isM par tol num next) st = Fail f
  | Ok (stop, _, u, x) => exists st', sized st' /\ u = buf st' /\ x = st' vX /\
      run solver_ops (s_pcg_step isM par tol num next) st = if (stop : bool) then Ok (num, st') else run solver_ops next st'
  end.
Proof.
  intros H. unfold s_pcg_step, pcg_step, buf. cbn [run pb_Ap pb_r pb_p pb_z]. change (solver_ops 0) with (of_op A).
  pose proof (of_op_cases A (st vP) (st vAp)) as CA. destruct (of_op A (st vP) (st vAp)) as [Ap|e]; rewrite CA; cbn [bind]; [|reflexivity].
  assert (LA : zlen Ap = n) by exact (KA _ _ _ (H _) (H _) CA).
  look. destruct (l_inner (st vP) Ap) as [pAp|e]; cbn [bind]; [|reflexivity].
  destruct (l_inner (st vR) (st vZ)) as [r_z|e]; cbn [bind]; [|reflexivity].
  destruct (slt (sp_floor par) pAp); [|reflexivity]. cbn [bind run].
  unfold l_axpy, l_axmy. rewrite !zip_range by (exact LA || apply H). cbn [bind].
  rewrite each_raw by (apply sized_put; assumption). cbn [bind]. look.
  match goal with |- context [put (put st vAp Ap) vX ?v] => set (x' := v) end.
  assert (H1 : sized (put (put st vAp Ap) vX x')) by (apply sized_put; [apply sized_put; assumption|subst x'; now apply (zlen_range _ st)]).
  look. destruct (l_inner (st vZ) (st vR)) as [denom|e]; cbn [bind]; [|reflexivity].
  rewrite each_raw by exact H1. cbn [bind]. look.
  match goal with |- context [put (put (put st vAp Ap) vX x') vR ?v] => set (r' := v) end.
  assert (H2 : sized (put (put (put st vAp Ap) vX x') vR r')) by (apply sized_put; [exact H1|subst r'; now apply (zlen_range _ st)]).
  match goal with |- context [s_prec isM ?k] => destruct (prec_eq (put (put (put st vAp Ap) vX x') vR r') k H2) as (EP & LP) end.
  rewrite EP. clear EP. revert LP. look. intros LP.
  destruct (pcg_prec M tt r' (st vZ)) as [([], z')|e]; cbn [bind]; [|reflexivity].
  specialize (LP z' eq_refl). cbn [run]. look.
  destruct (l_inner z' r') as [numer|e]; cbn [bind]; [|reflexivity].
  match goal with |- context [run solver_ops _ ?s] => assert (H3 : sized s) by (apply sized_put; [exact H2|exact LP]) end.
  destruct (slt numer tol); cbn [bind run].
  - eexists. split; [exact H3|]. look. repeat split; reflexivity.
  - unfold l_mulc, l_plus. rewrite l_map_ok. cbn [bind]. rewrite each_raw by exact H3. cbn [bind]. look.
    rewrite (map_range (fun a => (a * (numer / denom))%S)) by apply H. set (p' := map _ (st vP)). assert (Lp : zlen p' = n) by (subst p'; rewrite zlen_map; apply H).
    rewrite zip_range by assumption. cbn [bind].
    rewrite each_raw by (apply sized_put; assumption). cbn [bind]. look.
    match goal with |- context [run solver_ops next ?s] => exists s end. split; [apply sized_put; [apply sized_put; [exact H3|exact Lp]|now apply (zlen_range _ st)]|]. look. repeat split; reflexivity.
Qed.

Lemma pcg_loop_eq tol fuel : forall num st, sized st ->
  pcg_loop fuel A M l_inner par tol num tt (buf st) (st vX) =
  (r <- run solver_ops (s_pcg_loop fuel isM par tol num) st ;; Ok (pcg_state r)).
Proof.
  induction fuel as [|fuel IH]; intros num st H.
  all: match goal with |- pcg_loop ?f _ _ _ _ _ _ _ _ _ = _ =>
    set (next := if num + 1 <? sp_max par then match f with O => Raise FUB | Datatypes.S k => s_pcg_loop k isM par tol (num + 1) end else Halt (num + 1)) end.
  all: change (s_pcg_loop _ isM par tol num) with (s_pcg_step isM par tol num next); cbn [pcg_loop].
  all: pose proof (pcg_step_eq tol num next st H) as E; destruct (pcg_step A M l_inner par tol tt (buf st) (st vX)) as [(((stop, w), u), x)|e]; [|rewrite E; reflexivity].
  all: destruct E as (st' & H' & -> & -> & E); rewrite E; clear E; destruct w; cbn [bind]; destruct stop; [reflexivity|].
  all: subst next; destruct (num + 1 <? sp_max par); [|reflexivity].
  - reflexivity.
  - now apply IH.
Qed.

(** PCGSolver::Mult *)
Theorem pcg_eq (st : store) (u : pbuf S) : sized st -> pb_Ap u = st vAp -> pb_z u = st vZ ->
  pcg_mult A M l_inner par tt u (st vB) (st vX) = (r <- run solver_ops (s_pcg isM par) st ;; Ok (pcg_state r)).
Proof.
  intros H Eu Ez. unfold pcg_mult, s_pcg. cbn [run]. rewrite !H, HrA, Z.eqb_refl, Eu, Ez. cbn [assert_ bind]. change (solver_ops 0) with (of_op A).
  pose proof (of_op_cases A (st vX) (st vAp)) as CA. destruct (of_op A (st vX) (st vAp)) as [Ap|e]; rewrite CA; cbn [bind]; [|reflexivity].
  assert (LA : zlen Ap = n) by exact (KA _ _ _ (H _) (H _) CA).
  rewrite each_raw by (apply sized_put; assumption). cbn [bind]. look. rewrite copy_range by apply H.
  assert (H0 : sized (put (put st vAp Ap) vR (st vB))) by (apply sized_put; [apply sized_put; assumption|apply H]).
  rewrite each_raw by exact H0. cbn [bind]. look. unfold l_sub. rewrite zip_range by (exact LA || apply H). cbn [bind].
  match goal with |- context [put (put (put st vAp Ap) vR (st vB)) vR ?v] => set (r' := v) end.
  assert (H2 : sized (put (put (put st vAp Ap) vR (st vB)) vR r')) by (apply sized_put; [exact H0|subst r'; now apply (zlen_range _ st)]).
  match goal with |- context [s_prec isM ?k] => destruct (prec_eq _ k H2) as (EP & LP) end.
  rewrite EP. clear EP. revert LP. look. intros LP.
  destruct (pcg_prec M tt r' (st vZ)) as [([], z')|e]; cbn [bind]; [|reflexivity].
  specialize (LP z' eq_refl). cbn [run].
  match goal with |- context [each _ ?s _ _ _ _] => assert (H3 : sized s) by (apply sized_put; [exact H2|exact LP]) end.
  rewrite each_raw by exact H3. cbn [bind]. look. rewrite copy_range by exact LP.
  destruct (l_inner z' r') as [r0|e] eqn:EI; cbn [bind]; [|reflexivity].
  match goal with |- context [l_inner (put ?s vP z' vZ) _] => assert (H4 : sized (put s vP z')) by (apply sized_put; [exact H3|exact LP]) end || idtac.
  cbn [run]. look. rewrite ?EI. cbn [bind].
  match goal with |- context [slt r0 ?t] => destruct (slt r0 t) end; [reflexivity|].
  match goal with |- _ = (r <- run _ (s_pcg_loop ?f _ _ ?t 1) ?s ;; _) =>
    assert (H5 : sized s) by (apply sized_put; [exact H3|exact LP]); rewrite <- (pcg_loop_eq t f 1 s H5) end.
  reflexivity.
Qed.


(* ---------------------------------------------------------------- MINRES *)

Context (root : T -> T).

Definition mb (st : store) : mbuf S := MBuf (st vW0) (st vW1) (st vV0) (st vV1) (st vU1) (st vQ).

Lemma divc_eq v c k st : sized st ->
  run solver_ops (s_divc v c k) st = (x <- l_divc (st v) c ;; run solver_ops k (put st v x)) /\ (forall x, l_divc (st v) c = Ok x -> zlen x = n).
Proof.
  intros H. unfold s_divc, l_divc. destruct (seqb c s0); [split; [reflexivity|discriminate]|]. cbn [negb assert_ bind run].
  rewrite l_map_ok, each_raw by exact H. cbn [bind]. rewrite (map_range (fun a => (a / c)%S)) by apply H. split; [reflexivity|].
  intros x E. injection E as <-. rewrite zlen_map. apply H.
Qed.

Lemma sized_swap st i j : sized st -> sized (put (put st i (st j)) j (st i)).
Proof. intros H. apply sized_put; [apply sized_put; [exact H|apply H]|apply H]. Qed.

Definition s_minres_body (tol : T) (num : Z) (l : mloc S) (next : mloc S -> script S Z) : script S Z :=
  s_divc vV1 (m_beta l)
  (Apply 0 vV1 vQ
  (Inner vV1 vQ (fun alpha =>
   s_lanczos root tol l vV1 (Inner vV0 vV0) (fun k => Swap vV0 vV1 (Swap vW0 vW1 k)) alpha next (Halt num)))).

Lemma minres_step_eq tol num l next st : sized st ->
  match minres_step root A l_inner tol tt (mb st) l (st vX) with
  | Fail f => run solver_ops (s_minres_body tol num l next) st = Fail f
  | Ok (stop, _, u, l', x) => exists st', sized st' /\ u = mb st' /\ x = st' vX /\
      run solver_ops (s_minres_body tol num l next) st = if (stop : bool) then Ok (num, st') else run solver_ops (next l') st'
  end.
Proof.
  intros H. unfold s_minres_body, minres_step, mb. cbn [mb_w0 mb_w1 mb_v0 mb_v1 mb_u1 mb_q].
  match goal with |- context [s_divc ?v ?c ?k] => destruct (divc_eq v c k st H) as (E & L) end. rewrite E. clear E.
  destruct (l_divc (st vV1) (m_beta l)) as [v1|e]; cbn [bind]; [|reflexivity]. specialize (L v1 eq_refl).
  assert (H1 : sized (put st vV1 v1)) by now apply sized_put.
  cbn [run]. change (solver_ops 0) with (of_op A). look.
  pose proof (of_op_cases A v1 (st vQ)) as CA. destruct (of_op A v1 (st vQ)) as [q|e]; rewrite CA; cbn [bind]; [|reflexivity].
  assert (LA : zlen q = n) by exact (KA _ _ _ L (H _) CA).
  assert (H2 : sized (put (put st vV1 v1) vQ q)) by now apply sized_put.
  look. destruct (l_inner v1 q) as [alpha|e]; cbn [bind]; [|reflexivity].
  unfold s_lanczos. cbn [run]. rewrite each_raw by exact H2. cbn [bind]. look.
  rewrite HcA, lanczos_ok by (assumption || apply H). cbn [bind].
  match goal with |- context [put _ vV0 ?v] => set (v0 := v) end.
  assert (L0 : zlen v0 = n) by (subst v0; now apply (zlen_range _ st)).
  assert (H3 : sized (put (put (put st vV1 v1) vQ q) vV0 v0)) by now apply sized_put.
  change (map _ (zrange 0 n)) with v0.
  look. destruct (l_inner v0 v0) as [d|e]; cbn [bind]; [|reflexivity]. cbn [run].
  rewrite dirs_ok by (assumption || apply H). cbn [bind]. rewrite each_raw by exact H3. cbn [bind]. look.
  match goal with |- context [put _ vW0 ?v] => set (w0 := v) end.
  assert (Lw : zlen w0 = n) by (subst w0; now apply (zlen_range _ st)).
  assert (H4 : sized (put (put (put (put st vV1 v1) vQ q) vV0 v0) vW0 w0)) by now apply sized_put.
  match goal with |- context [Solver.advance n _ _ ?w _] => change w with w0 end.
  rewrite advance_ok by (assumption || apply H). cbn [bind]. rewrite each_raw by exact H4. cbn [bind]. look.
  match goal with |- context [put _ vX ?v] => set (x := v) end.
  assert (Lx : zlen x = n) by (subst x; now apply (zlen_range _ st)).
  assert (H5 : sized (put (put (put (put (put st vV1 v1) vQ q) vV0 v0) vW0 w0) vX x)) by now apply sized_put.
  match goal with |- context [slt (sabs ?e) tol] => destruct (slt (sabs e) tol) end; cbn [run].
  - eexists. split; [exact H5|]. look. repeat split; reflexivity.
  - match goal with |- context [run solver_ops (next _) ?s] => exists s; split; [do 2 apply sized_swap; exact H5|] end. look. repeat split; reflexivity.
Qed.

Lemma minres_loop_eq tol max left : forall num l st, sized st ->
  match mloop left (minres_step root A l_inner tol) max num tt (mb st) l (st vX) with
  | Fail f => run solver_ops (s_minres_loop root left tol max num l) st = Fail f
  | Ok (_, u, _, x, k) => exists st', sized st' /\ u = mb st' /\ x = st' vX /\ run solver_ops (s_minres_loop root left tol max num l) st = Ok (k, st')
  end.
Proof.
  induction left as [|left IH]; intros num l st H; cbn [mloop s_minres_loop]; destruct (num <=? max); try reflexivity; try (exists st; repeat split; try assumption; reflexivity).
  pose proof (minres_step_eq tol num l (s_minres_loop root left tol max (num + 1)) st H) as E. unfold s_minres_body in E.
  destruct (minres_step root A l_inner tol tt (mb st) l (st vX)) as [((((stop, w), u), l'), x)|e]; [|exact E]. cbn [bind].
  destruct E as (st' & H' & -> & -> & E). rewrite E. destruct w, stop; [exists st'; repeat split; assumption|]. now apply IH.
Qed.

(** MINRESSolver::Mult *)
Theorem minres_eq (st : store) : sized st ->
  match minres_mult root A l_inner par tt (mb st) (st vB) (st vX) with
  | Fail f => run solver_ops (s_minres root par) st = Fail f
  | Ok (_, u, _, x, k) => exists st', sized st' /\ u = mb st' /\ x = st' vX /\ run solver_ops (s_minres root par) st = Ok (k, st')
  end.
Proof.
  intros H. unfold minres_mult, s_minres, s_zero, mb. cbn [run mb_w0 mb_w1 mb_v0 mb_v1 mb_u1 mb_q]. rewrite !H, HrA, Z.eqb_refl. cbn [assert_ bind].
  assert (Lz : forall v, zlen (l_zero (st v)) = n) by (intros v; unfold l_zero; rewrite zlen_map; apply H).
  assert (Ez : forall (s : store) v, s v = st v -> map (fun _ : Z => s0) (zrange 0 n) = l_zero (st v)).
  { intros s v _. exact (map_range (fun _ => s0) (st v) (H v)). }
  rewrite each_raw by exact H. cbn [bind]. rewrite (Ez st vW0 eq_refl).
  assert (H1 : sized (put st vW0 (l_zero (st vW0)))) by (now apply sized_put).
  rewrite each_raw by exact H1. cbn [bind]. rewrite (Ez st vW1 eq_refl).
  assert (H2 : sized (put (put st vW0 (l_zero (st vW0))) vW1 (l_zero (st vW1)))) by (now apply sized_put).
  rewrite each_raw by exact H2. cbn [bind]. rewrite (Ez st vV0 eq_refl).
  match goal with |- context [put ?s vV0 (l_zero (st vV0))] => set (t := put s vV0 (l_zero (st vV0))) in * end.
  assert (H3 : sized t) by (subst t; now apply sized_put).
  change (solver_ops 0) with (of_op A). change (t vX) with (st vX). change (t vQ) with (st vQ).
  pose proof (of_op_cases A (st vX) (st vQ)) as CA. destruct (of_op A (st vX) (st vQ)) as [q|e]; rewrite CA; cbn [bind]; [|reflexivity].
  assert (LA : zlen q = n) by exact (KA _ _ _ (H _) (H _) CA).
  rewrite each_raw by (now apply sized_put). cbn [bind]. look. unfold l_sub. change (t vB) with (st vB). rewrite zip_range by (assumption || apply H). cbn [bind].
  match goal with |- context [put _ vV1 ?v] => set (v1 := v) end.
  assert (H4 : sized (put (put t vQ q) vV1 v1)) by (apply sized_put; [now apply sized_put|subst v1; now apply (zlen_range _ st)]).
  look. destruct (l_inner v1 v1) as [d|e]; cbn [bind]; [|reflexivity].
  match goal with |- context [s_minres_loop root ?f ?tl ?m 1 ?l] => pose proof (minres_loop_eq tl m f 1 l _ H4) as E end.
  exact E.
Qed.

(* ---------------------------------------------------------------- PMINRES *)

Context (m : op S unit) (EM : M = Some m).

Definition s_pminres_body (tol : T) (num : Z) (l : mloc S) (next : mloc S -> script S Z) : script S Z :=
  s_divc vV1 (m_beta l)
  (s_divc vU1 (m_beta l)
  (Apply 0 vU1 vQ
  (Inner vU1 vQ (fun alpha =>
   s_lanczos root tol l vU1 (fun k => Apply 1 vV0 vQ (Inner vV0 vQ k)) (fun k => Swap vU1 vQ (Swap vV0 vV1 (Swap vW0 vW1 k))) alpha next (Halt num))))).

Lemma ops1 : solver_ops 1 = of_op m.
Proof. unfold SpmdSpec.solver_ops. rewrite EM. reflexivity. Qed.

Lemma pminres_step_eq tol num l next st : sized st ->
  match pminres_step root A m l_inner tol tt (mb st) l (st vX) with
  | Fail f => run solver_ops (s_pminres_body tol num l next) st = Fail f
  | Ok (stop, _, u, l', x) => exists st', sized st' /\ u = mb st' /\ x = st' vX /\
      run solver_ops (s_pminres_body tol num l next) st = if (stop : bool) then Ok (num, st') else run solver_ops (next l') st'
  end.
Proof.
  intros H. unfold s_pminres_body, pminres_step, mb. cbn [mb_w0 mb_w1 mb_v0 mb_v1 mb_u1 mb_q].
  match goal with |- context [s_divc vV1 ?c ?k] => destruct (divc_eq vV1 c k st H) as (E & L) end. rewrite E. clear E.
  destruct (l_divc (st vV1) (m_beta l)) as [v1|e]; cbn [bind]; [|reflexivity]. specialize (L v1 eq_refl).
  assert (H1 : sized (put st vV1 v1)) by now apply sized_put.
  match goal with |- context [s_divc vU1 ?c ?k] => destruct (divc_eq vU1 c k _ H1) as (E & Lu) end. rewrite E. clear E. revert Lu. look. intros Lu.
  destruct (l_divc (st vU1) (m_beta l)) as [u1|e]; cbn [bind]; [|reflexivity]. specialize (Lu u1 eq_refl).
  assert (H1' : sized (put (put st vV1 v1) vU1 u1)) by now apply sized_put.
  cbn [run]. change (solver_ops 0) with (of_op A). look.
  pose proof (of_op_cases A u1 (st vQ)) as CA. destruct (of_op A u1 (st vQ)) as [q|e]; rewrite CA; cbn [bind]; [|reflexivity].
  assert (LA : zlen q = n) by exact (KA _ _ _ Lu (H _) CA).
  assert (H2 : sized (put (put (put st vV1 v1) vU1 u1) vQ q)) by now apply sized_put.
  look. destruct (l_inner u1 q) as [alpha|e]; cbn [bind]; [|reflexivity].
  unfold s_lanczos. cbn [run]. rewrite each_raw by exact H2. cbn [bind]. look.
  rewrite HcA, lanczos_ok by (assumption || apply H). cbn [bind].
  match goal with |- context [put _ vV0 ?v] => set (v0 := v) end.
  assert (L0 : zlen v0 = n) by (subst v0; now apply (zlen_range _ st)).
  match goal with |- context [put ?s vV0 v0] => assert (H3 : sized (put s vV0 v0)) by now apply sized_put end.
  change (map _ (zrange 0 n)) with v0. look. rewrite ops1.
  pose proof (of_op_cases m v0 q) as CM. destruct (of_op m v0 q) as [q'|e]; rewrite CM; cbn [bind]; [|reflexivity].
  assert (LM : zlen q' = n) by exact (KM m EM _ _ _ L0 LA CM).
  match goal with |- context [put ?s vQ q'] => assert (H3' : sized (put s vQ q')) by now apply sized_put end.
  look. destruct (l_inner v0 q') as [d|e]; cbn [bind]; [|reflexivity]. cbn [run].
  rewrite dirs_ok by (assumption || apply H). cbn [bind]. rewrite each_raw by exact H3'. cbn [bind]. look.
  match goal with |- context [put _ vW0 ?v] => set (w0 := v) end.
  assert (Lw : zlen w0 = n) by (subst w0; now apply (zlen_range _ st)).
  match goal with |- context [put ?s vW0 w0] => assert (H4 : sized (put s vW0 w0)) by now apply sized_put end.
  match goal with |- context [Solver.advance n _ _ ?w _] => change w with w0 end.
  rewrite advance_ok by (assumption || apply H). cbn [bind]. rewrite each_raw by exact H4. cbn [bind]. look.
  match goal with |- context [put _ vX ?v] => set (x := v) end.
  assert (Lx : zlen x = n) by (subst x; now apply (zlen_range _ st)).
  match goal with |- context [put ?s vX x] => assert (H5 : sized (put s vX x)) by now apply sized_put end.
  match goal with |- context [slt (sabs ?e) tol] => destruct (slt (sabs e) tol) end; cbn [run].
  - eexists. split; [exact H5|]. look. repeat split; reflexivity.
  - match goal with |- context [run solver_ops (next _) ?s] => exists s; split; [do 3 apply sized_swap; exact H5|] end. look. repeat split; reflexivity.
Qed.

Lemma pminres_loop_eq tol max left : forall num l st, sized st ->
  match mloop left (pminres_step root A m l_inner tol) max num tt (mb st) l (st vX) with
  | Fail f => run solver_ops (s_pminres_loop root left tol max num l) st = Fail f
  | Ok (_, u, _, x, k) => exists st', sized st' /\ u = mb st' /\ x = st' vX /\ run solver_ops (s_pminres_loop root left tol max num l) st = Ok (k, st')
  end.
Proof.
  induction left as [|left IH]; intros num l st H; cbn [mloop s_pminres_loop]; destruct (num <=? max); try reflexivity; try (exists st; repeat split; try assumption; reflexivity).
  pose proof (pminres_step_eq tol num l (s_pminres_loop root left tol max (num + 1)) st H) as E. unfold s_pminres_body in E.
  destruct (pminres_step root A m l_inner tol tt (mb st) l (st vX)) as [((((stop, w), u), l'), x)|e]; [|exact E]. cbn [bind].
  destruct E as (st' & H' & -> & -> & E). rewrite E. destruct w, stop; [exists st'; repeat split; assumption|]. now apply IH.
Qed.

(** PMINRESSolver::Mult *)
Theorem pminres_eq (st : store) : sized st ->
  match pminres_mult root A m l_inner par tt (mb st) (st vB) (st vX) with
  | Fail f => run solver_ops (s_pminres root par) st = Fail f
  | Ok (_, u, _, x, k) => exists st', sized st' /\ u = mb st' /\ x = st' vX /\ run solver_ops (s_pminres root par) st = Ok (k, st')
  end.
Proof.
  intros H. unfold pminres_mult, s_pminres, s_zero, mb. cbn [run mb_w0 mb_w1 mb_v0 mb_v1 mb_u1 mb_q]. rewrite !H, HrA, HcA, Z.eqb_refl. cbn [assert_ bind].
  assert (Lz : forall v, zlen (l_zero (st v)) = n) by (intros v; unfold l_zero; rewrite zlen_map; apply H).
  assert (Ez : forall (s : store) v, s v = st v -> map (fun _ : Z => s0) (zrange 0 n) = l_zero (st v)).
  { intros s v _. exact (map_range (fun _ => s0) (st v) (H v)). }
  rewrite each_raw by exact H. cbn [bind]. rewrite (Ez st vW0 eq_refl).
  assert (H1 : sized (put st vW0 (l_zero (st vW0)))) by (now apply sized_put).
  rewrite each_raw by exact H1. cbn [bind]. rewrite (Ez st vW1 eq_refl).
  assert (H2 : sized (put (put st vW0 (l_zero (st vW0))) vW1 (l_zero (st vW1)))) by (now apply sized_put).
  rewrite each_raw by exact H2. cbn [bind]. rewrite (Ez st vV0 eq_refl).
  match goal with |- context [put ?s vV0 (l_zero (st vV0))] => set (t := put s vV0 (l_zero (st vV0))) in * end.
  assert (H3 : sized t) by (subst t; now apply sized_put).
  change (solver_ops 0) with (of_op A). change (t vX) with (st vX). change (t vQ) with (st vQ).
  pose proof (of_op_cases A (st vX) (st vQ)) as CA. destruct (of_op A (st vX) (st vQ)) as [q|e]; rewrite CA; cbn [bind]; [|reflexivity].
  assert (LA : zlen q = n) by exact (KA _ _ _ (H _) (H _) CA).
  rewrite each_raw by (now apply sized_put). cbn [bind]. look. unfold l_sub. change (t vB) with (st vB). rewrite zip_range by (assumption || apply H). cbn [bind].
  match goal with |- context [put _ vV1 ?v] => set (v1 := v) end.
  assert (L1 : zlen v1 = n) by (subst v1; now apply (zlen_range _ st)).
  assert (H4 : sized (put (put t vQ q) vV1 v1)) by (apply sized_put; [now apply sized_put|exact L1]).
  look. rewrite ops1. change (t vU1) with (st vU1).
  pose proof (of_op_cases m v1 (st vU1)) as CM. destruct (of_op m v1 (st vU1)) as [u1|e]; rewrite CM; cbn [bind]; [|reflexivity].
  assert (LM : zlen u1 = n) by exact (KM m EM _ _ _ L1 (H _) CM).
  assert (H5 : sized (put (put (put t vQ q) vV1 v1) vU1 u1)) by now apply sized_put.
  look. destruct (l_inner u1 v1) as [d|e]; cbn [bind]; [|reflexivity].
  match goal with |- context [s_pminres_loop root ?f ?tl ?mx 1 ?l] => pose proof (pminres_loop_eq tl mx f 1 l _ H5) as E end.
  exact E.
Qed.

End SpmdSolvers.
