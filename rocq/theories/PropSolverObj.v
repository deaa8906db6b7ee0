(** Programs on solver objects (C107). *)

From Coq Require Import ZArith List Bool Lia QArith Qcanon.
From Verif Require Import Base Scalar Spec Sparse Block BlockSpec Solver SolverSpec ScalarQ SolverExamples Life
  SolverObj SolverObjSpec SolverObjProofs SolverObjMore PropSolver.
Import ListNotations.
Open Scope Z_scope.

(** A program constructs, copies, moves, assigns and swaps PCGSolvers, calls their setters, getters
    and Mult in any order, and changes or destroys the operators in between, without changing their
    sizes.  It sees what it would see if each solver were only two pointers, its settings and a
    count, and if every Mult were done by a solver built for it on the operators as they are at that
    moment.  What it sees includes how it fails. *)
Theorem C107_pcg_programs :
  forall (S : scalar) (root : car S -> car S) (floor : car S) (dots : list (dotp S)) (size : Z -> Z * Z), good_dots dots ->
  forall (m : memory_of_ops S) (ps : list (act S)), good_ops size m -> (forall p, In p ps -> good_act UsePCG size p) ->
  arun (pg_kind floor dots) (m, []) ps = hrun root floor dots UsePCG (m, []) ps.
Proof. exact @pcg_programs. Qed.
Print Assumptions C107_pcg_programs.

Theorem C107_minres_programs :
  forall (S : scalar) (root : car S -> car S) (floor : car S) (dots : list (dotp S)) (size : Z -> Z * Z), good_dots dots ->
  forall (m : memory_of_ops S) (ps : list (act S)), good_ops size m -> (forall p, In p ps -> good_act UseMINRES size p) ->
  arun (mr_kind root floor dots) (m, []) ps = hrun root floor dots UseMINRES (m, []) ps.
Proof. exact @minres_programs. Qed.
Print Assumptions C107_minres_programs.

Theorem C107_pminres_programs :
  forall (S : scalar) (root : car S -> car S) (floor : car S) (dots : list (dotp S)) (size : Z -> Z * Z), good_dots dots ->
  forall (m : memory_of_ops S) (ps : list (act S)), good_ops size m -> (forall p, In p ps -> good_act UsePMINRES size p) ->
  arun (pmr_kind root floor dots) (m, []) ps = hrun root floor dots UsePMINRES (m, []) ps.
Proof. exact @pminres_programs. Qed.
Print Assumptions C107_pminres_programs.

(** The hypotheses hold of every SparseMatrix and of the default inner product, for any numbers,
    doubles included. *)
Theorem C107_sparse_operators :
  forall (S : scalar), (forall A : csr S, csr_valid A -> good_op (c_rows A, c_cols A) (Some (sp_op A))) /\ good_dots (S := S) [l_inner].
Proof. intros S. exact (conj sparse_good inner_good). Qed.
Print Assumptions C107_sparse_operators.

(** A solver without operator cannot be given one: SetOperator reads the size of the old one. *)
Theorem C107_blank_refuses_operator :
  forall (S : scalar) (root : car S -> car S) (floor : car S) (dots : list (dotp S)) (m : memory_of_ops S) (a : Z),
  arun (pg_kind floor dots) (m, []) [ADefault; ASetOperator 0 a] = ([], Some FUB) /\
  arun (mr_kind root floor dots) (m, []) [ADefault; ASetOperator 0 a] = ([], Some FUB) /\
  arun (pmr_kind root floor dots) (m, []) [ADefault; ASetOperator 0 a] = ([], Some FUB).
Proof. intros. split; [|split]; apply default_set_operator; reflexivity. Qed.
Print Assumptions C107_blank_refuses_operator.

(** SetMaxIter takes limits that the constructors refuse; with one of them, or zero, MINRES returns at
    once, leaves x as it was and reports one pass. *)
Theorem C107_minres_limit :
  forall (S : scalar) (root : car S -> car S) (floor : car S) (dots : list (dotp S)) (size : Z -> Z * Z), good_dots dots ->
  forall (m : memory_of_ops S) (a : Z) (A : op S unit) (n max : Z) (rel abs : car S) (verbose : bool) (d : Z) (dot : dotp S) (k : Z)
         (b v : list (car S)) (t : Z * (Z -> list (car S))),
  good_ops size m -> get m a = Ok (Some A) -> o_rows A = n -> o_cols A = n -> 0 <= max -> get dots d = Ok dot -> k <= 0 ->
  zlen b = n -> zlen v = n ->
  arun (mr_kind root floor dots) (m, []) [ANew a None max rel abs verbose d; AMaxIter 0 k; AMult 0 b v t; AGetNum 0] = ([OVec v; OInt 1], None).
Proof. exact @minres_limit. Qed.
Print Assumptions C107_minres_limit.

(** Two operators and a program that solves, copies, changes the first operator, turns the copy to the
    second one, moves and assigns. *)
Definition exOps : memory_of_ops Qcs := [Some (sp_op (exSPD Qcs)); Some (sp_op (exSwap Qcs)); None].
Definition exT : Z * (Z -> list Qc) := (7, fun _ => []).
Definition exProgram : list (act Qcs) :=
  [ @ANew Qcs 0 None 10 (q 0) (Q2Qc (1 # 1000)) false 0; @AMult Qcs 0 [q 3; q 4] [q 0; q 0] exT; @AGetNum Qcs 0;
    @ACopy Qcs 0; @AChange Qcs 0 (Some (sp_op (exSwap Qcs))); @AMaxIter Qcs 1 1; @AMult Qcs 1 [q 1; q 1] [q 0; q 0] exT; @AGetNum Qcs 0; @AGetNum Qcs 1;
    @ASetOperator Qcs 0 1; @AMove Qcs 0; @AGetOperator Qcs 2; @ARows Qcs 0; @AAssign Qcs 0 2; @AMult Qcs 0 [q 1; q 1] [q 0; q 0] exT;
    @AMoveAssign Qcs 1 0; @ASwap Qcs 0 1; @AVerbose Qcs 0 true; @ARelTol Qcs 0 (q 1); @AAbsTol Qcs 0 (q 1); @ACols Qcs 0; @ADefault Qcs;
    @AChange Qcs 1 None; @AMult Qcs 0 [q 1; q 1] [q 0; q 0] exT ].
Definition exSize (a : Z) : Z * Z := (2, 2).
Definition seen (o : out Qcs) : Z := match o with OVec v => 100 + zlen v | OThrow => 200 | OInt k => k | OPtr (Some p) => 300 + p | OPtr None => 400 end.

Example C107_instance :
  good_dots (S := Qcs) [l_inner] /\ good_ops exSize exOps /\ (forall p, In p exProgram -> good_act UsePCG exSize p) /\
  let r := arun (S := Qcs) (pg_kind (S := Qcs) (q (-1000000000000)) [l_inner]) (exOps, []) exProgram in
  (map seen (fst r), snd r) = ([102; 2; 102; 2; 1; 301; 0; 102; 2], Some FUB).
Proof.
  split; [apply inner_good|].
  assert (G1 : good_op (S := Qcs) (2, 2) (Some (sp_op (exSPD Qcs)))) by exact (sparse_good (exSPD Qcs) (exSPD_valid Qcs)).
  assert (G2 : good_op (S := Qcs) (2, 2) (Some (sp_op (exSwap Qcs)))) by exact (sparse_good (exSwap Qcs) (exSwap_valid Qcs)).
  split.
  { intros a o E. unfold exSize. apply LifeProofs.get_range in E. destruct E as (Ha & E).
    assert (a = 0 \/ a = 1 \/ a = 2) as [->|[->| ->]] by (unfold zlen in Ha; cbn in Ha; lia); injection E as <-; [exact G1|exact G2|exact I]. }
  split.
  { intros p Hp. unfold exProgram in Hp. cbn [In] in Hp.
    repeat (destruct Hp as [<-|Hp]; [first [exact I|exact G1|exact G2]|]). destruct Hp. }
  vm_compute. reflexivity.
Qed.
