(** C98: MakeCommPkg copies hypre's communication package, and with the copies on all ranks every
    rank gets the elements of a distributed vector that its block needs. *)

From Coq Require Import ZArith List Bool Lia.
From Verif Require Import Base Scalar Spec Sparse Par ParSpec ParExamples HypreTranspose HypreTransposeSpec ParMatvecSpec PropHypre2 CommPkg CommPkgSpec CommPkgProofs.
Import ListNotations.
Open Scope Z_scope.

(** The copy is exact: the counters, and of every array the elements in use. *)
Theorem C98_copy : forall h k, stores h k ->
  make_comm_pkg (Some (Some h)) = Ok (PPkg (zlen (k_sp k)) (zlen (k_rp k)) k).
Proof. exact make_stores. Qed.
Print Assumptions C98_copy.

(** On all ranks: for every column c of the off-diagonal block of every rank the copies say which
    element of which rank belongs there, and it is the element of the vector with the global number
    of that column. *)
Theorem C98_halo : forall (S : scalar) M N (As : list (parmat S)) ks hs xs X,
  distributed M N As -> packages As ks -> zlen hs = zlen As ->
  (forall r h k, get hs r = Ok h -> get ks r = Ok k -> exists m, h = Some m /\ stores m k) -> holds pm_cs As xs X ->
  exists made, ranks (zlen As) (fun r => h <- get hs r ;; make_comm_pkg (Some h)) = Ok made /\
    forall r A c, get As r = Ok A -> 0 <= c < zlen (pm_map A) -> forall v, arrives (map pk_arrays made) xs r c v <-> v = X (zn 0 (pm_map A) c).
Proof. exact @made_halo. Qed.
Print Assumptions C98_halo.

(** A ParMatrix without a hypre matrix, and a hypre matrix without a package, are refused. *)
Theorem C98_refused : make_comm_pkg None = Fail FAssert /\ make_comm_pkg (Some None) = Fail FAssert.
Proof. exact (conj eq_refl eq_refl). Qed.
Print Assumptions C98_refused.

(** A null pointer given to ParCommPkg itself is not refused: A->comm is read before assert(A). *)
Theorem C98_null_refuted : comm_pkg None = Fail FUB.
Proof. exact eq_refl. Qed.
Print Assumptions C98_null_refuted.

(** hypre's memory for the example, with unused elements at the ends *)
Definition exH0 : hpkg := HPkg 1 [1; 77] [0; 2; 77] [0; 1; 77; 77] 1 [1] [0; 1].
Definition exH1 : hpkg := HPkg 1 [0] [0; 1] [1] 1 [0] [0; 2].

Example C98_instance :
  stores exH0 exK0 /\ stores exH1 exK1 /\ distributed 4 4 [exP0; exP1] /\ packages [exP0; exP1] [exK0; exK1] /\
  (forall r h k, get [Some exH0; Some exH1] r = Ok h -> get [exK0; exK1] r = Ok k -> exists m, h = Some m /\ stores m k) /\
  holds (S := Zs) pm_cs [exP0; exP1] [[10; 11]; [12; 13]] (fun i => 10 + i) /\
  arrives [exK0; exK1] [[10; 11]; [12; 13]] 0 0 13 /\ arrives [exK0; exK1] [[10; 11]; [12; 13]] 1 1 11.
Proof.
  assert (H0 : stores exH0 exK0) by (repeat split; eexists; reflexivity).
  assert (H1 : stores exH1 exK1) by (repeat split; eexists; rewrite app_nil_r; reflexivity).
  refine (conj H0 (conj H1 (conj exP_distributed (conj exP_packages (conj _ (conj _ (conj _ _))))))).
  - intros r h k E1 E2. two E1; injection E1 as <-; injection E2 as <-; eexists; (split; [reflexivity|assumption]).
  - split; [split; [reflexivity|]|].
    + intros r A v EA Ev. two EA; injection EA as <-; injection Ev as <-; reflexivity.
    + intros r A v i EA Ev Hi. two EA; injection EA as <-; injection Ev as <-; upto i; reflexivity.
  - exists exK0, 0, exK1, 0, [12; 13]. repeat split; vm_compute; congruence.
  - exists exK1, 0, exK0, 0, [10; 11]. repeat split; vm_compute; congruence.
Qed.
