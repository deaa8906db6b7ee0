(** C87 - C89: the transpose and the triple product of distributed matrices, and the l1 norms of the
    rows of one. *)

From Coq Require Import ZArith List Bool Lia Permutation.
From Verif Require Import Base Scalar Spec Dense Sparse SumFacts CsrFacts SortProofs Examples Par ParSpec ParProofs ParSplitProofs ParExamples HypreOps HypreSpec HypreLinks HypreTranspose HypreTransposeSpec HypreTransposeProofs HypreRapProofs HypreNorms HypreNormsSpec HypreNormsProofs.
Import ListNotations.
Open Scope Z_scope.

(* ---------------------------------------------------------------- C87 *)

(** Every rank returns a block; the blocks are a valid distributed matrix with the layouts exchanged,
    and their stored entries are those of the operand with row and column exchanged. No law of
    arithmetic is used: this holds for floating point numbers. *)
Theorem C87_entries :
  forall (S : scalar) (srt : sorter) (bsearch : list Z -> Z -> Z -> Z) (reorder : csr S -> csr S), sorts srt -> finds bsearch -> reorders reorder ->
  forall (M N : Z) (As : list (parmat S)) (ks : list commpkg), distributed M N As -> packages As ks ->
  exists Bs, par_transpose srt bsearch reorder ks As = Ok Bs /\ zlen Bs = zlen As /\ distributed N M Bs /\
    (forall r A B, get As r = Ok A -> get Bs r = Ok B -> pm_rs B = pm_cs A /\ pm_cs B = pm_rs A) /\
    Permutation (flat_map pm_entries Bs) (map (fun e => (ecol e, erow e, evalue e)) (flat_map pm_entries As)).
Proof. exact @par_transpose_ok. Qed.
Print Assumptions C87_entries.

(** The global matrix of the result is the transpose of the global matrix of the operand. *)
Theorem C87_matrix :
  forall (S : scalar) (srt : sorter) (bsearch : list Z -> Z -> Z -> Z) (reorder : csr S -> csr S), sorts srt -> finds bsearch -> reorders reorder ->
  forall (M N : Z) (As : list (parmat S)) (ks : list commpkg), distributed M N As -> packages As ks -> ring_laws S ->
  forall Bs, par_transpose srt bsearch reorder ks As = Ok Bs -> forall i j, world_mat Bs i j = world_mat As j i.
Proof. exact @par_transpose_mat. Qed.
Print Assumptions C87_matrix.

Ltac two E := match type of E with get [?a; ?b] ?r = Ok ?x =>
  let H := fresh in assert (H : r = 0 \/ r = 1) by (apply (get_Ok_inv x) in E; destruct E as [E _]; change (zlen [a; b]) with 2 in E; lia);
  destruct H as [-> | ->] end.
Ltac upto i := match goal with H : _ <= i < ?n |- _ => let m := eval vm_compute in n in change n with m in H; first [lia | assert (i = 0) by lia; subst i | let G := fresh in assert (G : i = 0 \/ i = 1) by lia; destruct G as [-> | ->]] end.

(** The messages for the first example matrix: rank 0 needs column 3, rank 1 the columns 0 and 1. *)
Definition exK0 : commpkg := Pkg [1] [0; 2] [0; 1] [1] [0; 1].
Definition exK1 : commpkg := Pkg [0] [0; 1] [1] [0] [0; 2].

Lemma exP_distributed : distributed 4 4 [exP0; exP1].
Proof.
  split.
  - intros r A E. two E; injection E as <-; [exact (conj exP0_valid (conj eq_refl eq_refl))|exact (conj exP1_valid (conj eq_refl eq_refl))].
  - intros r q A B N E1 E2. two E1; two E2; try congruence; injection E1 as <-; injection E2 as <-; first [left; vm_compute; discriminate|right; vm_compute; discriminate].
  - intros r q A B N E1 E2. two E1; two E2; try congruence; injection E1 as <-; injection E2 as <-; first [left; vm_compute; discriminate|right; vm_compute; discriminate].
Qed.

Lemma exQ_distributed : distributed 4 4 [exQ0; exQ1].
Proof.
  split.
  - intros r A E. two E; injection E as <-; [exact (conj exQ0_valid (conj eq_refl eq_refl))|exact (conj exQ1_valid (conj eq_refl eq_refl))].
  - intros r q A B N E1 E2. two E1; two E2; try congruence; injection E1 as <-; injection E2 as <-; first [left; vm_compute; discriminate|right; vm_compute; discriminate].
  - intros r q A B N E1 E2. two E1; two E2; try congruence; injection E1 as <-; injection E2 as <-; first [left; vm_compute; discriminate|right; vm_compute; discriminate].
Qed.

Lemma exP_packages : packages [exP0; exP1] [exK0; exK1].
Proof.
  split.
  - reflexivity.
  - intros r A k E1 E2. two E1; injection E1 as <-; injection E2 as <-; (split; [apply NoDup_cons; [now intros []|apply NoDup_nil]|]; split; [reflexivity|]; split; [reflexivity|]; split; [reflexivity|]; intros i Hi; upto i; vm_compute; discriminate).
  - intros r A k E1 E2. two E1; injection E1 as <-; injection E2 as <-; (split; [apply NoDup_cons; [now intros []|apply NoDup_nil]|]; split; [split; [reflexivity|]; split; [reflexivity|]; split; [reflexivity|]; intros i Hi; upto i; vm_compute; discriminate|intros j Hj; upto j; (split; [vm_compute; discriminate|reflexivity])]).
  - intros r k i E Hi. two E; injection E as <-; upto i; (eexists; split; [reflexivity|now left]).
  - intros r k i E Hi. two E; injection E as <-; upto i; (eexists; split; [reflexivity|now left]).
  - intros r q A B kr kq i j E1 E2 E3 E4 Hi Ei Hj Ej. two E1; two E2; injection E1 as <-; injection E2 as <-; injection E3 as <-; injection E4 as <-; upto i; upto j; try discriminate Ei; (split; [reflexivity|]); intros t Ht; upto t; reflexivity.
Qed.

(** The transpose of
    [ 1 2 | 0 3 ]
    [ 0 4 | 0 0 ]
    [ 5 0 | 6 0 ]
    [ 0 7 | 0 8 ] *)
Example C87_instance :
  sorts insertion_sort /\ finds linear_search /\ reorders (@no_reorder Zs) /\ distributed 4 4 [exP0; exP1] /\ packages [exP0; exP1] [exK0; exK1] /\ ring_laws Zs /\
  exists Bs, par_transpose insertion_sort linear_search no_reorder [exK0; exK1] [exP0; exP1] = Ok Bs /\
    map (fun i => map (world_mat Bs i) [0; 1; 2; 3]) [0; 1; 2; 3] = [[1; 0; 5; 0]; [2; 4; 0; 7]; [0; 0; 6; 0]; [3; 0; 0; 8]].
Proof.
  refine (conj insertion_sort_sorts (conj linear_search_finds (conj no_reorder_ok (conj exP_distributed (conj exP_packages (conj Zs_ring _)))))).
  result_of (par_transpose insertion_sort linear_search no_reorder [exK0; exK1] [exP0; exP1]) ltac:(fun f => exists f). vm_compute. split; reflexivity.
Qed.

(* ---------------------------------------------------------------- C88 *)

(** When every row has an entry in the diag block, the norm of a row is the sum its option names,
    negative when the leading value of the row is, and the flag says whether some norm is zero.
    No law of arithmetic is used. *)
Theorem C88_norms :
  forall (S : scalar) (half ratio : car S) (option : Z) (A : parmat S) (old : list (car S)), pm_valid A ->
  (forall i, 0 <= i < pm_rows A -> row_entries (pm_diag A) i <> []) ->
  l1_norms half ratio option A old = Ok (map (signed_norm half ratio option A old) (zrange 0 (pm_rows A)),
    existsb (fun x => seqb (sabs x) s0) (map (signed_norm half ratio option A old) (zrange 0 (pm_rows A)))).
Proof. exact @l1_norms_ok. Qed.
Print Assumptions C88_norms.

(** In exact arithmetic and with the diagonal coefficient stored first, option 1 gives the sums of
    the absolute values of the rows of the matrix, with the signs of the diagonal. *)
Theorem C88_row_sums :
  forall (S : scalar), ring_laws S -> forall (half ratio : car S) (A : parmat S) (old : list (car S)), sabs (@s0 S) = s0 -> pm_valid A -> diagonal_first A ->
  exists l e, l1_norms half ratio 1 A old = Ok (l, e) /\ zlen l = pm_rows A /\
    (forall i, 0 <= i < pm_rows A -> zn s0 l i =
       let x := sum_range 0 (pm_gcols A) (fun j => sabs (pm_mat A (row0 A + i) j)) in
       if slt (pm_mat A (row0 A + i) (col0 A + i)) s0 then sopp x else x) /\
    (e = true <-> exists i, 0 <= i < pm_rows A /\ seqb (sabs (zn s0 l i)) s0 = true).
Proof. exact @l1_norms_value. Qed.
Print Assumptions C88_row_sums.

(** A rank whose last row has no entry in the diag block reads outside the values, whatever the
    option: every smoother type reaches this. *)
Theorem C88_empty_last_row_refuted :
  forall (S : scalar) (half ratio : car S) (option : Z) (A : parmat S) (old : list (car S)), pm_valid A -> 0 < pm_rows A ->
  row_entries (pm_diag A) (pm_rows A - 1) = [] -> l1_norms half ratio option A old = Fail FUB.
Proof. exact @l1_norms_last. Qed.
Print Assumptions C88_empty_last_row_refuted.

(** An earlier row of this kind takes the sign of the leading value of a later row. *)
Definition exN0 : parmat Zs := ParMat [0; 2; 4] [0; 2; 4] (@CSR Zs 2 2 [0; 0; 1] [1] [-5]) (@CSR Zs 2 1 [0; 1; 1] [0] [3]) [3].

Theorem C88_sign_refuted :
  exists A : parmat Zs, pm_valid A /\ (forall j, 0 <= pm_mat A 0 j) /\ exists l : list Z, l1_norms (S := Zs) 0 0 1 A [] = Ok (l, false) /\ zn 0 l 0 < 0.
Proof.
  exists exN0. split; [apply pm_validb_ok; reflexivity|]. split.
  - intros j. unfold pm_mat, mat_of. change (pm_entries exN0) with [(1, 1, -5) : entry Zs; (0, 3, 3)]. cbn [filter]. unfold at_pos. cbn [erow ecol fst snd Z.eqb andb]. match goal with |- context [if ?b then _ else _] => destruct b end; cbn; lia.
  - exists [-3; -5]. split; reflexivity.
Qed.
Print Assumptions C88_sign_refuted.

(** [ 1 2 | 0 3 ]
    [ 0 -4| 0 0 ] on the first rank: the norms are 6 and -4. *)
Definition exL0 : parmat Zs := ParMat [0; 2; 4] [0; 2; 4] (@CSR Zs 2 2 [0; 2; 3] [0; 1; 1] [1; 2; -4]) (@CSR Zs 2 1 [0; 1; 1] [0] [3]) [3].

Example C88_instance :
  ring_laws Zs /\ sabs (@s0 Zs) = s0 /\ pm_valid exL0 /\ diagonal_first exL0 /\
  l1_norms (S := Zs) 0 0 1 exL0 [] = Ok ([6; -4], false) /\ l1_norms (S := Zs) 0 0 2 exL0 [] = Ok ([4; -4], false) /\ l1_norms (S := Zs) 0 0 3 exL0 [] = Ok ([14; -16], false) /\
  pm_valid (ParMat [0; 2; 4] [0; 2; 4] (@CSR Zs 2 2 [0; 1; 1] [1] [-5]) (@CSR Zs 2 0 [0; 0; 0] [] []) []).
Proof.
  split; [exact Zs_ring|]. split; [reflexivity|]. split; [apply pm_validb_ok; reflexivity|]. split; [|refine (conj eq_refl (conj eq_refl (conj eq_refl _))); apply pm_validb_ok; reflexivity].
  intros i Hi. upto i; (split; [reflexivity|]; split; repeat constructor; cbn; intuition discriminate).
Qed.

(* ---------------------------------------------------------------- C89 *)

(** The product of two distributed matrices on all ranks, with the rows of the second one fetched
    from the ranks that own them: the number of threads of the ranks and their schedules do not
    matter, and the result is the product of the two global matrices. *)
Theorem C89_product :
  forall (S : scalar) (srt : sorter) (bsearch : list Z -> Z -> Z -> Z) (reorder : csr S -> csr S) (extract : list (parmat S) -> list (parmat S) -> list (option (csr S))),
  sorts srt -> finds bsearch -> reorders reorder -> extracts extract -> ring_laws S ->
  forall (L M N : Z) (As Bs : list (parmat S)), distributed L M As -> distributed M N Bs -> cols_rows As Bs ->
  exists Cs, (forall n sched, (forall r, 0 < n r) -> par_product n sched srt bsearch reorder extract As Bs = Ok Cs) /\
    zlen Cs = zlen As /\ distributed L N Cs /\
    (forall r A B C, get As r = Ok A -> get Bs r = Ok B -> get Cs r = Ok C -> pm_rs C = pm_rs A /\ pm_cs C = pm_cs B) /\
    forall i j, world_mat Cs i j = mat_mul (world_mat As) (world_mat Bs) M i j.
Proof. exact @par_product_ok. Qed.
Print Assumptions C89_product.

(** RAP(R, A, P) is R^T (A P), for all numbers of threads and all schedules of the two products. *)
Theorem C89_triple_product :
  forall (S : scalar) (srt : sorter) (bsearch : list Z -> Z -> Z -> Z) (reorder : csr S -> csr S) (extract : list (parmat S) -> list (parmat S) -> list (option (csr S))),
  sorts srt -> finds bsearch -> reorders reorder -> extracts extract -> ring_laws S ->
  forall (L M N K : Z) (Rs As Ps : list (parmat S)) (ks : list commpkg), distributed M L Rs -> distributed M N As -> distributed N K Ps ->
  rows_rows Rs As -> cols_rows As Ps -> packages Rs ks ->
  exists Cs, (forall n sched1 sched2, (forall r, 0 < n r) -> rap n sched1 sched2 srt bsearch reorder extract ks Rs As Ps = Ok Cs) /\
    zlen Cs = zlen Rs /\ distributed L K Cs /\
    (forall r Q P C, get Rs r = Ok Q -> get Ps r = Ok P -> get Cs r = Ok C -> pm_rs C = pm_cs Q /\ pm_cs C = pm_cs P) /\
    forall i j, world_mat Cs i j = mat_mul (fun a b => world_mat Rs b a) (mat_mul (world_mat As) (world_mat Ps) N) M i j.
Proof. exact @rap_ok. Qed.
Print Assumptions C89_triple_product.

(** RAP(A, P) is P^T (A P). *)
Theorem C89_galerkin :
  forall (S : scalar) (srt : sorter) (bsearch : list Z -> Z -> Z -> Z) (reorder : csr S -> csr S) (extract : list (parmat S) -> list (parmat S) -> list (option (csr S))),
  sorts srt -> finds bsearch -> reorders reorder -> extracts extract -> ring_laws S ->
  forall (N K : Z) (As Ps : list (parmat S)) (ks : list commpkg), distributed N N As -> distributed N K Ps ->
  rows_rows Ps As -> cols_rows As Ps -> packages Ps ks ->
  exists Cs, (forall n sched1 sched2, (forall r, 0 < n r) -> rap2 n sched1 sched2 srt bsearch reorder extract ks As Ps = Ok Cs) /\
    zlen Cs = zlen Ps /\ distributed K K Cs /\
    (forall r P C, get Ps r = Ok P -> get Cs r = Ok C -> pm_rs C = pm_cs P /\ pm_cs C = pm_cs P) /\
    forall i j, world_mat Cs i j = mat_mul (fun a b => world_mat Ps b a) (mat_mul (world_mat As) (world_mat Ps) N) N i j.
Proof. exact @rap2_ok. Qed.
Print Assumptions C89_galerkin.

(** P^T (Q P) for the two example matrices, with one thread and with several. *)
Example C89_instance :
  sorts insertion_sort /\ finds linear_search /\ reorders (@no_reorder Zs) /\ extracts (@fetch Zs) /\ ring_laws Zs /\
  distributed 4 4 [exQ0; exQ1] /\ distributed 4 4 [exP0; exP1] /\ rows_rows [exP0; exP1] [exQ0; exQ1] /\ cols_rows [exQ0; exQ1] [exP0; exP1] /\ packages [exP0; exP1] [exK0; exK1] /\
  exists Cs, rap2 (fun _ => 1) (fun _ _ => []) (fun _ _ => []) insertion_sort linear_search no_reorder fetch [exK0; exK1] [exQ0; exQ1] [exP0; exP1] = Ok Cs /\
    rap2 (fun r => 2 + r) (fun r p => [p; 1; 0; r]) (fun _ p => [1; p; 1; 0]) insertion_sort linear_search no_reorder fetch [exK0; exK1] [exQ0; exQ1] [exP0; exP1] = Ok Cs /\
    map (fun i => map (world_mat Cs i) [0; 1; 2; 3]) [0; 1; 2; 3] = [[35; 60; 42; 64]; [20; 162; 24; 176]; [30; 42; 36; 48]; [30; 75; 36; 72]].
Proof.
  refine (conj insertion_sort_sorts (conj linear_search_finds (conj no_reorder_ok (conj (fetch_extracts Zs_ring) (conj Zs_ring (conj exQ_distributed (conj exP_distributed (conj _ (conj _ (conj exP_packages _)))))))))).
  - split; [reflexivity|]. intros r A B E1 E2. two E1; injection E1 as <-; injection E2 as <-; reflexivity.
  - split; [reflexivity|]. intros r A B E1 E2. two E1; injection E1 as <-; injection E2 as <-; reflexivity.
  - result_of (rap2 (fun _ => 1) (fun _ _ => []) (fun _ _ => []) insertion_sort linear_search no_reorder fetch [exK0; exK1] [exQ0; exQ1] [exP0; exP1]) ltac:(fun f => exists f). vm_compute. repeat split.
Qed.
