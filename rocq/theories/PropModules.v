(** Properties C53, C54, C55, C64 and C66: partitioning, dense eigenproblems, the checks of the
    library and the sparse direct solver. *)

From Coq Require Import ZArith List Bool Lia Permutation.
From Verif Require Import Base Scalar Spec Sparse Dense SortProofs Examples Partition PartitionSpec PartitionProofs
  Eigen EigenSpec EigenProofs SparseSolve SparseSolveSpec SparseSolveProofs.
Import ListNotations.
Open Scope Z_scope.

(* ---------------------------------------------------------------- C53 *)

(** RemoveEmpty returns the labels 0..k-1 where k is the number of distinct labels, keeps vertices
    together exactly if they were and keeps the order of labels. *)
Theorem C53_relabelling :
  forall part, part <> [] -> (forall l, In l part -> 0 <= l) ->
  exists new, remove_empty part = Ok new /\ labels_are new (distinct part) /\ same_partition part new.
Proof. exact remove_empty_spec. Qed.
Print Assumptions C53_relabelling.

(** It succeeds exactly on such vectors. *)
Theorem C53_domain :
  forall part, (exists new, remove_empty part = Ok new) <-> (part <> [] /\ forall l, In l part -> 0 <= l).
Proof. exact remove_empty_iff. Qed.
Print Assumptions C53_domain.

(** Twice is the same as once. *)
Theorem C53_idempotent :
  forall part new, remove_empty part = Ok new -> remove_empty new = Ok new.
Proof. exact remove_empty_idempotent. Qed.
Print Assumptions C53_idempotent.

(** Partition: whatever Metis answers with labels in range, the result labels every vertex, uses
    exactly the labels 0..k-1 with 1 <= k <= num_parts, and (for two parts or more) puts together
    the vertices that Metis put together. *)
Theorem C53_partition :
  forall (S : scalar) (to_idx : car S -> Z) (call : metis (S := S)) (A : csr S) (num_parts : Z) (ub : car S) (contig weighted : bool),
  csr_valid A -> c_cols A = c_rows A -> 1 <= num_parts <= c_rows A -> c_rows A - 1 <= nnz A ->
  (forall xadj adjncy adjwgt : list Z,
     adjacency (c_rows A) (xadj, adjncy, adjwgt) (off_diagonal (fun v : car S => to_idx (if weighted then sabs v else s1)) A) ->
     let p := call (c_rows A) xadj adjncy adjwgt num_parts ub contig in zlen p = c_rows A /\ forall l, In l p -> 0 <= l < num_parts) ->
  exists part k, partition to_idx call A num_parts ub contig weighted = Ok part /\ zlen part = c_rows A /\
    1 <= k <= num_parts /\ labels_are part k /\
    (num_parts = 1 \/ exists xadj adjncy adjwgt : list Z,
       adjacency (c_rows A) (xadj, adjncy, adjwgt) (off_diagonal (fun v : car S => to_idx (if weighted then sabs v else s1)) A) /\
       same_partition (call (c_rows A) xadj adjncy adjwgt num_parts ub contig) part).
Proof. exact (fun S => @partition_spec S). Qed.
Print Assumptions C53_partition.

(** It refuses every other number of parts and matrices that are not square. *)
Theorem C53_partition_refuses :
  forall (S : scalar) (to_idx : car S -> Z) (call : metis (S := S)) (A : csr S) (num_parts : Z) (ub : car S) (contig weighted : bool),
  ~ (1 <= num_parts <= c_rows A /\ c_cols A = c_rows A) ->
  partition to_idx call A num_parts ub contig weighted = Fail FAssert.
Proof. exact @partition_refuses. Qed.
Print Assumptions C53_partition_refuses.

Example C53_instance :
  let part := [5; 2; 5; 9; 2; 2] in
  part <> [] /\ (forall l, In l part -> 0 <= l) /\ distinct part = 3 /\ remove_empty part = Ok [1; 0; 1; 2; 0; 0].
Proof.
  split; [discriminate|]. split; [cbn; lia|]. split; reflexivity.
Qed.

(* ---------------------------------------------------------------- C54 *)

(** The adjacency structure is well formed and lists exactly the stored entries off the diagonal,
    in order, with their absolute values (or 1) as weights, provided the matrix stores at least
    rows - 1 entries.  Missing: sparser graphs, see below. *)
Theorem C54_adjacency_partial :
  forall (S : scalar) (to_idx : car S -> Z) (A : csr S) weighted,
  csr_valid A -> c_cols A = c_rows A -> c_rows A - 1 <= nnz A ->
  exists g, make_adjacency to_idx A weighted = Ok g /\
    adjacency (c_rows A) g (off_diagonal (fun v : car S => to_idx (if weighted then sabs v else s1)) A).
Proof. exact (fun S => @make_adjacency_spec S). Qed.
Print Assumptions C54_adjacency_partial.

(** With fewer entries the reserve of a negative count throws: every such graph is refused. *)
Theorem C54_sparse_refuted :
  forall (S : scalar) (to_idx : car S -> Z) (A : csr S) weighted,
  csr_valid A -> c_cols A = c_rows A -> nnz A < c_rows A - 1 -> make_adjacency to_idx A weighted = Fail FThrow.
Proof. exact (fun S => @make_adjacency_throws S). Qed.
Print Assumptions C54_sparse_refuted.

Example C54_instance :
  csr_valid exS /\ c_cols exS = c_rows exS /\ c_rows exS - 1 <= nnz exS /\
  make_adjacency (S := Zs) (fun x => x) exS true = Ok ([0; 1; 2; 3], [1; 2; 0], [1; 3; 4]) /\
  off_diagonal (S := Zs) (fun x => x) exS = [(0, 1, 1); (1, 2, 3); (2, 0, 4)] /\
  (let G := @CSR Zs 4 4 [0; 1; 2; 2; 2] [1; 0] [1; 1] in
   csr_valid G /\ c_cols G = c_rows G /\ nnz G < c_rows G - 1).
Proof.
  split; [exact exS_valid|]. split; [reflexivity|]. split; [vm_compute; discriminate|]. split; [reflexivity|]. split; [reflexivity|].
  split; [apply csr_validb_ok; reflexivity|]. split; reflexivity.
Qed.

(* ---------------------------------------------------------------- C55 *)

(** On any solver object, whatever it was used for before: all n eigenvalues come back, between 1
    and max_evect eigenvectors, all values but the first within tolerance, and the first value left
    out is not.  Missing: max_evect = 0 gives one pair, and the reads of the next theorem but one. *)
Theorem C55_selection_partial :
  forall (S : scalar) (L : lapack (S := S)) s (D : dense S) rel mx pr s' evals evects,
  reachable L s -> dense_ok D -> d_cols D = d_rows D -> 1 <= d_rows D ->
  solve L s D rel mx pr = Ok (s', (evals, evects)) ->
  let limit := if mx <? 0 then d_rows D else mx in
  let tol := (zn s0 evals (d_rows D - 1) * rel)%S in
  evals = out_evals L (d_rows D) (d_data D) /\ zlen evals = d_rows D /\ dense_ok evects /\ d_rows evects = d_rows D /\
  1 <= d_cols evects <= d_rows D /\ (1 <= limit -> d_cols evects <= limit) /\
  (forall k, 1 <= k < d_cols evects -> within (zn s0 evals k) tol) /\
  (d_cols evects < limit -> ~ within (zn s0 evals (d_cols evects)) tol).
Proof. exact (fun S => @reachable_selection S). Qed.
Print Assumptions C55_selection_partial.

(** No array is accessed outside when at most n vectors are asked for: one call ... *)
Theorem C55_call_succeeds :
  forall (S : scalar) (L : lapack (S := S)) s (D : dense S) rel mx pr,
  reachable L s -> dense_ok D -> d_cols D = d_rows D -> mx <= d_rows D -> exists r, solve L s D rel mx pr = Ok r.
Proof. exact (fun S => @reachable_succeeds S). Qed.
Print Assumptions C55_call_succeeds.

(** ... and any sequence of such calls on one object, with matrices growing and shrinking. *)
Theorem C55_history_succeeds :
  forall (S : scalar) (L : lapack (S := S)) (calls : list (dense S * car S * Z * (list (car S) * dense S))),
  Forall fair_call calls -> exists s, solve_all L calls es_new = Ok s.
Proof. exact (fun S => @fair_history S). Qed.
Print Assumptions C55_history_succeeds.

(** Asking for more vectors than there are reads past the eigenvalues whenever all of them but the
    first are within tolerance. *)
Theorem C55_outside_refuted :
  forall (S : scalar) (L : lapack (S := S)) s (D : dense S) rel mx pr,
  reachable L s -> dense_ok D -> d_cols D = d_rows D -> 1 <= d_rows D -> d_rows D < mx ->
  let w := out_evals L (d_rows D) (d_data D) in
  (forall k, 1 <= k < d_rows D -> within (zn s0 w k) (zn s0 w (d_rows D - 1) * rel)%S) ->
  solve L s D rel mx pr = Fail FUB.
Proof. exact (fun S => @reachable_fails S). Qed.
Print Assumptions C55_outside_refuted.

(** The outcome does not depend on what the object was used for before, nor on the pair passed in. *)
Theorem C55_reuse :
  forall (S : scalar) (L : lapack (S := S)) s (D : dense S) rel mx pr pr',
  reachable L s -> dense_ok D -> d_cols D = d_rows D ->
  match solve L es_new D rel mx pr' with
  | Ok (_, r) => exists s', solve L s D rel mx pr = Ok (s', r)
  | Fail x => solve L s D rel mx pr = Fail x
  end.
Proof. exact (fun S => @reachable_reuse S). Qed.
Print Assumptions C55_reuse.

(** If LAPACK does what its documentation says, in exact arithmetic, the pairs of a symmetric
    matrix are eigenpairs: values ascending, vectors orthonormal. *)
Theorem C55_eigenpairs :
  forall (S : scalar) (L : lapack (S := S)), ring_laws S ->
  forall s (D : dense S) rel mx pr s' evals evects Q,
  reachable L s -> dense_ok D -> d_cols D = d_rows D -> 1 <= d_rows D ->
  symmetric (d_rows D) (dense_mat D) ->
  solve L s D rel mx pr = Ok (s', (evals, evects)) ->
  lapack_correct L (d_rows D) (d_data D) (d_cols evects) Q ->
  ascending (d_rows D) evals /\
  (forall j, 0 <= j < d_cols evects -> eigen (d_rows D) (dense_mat D) (zn s0 evals j) (column evects j)) /\
  orthonormal (d_rows D) (d_cols evects) (dense_mat evects).
Proof. exact (fun S => @reachable_eigenpairs S). Qed.
Print Assumptions C55_eigenpairs.

(** A LAPACK that is right for diagonal matrices with ascending entries. *)
Definition diagonal_lapack : lapack (S := Zs) :=
  Lapack (S := Zs) (fun n => 64 * n) (fun n => 64 * n) (fun n a k => zn 0 a k) (fun n a i => zn 0 a (i + i * n)) (fun n a i => 0) (fun n a i => 0)
    (fun n d e k => zn 0 d k) (fun n d e k => 0) (fun n d e m w ib isp k => if Z.modulo k n =? Z.div k n then 1 else 0) (fun n m a tau c k => zn 0 c k).

Example C55_instance :
  let D := @Dense Zs 3 3 [1; 0; 0; 0; 2; 0; 0; 0; 5] in
  let I : mat Zs := fun i j => if i =? j then 1 else 0 in
  reachable diagonal_lapack (es_new (S := Zs)) /\ dense_ok D /\ d_cols D = d_rows D /\ symmetric (S := Zs) (d_rows D) (dense_mat D) /\
  (exists s', solve diagonal_lapack es_new D 1 2 ([], d_empty) = Ok (s', ([1; 2; 5], @Dense Zs 3 2 [1; 0; 0; 0; 1; 0]))) /\
  lapack_correct diagonal_lapack (d_rows D) (d_data D) 2 I /\
  (forall k, 1 <= k < 3 -> within (S := Zs) (zn 0 (out_evals diagonal_lapack 3 (d_data D)) k) 5).
Proof.
  cbv zeta.
  split; [exists []; split; [intros ? ? ? ? []|reflexivity]|]. split; [vm_compute; intuition discriminate|]. split; [reflexivity|].
  assert (C3 : forall i, 0 <= i < 3 -> i = 0 \/ i = 1 \/ i = 2) by (intros; lia).
  assert (C2 : forall i, 0 <= i < 2 -> i = 0 \/ i = 1) by (intros; lia).
  split; [|split; [|split]].
  - intros i j Hi Hj. cbn [d_rows] in *. destruct (C3 i Hi) as [->|[->| ->]], (C3 j Hj) as [->|[->| ->]]; reflexivity.
  - eexists. reflexivity.
  - cbn [d_rows d_data]. split.
    + intros i j Hi Hj. destruct (C3 i Hi) as [->|[->| ->]], (C3 j Hj) as [->|[->| ->]]; reflexivity.
    + intros i j Hi Hj. destruct (C3 i Hi) as [->|[->| ->]], (C3 j Hj) as [->|[->| ->]]; reflexivity.
    + intros i j Hi Hij Hj. assert (Hj' : 0 <= j < 3) by lia. assert (Hi' : 0 <= i < 3) by lia.
      destruct (C3 i Hi') as [->|[->| ->]], (C3 j Hj') as [->|[->| ->]]; try lia; reflexivity.
    + intros j Hj i Hi. destruct (C3 i Hi) as [->|[->| ->]], (C2 j Hj) as [->| ->]; reflexivity.
    + intros i j Hi Hj. destruct (C2 i Hi) as [->| ->], (C2 j Hj) as [->| ->]; reflexivity.
    + intros i j Hi Hj. destruct (C3 i Hi) as [->|[->| ->]], (C2 j Hj) as [->| ->]; reflexivity.
  - intros k Hk. assert (k = 1 \/ k = 2) as [->| ->] by lia; [left|right]; reflexivity.
Qed.

(* ---------------------------------------------------------------- C64 *)

(** linalgcpp_verify stops the program in every build exactly when the condition is violated. *)
Theorem C64_verify_partial :
  forall ndebug b, (checked_verify ndebug b = Ok tt <-> b = true) /\ (checked_verify ndebug b = Fail FThrow <-> b = false).
Proof. intros ndebug []; cbn; split; split; congruence. Qed.
Print Assumptions C64_verify_partial.

(** linalgcpp_assert never stops a build with assertions enabled (NDEBUG not defined), whatever the
    condition; it stops the other builds. *)
Theorem C64_assert_refuted :
  (forall b, checked_assert false b = Ok tt) /\ checked_assert true false = Fail FThrow.
Proof. split; reflexivity. Qed.
Print Assumptions C64_assert_refuted.

(* ---------------------------------------------------------------- C66 *)

(** After any history of construction, copies, assignments, swaps and destruction, every object
    that is alive solves with the matrix it stands for as a value: Mult solves A x = b and MultAT
    solves A^T x = b.  Missing: matrices without entries, matrices that store a coordinate twice
    and moved objects. *)
Theorem C66_orientation_partial :
  forall (S : scalar) srt, sorts srt -> forall (U : umfpack (S := S)) ops os h i (A : csr S),
  ring_laws S -> umfpack_ok U -> Forall no_move ops -> Forall proper ops -> srun srt U ops = Ok (os, h) ->
  zn None (vrun ops) i = Some A -> 0 <= i < zlen (vrun ops) ->
  exists s, obj os i = Ok s /\
  forall b out, zlen b = c_rows A -> zlen out = c_rows A ->
    (exists x, ss_mult U s h b out = Ok x /\ solves (c_rows A) (csr_mat A) x b) /\
    (exists x, ss_multAT U s h b out = Ok x /\ solves (c_rows A) (mat_T (csr_mat A)) x b).
Proof. exact (fun S => @apply_solves S). Qed.
Print Assumptions C66_orientation_partial.

(** In every such history no factorisation is freed twice, used after it was freed or lost: an
    operation on living objects goes through (only a new matrix can be rejected, by an assertion),
    and the factorisations alive are those of the objects alive, one each. *)
Theorem C66_no_double_free :
  forall (S : scalar) srt, sorts srt -> forall (U : umfpack (S := S)) ops st op,
  Forall no_move ops -> Forall proper ops -> srun srt U ops = Ok st ->
  no_move op -> proper op -> scoped (fst st) op ->
  (exists st', sstep srt U st op = Ok st') \/ (exists A, op = SNew A /\ sstep srt U st op = Fail FAssert).
Proof. exact (fun S => @history_safe S). Qed.
Print Assumptions C66_no_double_free.

Theorem C66_no_leak :
  forall (S : scalar) srt, sorts srt -> forall (U : umfpack (S := S)) ops os h,
  Forall no_move ops -> Forall proper ops -> srun srt U ops = Ok (os, h) -> Permutation (objects os) (alive h).
Proof. exact (fun S => @owned S). Qed.
Print Assumptions C66_no_leak.

(** A moved-from object cannot be destroyed: its pointer was never initialised. *)
Theorem C66_moved_from_refuted :
  forall (S : scalar) srt (U : umfpack (S := S)) st st' i,
  sstep srt U st (SMove i) = Ok st' -> sstep srt U st' (SDestroy i) = Fail FUB.
Proof. exact (fun S => @moved_from_destroyed S). Qed.
Print Assumptions C66_moved_from_refuted.

(** Before that, a move hands over the solver as it is ... *)
Theorem C66_move_hands_over :
  forall (S : scalar) srt (U : umfpack (S := S)) st st' i,
  sstep srt U st (SMove i) = Ok st' -> obj (fst st') (zlen (fst st)) = obj (fst st) i /\ snd st' = snd st.
Proof. exact (fun S => @moved S). Qed.
Print Assumptions C66_move_hands_over.

(** ... move assignment does the same and frees what the target held, but its source cannot be
    destroyed either ... *)
Theorem C66_move_assignment_refuted :
  forall (S : scalar) srt (U : umfpack (S := S)) st st' i j,
  sstep srt U st (SMoveAssign i j) = Ok st' ->
  i <> j /\ obj (fst st') i = obj (fst st) j /\ sstep srt U st' (SDestroy j) = Fail FUB /\
  exists t, obj (fst st) i = Ok t /\ ss_destroy t (snd st) = Ok (snd st').
Proof. exact (fun S => @move_assigned S). Qed.
Print Assumptions C66_move_assignment_refuted.

(** ... and moving an object to itself is undefined. *)
Theorem C66_self_move_refuted :
  forall (S : scalar) srt (U : umfpack (S := S)) st i s,
  obj (fst st) i = Ok s -> sstep srt U st (SMoveAssign i i) = Fail FUB.
Proof. exact (fun S => @self_moved S). Qed.
Print Assumptions C66_self_move_refuted.

(** Neither can the copy of a solver whose matrix stores nothing, nor can it be applied. *)
Theorem C66_copy_of_empty_refuted :
  forall (S : scalar) (U : umfpack (S := S)) s h s' h', nnz (ss_A s) = 0 -> ss_copy U s h = Ok (s', h') ->
  ss_destroy s' h' = Fail FUB /\
  forall b out, zlen b = c_cols (ss_A s) -> zlen out = c_rows (ss_A s) -> ss_mult U s' h' b out = Fail FUB.
Proof. exact (fun S => @copy_of_empty S). Qed.
Print Assumptions C66_copy_of_empty_refuted.

(** A matrix that stores nothing is accepted, and every system with it gets the answer zero. *)
Theorem C66_empty_refuted :
  forall (S : scalar) srt (U : umfpack (S := S)) (A : csr S) h, c_rows A = c_cols A -> nnz A = 0 ->
  ss_make srt U A h = Ok (Solver A Null, h) /\
  forall b out, zlen b = c_rows A -> zlen out = c_rows A -> ss_mult U (Solver A Null) h b out = Ok (map (fun _ => s0) out).
Proof. exact (fun S => @empty_accepted S). Qed.
Print Assumptions C66_empty_refuted.

(** A factorisation library that is right and accepts only one 2 x 2 matrix. *)
Definition one_matrix : csr Zs := @CSR Zs 2 2 [0; 1; 3] [0; 0; 1] [1; 2; 1].
Definition one_umfpack : umfpack (S := Zs) :=
  let eqb (a b : list Z) := if list_eq_dec Z.eq_dec a b then true else false in
  Umfpack (S := Zs)
    (fun G => (c_rows G =? 2) && (c_cols G =? 2) && eqb (c_ptr G) [0; 1; 3] && eqb (c_idx G) [0; 0; 1] && eqb (c_val G) [1; 2; 1])
    (fun sys G b => let b0 := zn 0 b 0 in let b1 := zn 0 b 1 in
       Some match sys with UMF_A => [b0 - 2 * b1; b1] | UMF_At => [b0; b1 - 2 * b0] end).

Example C66_move_instance :
  let A := @CSR Zs 2 2 [0; 1; 3] [0; 1; 0] [1; 1; 2] in
  (exists os h s, srun insertion_sort one_umfpack [SNew A; SNew A; SMoveAssign 0 1] = Ok (os, h) /\ obj os 0 = Ok s /\
     ss_mult one_umfpack s h [3; 5] [0; 0] = Ok [3; -1]) /\
  srun insertion_sort one_umfpack [SNew A; SNew A; SMoveAssign 0 1; SDestroy 1] = Fail FUB /\
  srun insertion_sort one_umfpack [SNew A; SMoveAssign 0 0] = Fail FUB /\
  srun insertion_sort one_umfpack [SNew A; SMove 0; SDestroy 0] = Fail FUB.
Proof. cbv zeta. split; [do 3 eexists; repeat split; vm_compute; reflexivity|repeat split; vm_compute; reflexivity]. Qed.

Example C66_instance :
  let A := @CSR Zs 2 2 [0; 1; 3] [0; 1; 0] [1; 1; 2] in
  let ops := [SNew A; SCopy 0; SAssign 0 1; SSwap 0 1; SDestroy 0] in
  umfpack_ok one_umfpack /\ Forall no_move ops /\ Forall proper ops /\ vrun ops = [None; Some A] /\
  (exists os h s, srun insertion_sort one_umfpack ops = Ok (os, h) /\ obj os 1 = Ok s /\
     ss_mult one_umfpack s h [3; 5] [0; 0] = Ok [3; -1] /\ ss_multAT one_umfpack s h [3; 5] [0; 0] = Ok [-7; 5]).
Proof.
  cbv zeta.
  split.
  { intros G _ _ _ _ Hf b Hb. destruct G as [r c p ix v]. unfold one_umfpack in Hf. cbn [umf_factor c_rows c_cols c_ptr c_idx c_val] in *.
    repeat rewrite andb_true_iff in Hf. destruct Hf as ((((H1 & H2) & H3) & H4) & H5).
    apply Z.eqb_eq in H1, H2. destruct (list_eq_dec Z.eq_dec p [0; 1; 3]); [|discriminate].
    destruct (list_eq_dec Z.eq_dec ix [0; 0; 1]); [|discriminate]. destruct (list_eq_dec Z.eq_dec v [1; 2; 1]); [|discriminate]. subst.
    destruct b as [|b0 [|b1 [|b2 b]]]; try discriminate Hb; [|exfalso; rewrite !zlen_cons in Hb; pose proof (zlen_nonneg b); lia].
    change (@CSR Zs 2 2 [0; 1; 3] [0; 0; 1] [1; 2; 1]) with one_matrix.
    assert (G : forall (M : mat Zs) (x : vect Zs) i, mat_vec M 2 x i = M i 0 * x 0 + M i 1 * x 1).
    { intros. change (mat_vec M 2 x i) with (M i 0 * x 0 + (M i 1 * x 1 + 0)). lia. }
    assert (E00 : csr_mat one_matrix 0 0 = 1) by reflexivity. assert (E01 : csr_mat one_matrix 0 1 = 0) by reflexivity.
    assert (E10 : csr_mat one_matrix 1 0 = 2) by reflexivity. assert (E11 : csr_mat one_matrix 1 1 = 1) by reflexivity.
    split; (eexists; split; [reflexivity|]; split; [reflexivity|]); intros i Hi; rewrite G; unfold mat_T, csc_mat;
      (assert (i = 0 \/ i = 1) as [->| ->] by lia); rewrite ?E00, ?E01, ?E10, ?E11; 
      unfold vec_of, zn; change (Z.to_nat 1) with 1%nat; change (Z.to_nat 0) with 0%nat; cbn [nth];
      change (@s0 Zs) with 0. all: lia. }
  split; [repeat constructor|]. split; [|split; [reflexivity|]].
  - constructor; [|repeat constructor]. split; [apply csr_validb_ok; reflexivity|]. split; [reflexivity|]. vm_compute.
    repeat constructor; cbn; intuition congruence.
  - do 3 eexists. repeat split; reflexivity.
Qed.
