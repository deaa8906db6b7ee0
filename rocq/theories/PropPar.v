(** Properties C56 to C59, C62 and C83 to C86: offsets, column maps, distributed matrices and
    vectors. *)

From Coq Require Import ZArith List Bool Lia Permutation.
From Verif Require Import Base Scalar Spec Dense Sparse SparseMore CsrFacts SortProofs Examples Coo CooSpec Vec VecSpec
  Par ParSpec ParProofs ParSplitProofs ParVecProofs ParOpProofs ParLinks ParExamples.
Import ListNotations.
Open Scope Z_scope.

(* ---------------------------------------------------------------- C56 *)

(** GenerateOffsets(sizes): on rank r, the i-th result holds the sum of the i-th sizes of the ranks
    before r, the same sum with rank r, and the sum over all ranks. *)
Theorem C56_offsets :
  forall (sizes : list (list Z)) (n : Z), 0 < zlen sizes -> (forall r, 0 <= r < zlen sizes -> zlen (zn [] sizes r) = n) ->
  exists offs, generate_offsets sizes = Ok offs /\ zlen offs = zlen sizes /\
    forall r, 0 <= r < zlen sizes -> zlen (zn [] offs r) = n /\
    forall i, 0 <= i < n ->
      let local := map (fun l => zn 0 l i) sizes in
      zn [] (zn [] offs r) i = [first_of local r; first_of local (r + 1); first_of local (zlen sizes)].
Proof. exact offsets_tile. Qed.
Print Assumptions C56_offsets.

(** GenerateOffsets(size). *)
Theorem C56_offset :
  forall sizes : list Z, 0 < zlen sizes ->
  generate_offsets1 sizes = Ok (map (fun r => [first_of sizes r; first_of sizes (r + 1); first_of sizes (zlen sizes)]) (zrange 0 (zlen sizes))).
Proof. exact generate_offsets1_ok. Qed.
Print Assumptions C56_offset.

(** These ranges start at 0, are adjacent and have the sizes asked for. *)
Theorem C56_adjacent :
  forall sizes : list Z, first_of sizes 0 = 0 /\ forall r, 0 <= r -> first_of sizes (r + 1) = first_of sizes r + zn 0 sizes r.
Proof. exact (fun sizes => conj (first_of_0 sizes) (first_of_S sizes)). Qed.
Print Assumptions C56_adjacent.

(** Every index below the total belongs to exactly one rank. *)
Theorem C56_one_owner :
  forall (sizes : list Z) (g : Z), (forall r, 0 <= r < zlen sizes -> 0 <= zn 0 sizes r) -> 0 <= g < first_of sizes (zlen sizes) ->
  exists! r, 0 <= r < zlen sizes /\ first_of sizes r <= g < first_of sizes (r + 1).
Proof. exact owner. Qed.
Print Assumptions C56_one_owner.

(** Ranks that pass different numbers of sizes: the reduction runs past a buffer. *)
Theorem C56_different_counts :
  forall (sizes : list (list Z)) (n r q : Z), 0 <= r < zlen sizes -> 0 <= q < zlen sizes ->
  zlen (zn [] sizes r) = n -> zlen (zn [] sizes q) <> n -> generate_offsets sizes = Fail FUB.
Proof. exact generate_offsets_refuses. Qed.
Print Assumptions C56_different_counts.

Example C56_instance :
  0 < zlen [3; 0; 2] /\ (forall r, 0 <= r < zlen [3; 0; 2] -> 0 <= zn 0 [3; 0; 2] r) /\
  generate_offsets1 [3; 0; 2] = Ok [[0; 3; 5]; [3; 3; 5]; [3; 5; 5]] /\
  generate_offsets [[3; 1]; [0; 1]; [2; 4]] = Ok [[[0; 3; 5]; [0; 1; 6]]; [[3; 3; 5]; [1; 2; 6]]; [[3; 5; 5]; [2; 6; 6]]].
Proof.
  split; [reflexivity|]. split; [|split; reflexivity]. intros r Hr. change (zlen [3; 0; 2]) with 3 in Hr. assert (r = 0 \/ r = 1 \/ r = 2) as [->|[->| ->]] by lia; discriminate.
Qed.

(* ---------------------------------------------------------------- C57 *)

(** SortColumnMap sorts the map, keeps its elements, and every entry keeps its row, its global
    column and its value. *)
Theorem C57_sort_column_map :
  forall (S : scalar) (srt : sorter) (cm : list Z) (M : coo S), sorts srt -> coo_ok M -> o_set M = true -> o_cols M = zlen cm ->
  exists cm' M', sort_column_map srt cm M = Ok (cm', M') /\
    Permutation cm cm' /\ (forall i j, 0 <= i < j -> j < zlen cm' -> zn 0 cm' i <= zn 0 cm' j) /\
    o_rows M' = o_rows M /\ o_cols M' = o_cols M /\ o_set M' = true /\ coo_ok M' /\
    map (fun e => (erow e, zn 0 cm' (ecol e), evalue e)) (o_entries M') = map (fun e => (erow e, zn 0 cm (ecol e), evalue e)) (o_entries M).
Proof. exact @sort_column_map_spec. Qed.
Print Assumptions C57_sort_column_map.

Example C57_instance :
  let cm := [7; 2; 9; 4] in
  let M : coo Zs := @Coo Zs 2 4 true [(0, 0, 5); (1, 2, 6); (1, 3, 1); (0, 1, 8)] in
  sorts insertion_sort /\ coo_ok M /\ o_set M = true /\ o_cols M = zlen cm /\
  sort_column_map insertion_sort cm M = Ok ([2; 4; 7; 9], @Coo Zs 2 4 true [(0, 2, 5); (1, 3, 6); (1, 1, 1); (0, 0, 8)]).
Proof.
  split; [exact insertion_sort_sorts|]. split.
  - refine (conj _ (conj _ _)); [discriminate|discriminate|]. cbn [o_set o_rows o_cols o_entries]. unfold in_shape. repeat (apply Forall_cons; [cbn [erow ecol fst snd]; lia|]). apply Forall_nil.
  - split; [reflexivity|]. split; [reflexivity|]. vm_compute. reflexivity.
Qed.

(* ---------------------------------------------------------------- C58 *)

(** ParAdd(A, B) represents A + B, on every rank. *)
Theorem C58_add :
  forall (S : scalar), eqb_laws S -> ring_laws S -> forall srt : sorter, sorts srt -> forall reorder, reorders reorder ->
  forall A B : parmat S, pm_valid A -> pm_valid B -> same_layout A B ->
  exists C, par_add1 srt reorder A B = Ok C /\ pm_valid C /\ same_layout A C /\ forall i j, pm_mat C i j = sadd (pm_mat A i j) (pm_mat B i j).
Proof. exact @par_add1_sum. Qed.
Print Assumptions C58_add.

(** ParAdd(A, B) represents A + B, over all ranks. *)
Theorem C58_add_global :
  forall (S : scalar), eqb_laws S -> ring_laws S -> forall srt : sorter, sorts srt -> forall reorder, reorders reorder ->
  forall As Bs : list (parmat S), zlen Bs = zlen As ->
  (forall r A B, get As r = Ok A -> get Bs r = Ok B -> pm_valid A /\ pm_valid B /\ same_layout A B) ->
  exists Cs, ranks (zlen As) (fun r => A <- get As r ;; B <- get Bs r ;; par_add1 srt reorder A B) = Ok Cs /\ zlen Cs = zlen As /\ Forall pm_valid Cs /\
    forall i j, world_mat Cs i j = sadd (world_mat As i j) (world_mat Bs i j).
Proof. exact @par_add1_world. Qed.
Print Assumptions C58_add_global.

(** ParAdd(alpha, A, beta, B, marker) represents alpha A + beta B and hands the marker back all -1
    if alpha is 1 or A stores nothing outside its diagonal block, and if beta is 1 or every
    off-diagonal column that B stores is one that A stores.  Missing: other cases, see below. *)
Theorem C58_combination_partial :
  forall (S : scalar), eqb_laws S -> ring_laws S -> forall srt : sorter, sorts srt -> forall reorder, reorders reorder ->
  forall (alpha : car S) (A : parmat S) (beta : car S) (B : parmat S) (marker : list Z),
  pm_valid A -> pm_valid B -> same_layout A B -> pm_gcols A <= zlen marker ->
  (alpha = s1 \/ entries (pm_offd A) = []) ->
  (beta = s1 \/ forall g, offd_cols B g -> offd_cols A g) ->
  exists C marker', par_add_marker srt reorder alpha A beta B marker = Ok (C, marker') /\ pm_valid C /\ same_layout A C /\ marker' = map (fun _ => -1) marker /\
    forall i j, pm_mat C i j = sadd (smul alpha (pm_mat A i j)) (smul beta (pm_mat B i j)).
Proof. exact @par_add_marker_sum. Qed.
Print Assumptions C58_combination_partial.

(** ParSub(alpha, A, beta, B) represents alpha A - beta B under the same conditions. *)
Theorem C58_sub_partial :
  forall (S : scalar), eqb_laws S -> ring_laws S -> forall srt : sorter, sorts srt -> forall reorder, reorders reorder ->
  forall (alpha : car S) (A : parmat S) (beta : car S) (B : parmat S),
  pm_valid A -> pm_valid B -> same_layout A B ->
  (alpha = s1 \/ entries (pm_offd A) = []) -> (forall g, offd_cols B g -> offd_cols A g) ->
  exists C, par_sub srt reorder alpha A beta B = Ok C /\ pm_valid C /\ same_layout A C /\
    forall i j, pm_mat C i j = ssub (smul alpha (pm_mat A i j)) (smul beta (pm_mat B i j)).
Proof. exact @par_sub_sum. Qed.
Print Assumptions C58_sub_partial.

(** ParSub(A, B) represents A - B if every off-diagonal column that B stores is one that A stores. *)
Theorem C58_difference_partial :
  forall (S : scalar), eqb_laws S -> ring_laws S -> forall srt : sorter, sorts srt -> forall reorder, reorders reorder ->
  forall A B : parmat S, pm_valid A -> pm_valid B -> same_layout A B -> (forall g, offd_cols B g -> offd_cols A g) ->
  exists C, par_sub1 srt reorder A B = Ok C /\ pm_valid C /\ same_layout A C /\ forall i j, pm_mat C i j = ssub (pm_mat A i j) (pm_mat B i j).
Proof. exact @par_sub1_sum. Qed.
Print Assumptions C58_difference_partial.

(** What ParAdd(alpha, A, beta, B) computes in every case: the diagonal blocks are combined as
    asked, and of the off-diagonal entries of A, then B, the first one in every column is not
    multiplied by its coefficient (parutilities.cpp:279). *)
Theorem C58_computed :
  forall (S : scalar), eqb_laws S -> ring_laws S -> forall srt : sorter, sorts srt -> forall reorder, reorders reorder ->
  forall (alpha : car S) (A : parmat S) (beta : car S) (B : parmat S),
  pm_valid A -> pm_valid B -> same_layout A B ->
  exists C, par_add srt reorder alpha A beta B = Ok C /\ pm_valid C /\ same_layout A C /\
    forall i j, pm_mat C i j =
      sadd (sadd (smul alpha (csr_mat (pm_diag A) (i - row0 A) (j - col0 A))) (smul beta (csr_mat (pm_diag B) (i - row0 A) (j - col0 A))))
           (mat_of (scaled_but_first (with_coef alpha (offd_entries A) ++ with_coef beta (offd_entries B))) (i - row0 A) j).
Proof. exact @par_add_exact. Qed.
Print Assumptions C58_computed.

Theorem C58_difference_computed :
  forall (S : scalar), eqb_laws S -> ring_laws S -> forall srt : sorter, sorts srt -> forall reorder, reorders reorder ->
  forall A B : parmat S, pm_valid A -> pm_valid B -> same_layout A B ->
  exists C, par_sub1 srt reorder A B = Ok C /\ pm_valid C /\ same_layout A C /\
    forall i j, pm_mat C i j =
      sadd (ssub (csr_mat (pm_diag A) (i - row0 A) (j - col0 A)) (csr_mat (pm_diag B) (i - row0 A) (j - col0 A)))
           (mat_of (scaled_but_first (with_coef s1 (offd_entries A) ++ with_coef (sopp s1) (offd_entries B))) (i - row0 A) j).
Proof. exact @par_sub1_exact. Qed.
Print Assumptions C58_difference_computed.

(** So ParAdd(2, A, 0, B) is not 2 A and ParSub(B, A) is not B - A. *)
Theorem C58_refuted :
  pm_valid exP0 /\ pm_valid exQ0 /\ same_layout exP0 exQ0 /\
  (exists C, par_add insertion_sort no_reorder (2 : car Zs) exP0 (0 : car Zs) exQ0 = Ok C /\ pm_mat C 0 3 = 3 /\ pm_mat exP0 0 3 = 3) /\
  (exists C, par_sub1 insertion_sort no_reorder exP0 exQ0 = Ok C /\ pm_mat C 0 2 = 2 /\ pm_mat exP0 0 2 = 0 /\ pm_mat exQ0 0 2 = 2).
Proof.
  split; [exact exP0_valid|]. split; [exact exQ0_valid|]. split; [split; reflexivity|]. split.
  - result_of (par_add (S := Zs) insertion_sort no_reorder 2 exP0 0 exQ0) ltac:(fun f => exists f). split; [vm_compute; reflexivity|]. split; vm_compute; reflexivity.
  - result_of (par_sub1 (S := Zs) insertion_sort no_reorder exP0 exQ0) ltac:(fun f => exists f). split; [vm_compute; reflexivity|]. split; [|split]; vm_compute; reflexivity.
Qed.
Print Assumptions C58_refuted.

Example C58_instance :
  eqb_laws Zs /\ ring_laws Zs /\ sorts insertion_sort /\ reorders (@no_reorder Zs) /\
  pm_valid exP0 /\ pm_valid exQ0 /\ pm_valid exP1 /\ pm_valid exQ1 /\ same_layout exP0 exQ0 /\ same_layout exP1 exQ1 /\
  (forall g, offd_cols exP0 g -> offd_cols exQ0 g) /\
  exists C, par_add1 insertion_sort no_reorder exP0 exQ0 = Ok C /\ pm_map C = [2; 3] /\ pm_mat C 0 3 = 6.
Proof.
  split; [exact Zs_eqb|]. split; [exact Zs_ring|]. split; [exact insertion_sort_sorts|]. split; [exact no_reorder_ok|].
  split; [exact exP0_valid|]. split; [exact exQ0_valid|]. split; [exact exP1_valid|]. split; [exact exQ1_valid|]. split; [split; reflexivity|]. split; [split; reflexivity|]. split.
  - intros g (e & I & <-). vm_compute in I. destruct I as [<-|[]]. exists (0, 1, 3). split; [vm_compute; auto|reflexivity].
  - result_of (par_add1 (S := Zs) insertion_sort no_reorder exP0 exQ0) ltac:(fun f => exists f). split; [vm_compute; reflexivity|]. split; vm_compute; reflexivity.
Qed.

(* ---------------------------------------------------------------- C59 *)

(** ParSplit of a matrix whose diagonal blocks are symmetric: the ranks together hold the matrix,
    vertex i in the global row renumber i.  Missing: other matrices, see below. *)
Theorem C59_split_partial :
  forall (S : scalar), eqb_laws S -> ring_laws S -> forall (srt : sorter) (reorder : csr S -> csr S) (A : csr S) (part : list Z) (p : Z),
  sorts srt -> reorders reorder -> csr_valid A -> c_rows A = c_cols A ->
  0 < p -> zlen part = c_rows A -> (forall i, 0 <= i < zlen part -> 0 <= zn 0 part i < p) ->
  (forall i j, zn 0 part i = zn 0 part j -> csr_mat A i j = csr_mat A j i) ->
  exists Cs, par_split srt reorder p A part = Ok Cs /\ zlen Cs = p /\ Forall pm_valid Cs /\
    forall i j, 0 <= i < zlen part -> 0 <= j < zlen part -> world_mat Cs (renumber part i) (renumber part j) = csr_mat A i j.
Proof. exact (fun S => @par_split_symmetric S). Qed.
Print Assumptions C59_split_partial.

(** For every square matrix: rank r owns the rows of the vertices labelled r, and between two
    vertices of one rank the entry above the diagonal is used in both directions. *)
Theorem C59_computed :
  forall (S : scalar), eqb_laws S -> ring_laws S -> forall (srt : sorter) (reorder : csr S -> csr S) (A : csr S) (part : list Z) (p : Z),
  sorts srt -> reorders reorder -> csr_valid A -> c_rows A = c_cols A ->
  0 < p -> zlen part = c_rows A -> (forall i, 0 <= i < zlen part -> 0 <= zn 0 part i < p) ->
  exists Cs, par_split srt reorder p A part = Ok Cs /\ zlen Cs = p /\
    (forall r C, get Cs r = Ok C -> pm_valid C /\ pm_cs C = pm_rs C /\ pm_grows C = c_rows A /\
      forall i, 0 <= i < zlen part -> (zn 0 (pm_rs C) 0 <= renumber part i < zn 0 (pm_rs C) 1 <-> zn 0 part i = r)) /\
    forall i j, 0 <= i < zlen part -> 0 <= j < zlen part ->
      world_mat Cs (renumber part i) (renumber part j) = if zn 0 part i =? zn 0 part j then csr_mat A (Z.min i j) (Z.max i j) else csr_mat A i j.
Proof. exact (fun S => @par_split_rows S). Qed.
Print Assumptions C59_computed.

(** Other matrices are refused. *)
Theorem C59_not_square :
  forall (S : scalar) (srt : sorter) (reorder : csr S -> csr S) (A : csr S) (part : list Z) (p : Z),
  c_rows A <> c_cols A -> par_split srt reorder p A part = Fail FAssert.
Proof. exact @par_split_square. Qed.
Print Assumptions C59_not_square.

(** The renumbering is a permutation that keeps the order of the vertices of a rank. *)
Theorem C59_renumbering :
  forall (part : list Z) (p : Z), (forall i, 0 <= i < zlen part -> 0 <= zn 0 part i < p) ->
  is_perm (zlen part) (map (renumber part) (zrange 0 (zlen part))) /\
  forall v w, 0 <= v <= w -> w < zlen part -> zn 0 part v = zn 0 part w -> renumber part v <= renumber part w.
Proof. exact (fun part p H => conj (renumber_perm part p H) (renumber_mono part)). Qed.
Print Assumptions C59_renumbering.

(** A matrix with one entry above the diagonal comes back with two. *)
Theorem C59_refuted :
  let A : csr Zs := @CSR Zs 2 2 [0; 1; 1] [1] [5] in
  csr_valid A /\ exists C, par_split insertion_sort no_reorder 1 A [0; 0] = Ok [C] /\
    csr_mat A 1 0 = 0 /\ world_mat [C] (renumber [0; 0] 1) (renumber [0; 0] 0) = 5.
Proof.
  split; [apply csr_validb_ok; vm_compute; reflexivity|]. result_of (par_split (S := Zs) insertion_sort no_reorder 1 (@CSR Zs 2 2 [0; 1; 1] [1] [5]) [0; 0]) ltac:(fun f => match f with [?C] => exists C end).
  split; [vm_compute; reflexivity|]. split; vm_compute; reflexivity.
Qed.
Print Assumptions C59_refuted.

Example C59_instance :
  csr_valid exG /\ c_rows exG = c_cols exG /\ zlen exG_part = c_rows exG /\ (forall i, 0 <= i < zlen exG_part -> 0 <= zn 0 exG_part i < 2) /\
  map (renumber exG_part) (zrange 0 3) = [2; 0; 1] /\
  exists C0 C1, par_split insertion_sort no_reorder 2 exG exG_part = Ok [C0; C1] /\
    pm_rs C0 = [0; 2; 3] /\ pm_rs C1 = [2; 3; 3] /\ pm_map C0 = [2] /\ pm_map C1 = [1] /\
    world_mat [C0; C1] 1 2 = 3 /\ world_mat [C0; C1] 2 1 = 1 /\ world_mat [C0; C1] 0 1 = 2.
Proof.
  split; [apply csr_validb_ok; vm_compute; reflexivity|]. split; [reflexivity|]. split; [reflexivity|]. split.
  { intros i Hi. change (zlen exG_part) with 3 in Hi. assert (i = 0 \/ i = 1 \/ i = 2) as [->|[->| ->]] by lia; cbv; split; congruence. }
  split; [reflexivity|]. result_of (par_split insertion_sort no_reorder 2 exG exG_part) ltac:(fun f => match f with [?C0; ?C1] => exists C0, C1 end).
  split; [vm_compute; reflexivity|]. do 4 (split; [reflexivity|]). split; [|split]; vm_compute; reflexivity.
Qed.

(* ---------------------------------------------------------------- C62 *)

(** ParMult, ParVector::Mult: the inner product of the concatenated data, on every rank and for
    every order in which MPI adds the contributions. *)
Theorem C62_mult :
  forall (S : scalar), ring_laws S -> forall (red : allreduce (S := S)) (ws : list (heap S * view * view)), sums red -> ws <> [] ->
  (forall h x y, In (h, x, y) ws -> view_ok h x /\ view_ok h y /\ v_len y = v_len x) ->
  par_mult red ws = Ok (map (fun _ => dot (dist_list (map (fun w => (fst (fst w), snd (fst w))) ws)) (dist_list (map (fun w => (fst (fst w), snd w)) ws))) ws).
Proof. exact @par_mult_ok. Qed.
Print Assumptions C62_mult.

(** ParL2Norm, ParVector::L2Norm. *)
Theorem C62_l2norm :
  forall (S : scalar), ring_laws S -> forall (red : allreduce (S := S)) (sqrt : car S -> car S) (ws : list (heap S * view)), sums red -> ws <> [] ->
  (forall h x, In (h, x) ws -> view_ok h x) ->
  par_l2norm red sqrt ws = Ok (map (fun _ => sqrt (dot (dist_list ws) (dist_list ws))) ws).
Proof. exact @par_l2norm_ok. Qed.
Print Assumptions C62_l2norm.

(** GlobalSum. *)
Theorem C62_global_sum :
  forall (S : scalar), ring_laws S -> forall (red : allreduce (S := S)) (ws : list (heap S * view)), sums red -> ws <> [] ->
  (forall h x, In (h, x) ws -> view_ok h x) ->
  par_sum red ws = Ok (map (fun _ => sum_list (dist_list ws)) ws).
Proof. exact @par_sum_ok. Qed.
Print Assumptions C62_global_sum.

(** SubAvg subtracts the global average from the elements of every rank and writes nothing else. *)
Theorem C62_sub_avg :
  forall (S : scalar), ring_laws S -> forall (red : allreduce (S := S)) (n : Z) (ws : list (heap S * view)), sums red -> ws <> [] ->
  (forall h x, In (h, x) ws -> view_ok h x) ->
  exists hs, par_sub_avg red n ws = Ok hs /\ zlen hs = zlen ws /\
    forall r h x, get ws r = Ok (h, x) -> exists h', get hs r = Ok h' /\
      writes h x (fun i => ssub (vat h x i) (sdiv (sum_list (dist_list ws)) (of_int n))) h'.
Proof. exact @par_sub_avg_ok. Qed.
Print Assumptions C62_sub_avg.

(** Local vectors of different lengths on some rank are refused. *)
Theorem C62_sizes :
  forall (S : scalar), ring_laws S -> forall (red : allreduce (S := S)) (ws : list (heap S * view * view)) (r : Z) (h : heap S) (x y : view),
  get ws r = Ok (h, x, y) -> v_len y <> v_len x ->
  (forall q h x y, 0 <= q < r -> get ws q = Ok (h, x, y) -> view_ok h x /\ view_ok h y /\ v_len y = v_len x) ->
  par_mult red ws = Fail FAssert.
Proof. exact @par_mult_size. Qed.
Print Assumptions C62_sizes.

(** Three ranks, the second without elements. *)
Example C62_instance :
  let w l : heap Zs * view * view := ([Some (@Block Zs l (zlen l))], View 0 0 (zlen l), View 0 0 (zlen l)) in
  let ws := [w [1; 2]; w []; w [3]] in
  ring_laws Zs /\ sums (@left_sum Zs) /\ (forall h x y, In (h, x, y) ws -> view_ok h x /\ view_ok h y /\ v_len y = v_len x) /\
  par_mult left_sum ws = Ok [14; 14; 14] /\ par_sum left_sum (map fst ws) = Ok [6; 6; 6].
Proof.
  split; [exact Zs_ring|]. split; [exact left_sum_ok|]. split; [|split; vm_compute; reflexivity].
  assert (G : forall l : list Z, view_ok (S := Zs) [Some (@Block Zs l (zlen l))] (View 0 0 (zlen l))).
  { intros l. split; [apply zlen_nonneg|]. right. eexists. split; [reflexivity|]. cbn [v_off v_len b_cells]. change (0 <= 0 /\ 0 + zlen l <= zlen l). lia. }
  intros h x y [Q|[Q|[Q|[]]]]; injection Q as <- <- <-; (split; [apply G|split; [apply G|reflexivity]]).
Qed.

(* ---------------------------------------------------------------- C83 *)

(** The constructor accepts exactly the consistent layouts. *)
Theorem C83_constructor :
  forall (S : scalar) (reorder : csr S -> csr S), reorders reorder ->
  forall (rs cs : list Z) (D O : csr S) (cm : list Z), csr_valid D -> csr_valid O ->
  ((exists A, pm_make reorder rs cs D O cm = Ok A) <-> layout rs cs D O cm).
Proof. exact @pm_make_iff. Qed.
Print Assumptions C83_constructor.

(** Then the matrix is valid and holds the blocks. *)
Theorem C83_constructed :
  forall (S : scalar) (reorder : csr S -> csr S), reorders reorder ->
  forall (rs cs : list Z) (D O : csr S) (cm : list Z), csr_valid D -> csr_valid O -> layout rs cs D O cm ->
  exists A, pm_make reorder rs cs D O cm = Ok A /\ pm_valid A /\ pm_rs A = rs /\ pm_cs A = cs /\ pm_map A = cm /\
    pm_diag A = reorder D /\ entries (pm_offd A) = entries O.
Proof. exact @pm_make_ok. Qed.
Print Assumptions C83_constructed.

(** Without starts, the ranks agree on the layout in which rank 0's rows and columns come first,
    then rank 1's, ... *)
Theorem C83_collective :
  forall (S : scalar) (reorder : csr S -> csr S), reorders reorder ->
  forall parts : list (csr S * csr S * list Z), 0 < zlen parts ->
  let rows := map (fun x => c_rows (fst (fst x))) parts in
  let cols := map (fun x => c_cols (fst (fst x))) parts in
  let rs r := [first_of rows r; first_of rows (r + 1); first_of rows (zlen parts)] in
  let cs r := [first_of cols r; first_of cols (r + 1); first_of cols (zlen parts)] in
  (forall r D O cm, get parts r = Ok (D, O, cm) -> csr_valid D /\ csr_valid O /\ layout (rs r) (cs r) D O cm) ->
  exists As, pm_make_all reorder parts = Ok As /\ zlen As = zlen parts /\
    forall r D O cm, get parts r = Ok (D, O, cm) -> exists A, get As r = Ok A /\ pm_valid A /\ pm_rs A = rs r /\ pm_cs A = cs r /\ pm_map A = cm /\
      pm_diag A = reorder D /\ entries (pm_offd A) = entries O.
Proof. exact @pm_make_all_ok. Qed.
Print Assumptions C83_collective.

Example C83_instance :
  layout (pm_rs exP0) (pm_cs exP0) (pm_diag exP0) (pm_offd exP0) (pm_map exP0) /\
  pm_make no_reorder (pm_rs exP0) (pm_cs exP0) (pm_diag exP0) (pm_offd exP0) (pm_map exP0) = Ok exP0 /\
  pm_make_all no_reorder [(pm_diag exP0, pm_offd exP0, pm_map exP0); (pm_diag exP1, pm_offd exP1, pm_map exP1)] = Ok [exP0; exP1] /\
  pm_make no_reorder (pm_rs exP1) (pm_cs exP1) (pm_diag exP1) (pm_offd exP1) [1; 0] = Fail FAssert /\
  pm_make no_reorder (pm_rs exP1) (pm_cs exP1) (pm_diag exP1) (pm_offd exP1) [0; 2] = Fail FAssert.
Proof.
  split.
  - apply (pm_make_inv no_reorder _ _ _ _ _ exP0); [apply (pv_diag _ exP0_valid)|apply (pv_offd _ exP0_valid)|vm_compute; reflexivity].
  - repeat split; vm_compute; reflexivity.
Qed.

(* ---------------------------------------------------------------- C84 *)

(** A *= t. *)
Theorem C84_scale :
  forall (S : scalar) (A : parmat S) (t : car S), pm_valid A -> pm_updates (Ok (pm_scale A t)) A (fun _ _ a => smul a t).
Proof. exact @pm_scale_updates. Qed.
Print Assumptions C84_scale.

(** A = t for t <> 0. *)
Theorem C84_fill :
  forall (S : scalar) (A : parmat S) (t : car S), pm_valid A -> seqb t s0 = false -> pm_updates (pm_fill A t) A (fun _ _ _ => t).
Proof. exact @pm_fill_updates. Qed.
Print Assumptions C84_fill.

(** ScaleRows, InverseScaleRows, EliminateRow: the k-th local row is the global row row0 + k. *)
Theorem C84_scale_rows :
  forall (S : scalar) (A : parmat S) (w : list (car S)), pm_valid A -> zlen w = pm_rows A ->
  pm_updates (pm_scale_rows A w) A (fun i _ a => smul a (vec_of w (i - row0 A))).
Proof. exact @pm_scale_rows_updates. Qed.
Print Assumptions C84_scale_rows.

Theorem C84_inverse_scale_rows :
  forall (S : scalar) (A : parmat S) (w : list (car S)), pm_valid A -> zlen w = pm_rows A ->
  (forall i, 0 <= i < pm_rows A -> seqb (vec_of w i) s0 = false) ->
  pm_updates (pm_inv_scale_rows A w) A (fun i _ a => sdiv a (vec_of w (i - row0 A))).
Proof. exact @pm_inv_scale_rows_updates. Qed.
Print Assumptions C84_inverse_scale_rows.

Theorem C84_eliminate_row :
  forall (S : scalar) (A : parmat S) (k : Z), pm_valid A -> 0 <= k < pm_rows A ->
  pm_updates (pm_elim_row A k) A (fun i _ a => if i =? row0 A + k then s0 else a).
Proof. exact @pm_elim_row_updates. Qed.
Print Assumptions C84_eliminate_row.

(** AddDiag adds to every stored entry on the diagonal of the square diagonal block, and to nothing
    else. *)
Theorem C84_add_diag :
  forall (S : scalar) (A : parmat S) (w : list (car S)), pm_valid A -> pm_rows A = pm_cols A -> zlen w = pm_rows A ->
  pm_updates (pm_add_diag A w) A (fun i j a => if j - col0 A =? i - row0 A then sadd a (vec_of w (i - row0 A)) else a).
Proof. exact @pm_add_diag_updates. Qed.
Print Assumptions C84_add_diag.

Theorem C84_add_diag_value :
  forall (S : scalar) (A : parmat S) (t : car S), pm_valid A -> pm_rows A = pm_cols A ->
  pm_updates (pm_add_diag_val A t) A (fun i j a => if j - col0 A =? i - row0 A then sadd a t else a).
Proof. exact @pm_add_diag_val_updates. Qed.
Print Assumptions C84_add_diag_value.

(** A copy has the layout and the entries of the original, -A the opposite ones. *)
Theorem C84_copy :
  forall (S : scalar) (reorder : csr S -> csr S) (A : parmat S), reorders reorder -> pm_valid A ->
  pm_valid (pm_copy reorder A) /\ same_layout A (pm_copy reorder A) /\ pm_map (pm_copy reorder A) = pm_map A /\ Permutation (pm_entries A) (pm_entries (pm_copy reorder A)).
Proof. exact @pm_copy_ok. Qed.
Print Assumptions C84_copy.

Theorem C84_negation :
  forall (S : scalar), ring_laws S -> forall (reorder : csr S -> csr S) (A : parmat S), reorders reorder -> pm_valid A ->
  pm_valid (pm_neg reorder A) /\ same_layout A (pm_neg reorder A) /\ forall i j, pm_mat (pm_neg reorder A) i j = sopp (pm_mat A i j).
Proof. exact @pm_neg_ok. Qed.
Print Assumptions C84_negation.

Example C84_instance :
  pm_valid exP1 /\ pm_rows exP1 = pm_cols exP1 /\ row0 exP1 = 2 /\ col0 exP1 = 2 /\ zlen [10; 100] = pm_rows exP1 /\
  exists B, pm_scale_rows (S := Zs) exP1 [10; 100] = Ok B /\ pm_mat B 3 1 = 700 /\ pm_mat B 3 3 = 800 /\ pm_mat B 2 0 = 50.
Proof.
  split; [exact exP1_valid|]. do 4 (split; [reflexivity|]). result_of (pm_scale_rows (S := Zs) exP1 [10; 100]) ltac:(fun f => exists f). split; [vm_compute; reflexivity|]. split; [|split]; vm_compute; reflexivity.
Qed.

(* ---------------------------------------------------------------- C85 *)

(** MaxNorm bounds every element of the global matrix and is the same on all ranks.  Missing: it is
    the largest one, see below. *)
Theorem C85_bound_partial :
  forall (S : scalar), ring_laws S -> order_laws S -> abs_laws S -> sum_order_laws S ->
  forall As : list (parmat S), As <> [] -> Forall pm_valid As ->
  exists m, par_max_norm As = Ok (map (fun _ => m) As) /\ forall A i j, In A As -> sle (sabs (pm_mat A i j)) m.
Proof. exact @par_max_norm_bound. Qed.
Print Assumptions C85_bound_partial.

(** It is the largest sum over a block. *)
Theorem C85_refuted :
  Forall pm_valid [exP0; exP1] /\ par_max_norm [exP0; exP1] = Ok [14; 14] /\
  forall i j, Z.abs (world_mat [exP0; exP1] i j) <= 8.
Proof.
  split; [apply Forall_cons; [exact exP0_valid|apply Forall_cons; [exact exP1_valid|apply Forall_nil]]|]. split; [vm_compute; reflexivity|].
  intros i j. unfold world_mat, mat_of.
  match goal with |- context [flat_map pm_entries ?l] => let x := eval vm_compute in (flat_map pm_entries l) in change (flat_map pm_entries l) with x end.
  unfold at_pos. match goal with |- context [filter ?f ?l] => set (l0 := l) end.
  assert (G : forall l, (forall e : entry Zs, In e l -> Z.abs (evalue e) <= 8) -> (length l <= 1)%nat -> Z.abs (sum_list (S := Zs) (map evalue l)) <= 8).
  { intros [|e [|e' l]] He Hl; [cbn; lia| |cbn in Hl; lia]. cbn [map sum_list fold_right]. change (Z.abs (evalue e + 0) <= 8). rewrite Z.add_0_r. apply He. now left. }
  apply G.
  - intros e He. apply filter_In in He. destruct He as (He & _). unfold l0 in He. repeat (destruct He as [<-|He]; [vm_compute; congruence|]). destruct He.
  - subst l0. cbn [filter erow ecol fst snd].
    repeat match goal with |- context [?a =? ?b] => destruct (Z.eqb_spec a b); subst; cbn [andb length]; try lia end.
Qed.
Print Assumptions C85_refuted.

Example C85_instance : ring_laws Zs /\ order_laws Zs /\ abs_laws Zs /\ sum_order_laws Zs /\ Forall pm_valid [exP0; exP1].
Proof.
  split; [exact Zs_ring|]. split; [exact Zs_order|]. split; [exact Zs_abs|]. split; [exact Zs_sum_order|]. apply Forall_cons; [exact exP0_valid|apply Forall_cons; [exact exP1_valid|apply Forall_nil]].
Qed.

(* ---------------------------------------------------------------- C86 *)

(** ParVector(comm, vect, partition) accepts a partition with the global size if the rank owns the
    elements partition[0]..partition[1]-1, of which there are as many as in the vector, and does
    not start behind the last element of the global vector. *)
Theorem C86_constructor_partial :
  forall (size a b n : Z) (rest : list Z),
  pv_init size (a :: b :: n :: rest) = Ok n <-> (0 <= a /\ a <= b /\ b <= n /\ size = b - a /\ a < n).
Proof. exact pv_init_iff. Qed.
Print Assumptions C86_constructor_partial.

(** A rank without elements behind the others is refused although the layout is consistent. *)
Theorem C86_empty_rank_refuted :
  forall sizes n, generate_offsets1 (sizes ++ [0]) = Ok n -> exists part, get n (zlen sizes) = Ok part /\ pv_init 0 part = Fail FAssert.
Proof. exact pv_init_empty_rank. Qed.
Print Assumptions C86_empty_rank_refuted.

(** A partition of two elements passes the first check and is read out of bounds. *)
Theorem C86_two_refuted :
  forall size a b, 0 <= a -> 0 <= b -> pv_init size [a; b] = Fail FUB.
Proof. exact pv_init_two. Qed.
Print Assumptions C86_two_refuted.

Example C86_instance :
  pv_init 2 [3; 5; 9] = Ok 9 /\ pv_init 0 [3; 3; 9] = Ok 9 /\ generate_offsets1 ([2; 3] ++ [0]) = Ok [[0; 2; 5]; [2; 5; 5]; [5; 5; 5]].
Proof. repeat split. Qed.
