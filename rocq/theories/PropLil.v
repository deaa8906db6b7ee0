(** Properties C09 and C10: LilMatrix; LilMatrix parts of C11 and C21. *)

From Coq Require Import ZArith List Bool Lia Permutation Sorting.Sorted.
From Verif Require Import Base Scalar Spec Dense Sparse SparseMore CooSpec Lil LilSpec LilMore Examples LilExamples.
Import ListNotations.
Open Scope Z_scope.

(* ---------------------------------------------------------------- C09 *)

(** Which histories run to the end: exactly those whose indices are not negative and
    inside the declared size (and whose values are not NaN). *)
Theorem C09_accepted_histories :
  forall (S : scalar) (srt : @list_sorter S) (rows cols : Z) (M0 : lil S) (ops : list (lil_op S)),
  list_sorts srt -> lil_new_size rows cols = Ok M0 -> Forall ladded_ok ops ->
  (exists M, lil_run srt M0 ops = Ok M) <-> Forall (entry_fits (Some (rows, cols))) (flat_map ladded ops).
Proof. exact @lil_run_iff_sized. Qed.
Print Assumptions C09_accepted_histories.

Theorem C09_accepted_histories_no_size :
  forall (S : scalar) (srt : @list_sorter S) (ops : list (lil_op S)),
  list_sorts srt -> Forall ladded_ok ops ->
  (exists M, lil_run srt lil_new ops = Ok M) <-> Forall (entry_fits None) (flat_map ladded ops).
Proof. exact @lil_run_iff_new. Qed.
Print Assumptions C09_accepted_histories_no_size.

(** C09 for a size given at construction (missing: a deduced size and a size set later,
    both false, below).  ToSparse may be called in between: it sorts the lists. *)
Theorem C09_lil_assembly_partial :
  forall (S : scalar), ring_laws S ->
  forall (srt : @list_sorter S) (rows cols : Z) (M0 : lil S) (ops : list (lil_op S)) (M : lil S),
  list_sorts srt -> lil_new_size rows cols = Ok M0 -> Forall ladded_ok ops -> lil_run srt M0 ops = Ok M ->
  exists A M', lil_to_sparse srt M = Ok (A, M') /\ csr_valid A /\ c_rows A = rows /\ c_cols A = cols /\
    no_dup_coords (entries A) /\
    (forall i, 0 <= i < rows -> StronglySorted Z.lt (map ecol (row_entries A i))) /\
    forall i j, csr_mat A i j = mat_of (flat_map ladded ops) i j.
Proof. exact @lil_assembly_sized. Qed.
Print Assumptions C09_lil_assembly_partial.

(** C09 when SetSize comes after the entries and asks for exactly the reached rows. *)
Theorem C09_lil_set_size_partial :
  forall (S : scalar), ring_laws S ->
  forall (srt : @list_sorter S) (ops : list (lil_op S)) (M : lil S) (rows cols : Z),
  list_sorts srt -> Forall ladded_ok ops -> lil_run srt lil_new ops = Ok M ->
  rows = bound erow (flat_map ladded ops) -> 0 <= cols -> Forall (fun e => ecol e < cols) (flat_map ladded ops) ->
  exists A M', lil_to_sparse srt (lil_set_size M rows cols) = Ok (A, M') /\ csr_valid A /\ c_rows A = rows /\ c_cols A = cols /\
    forall i j, csr_mat A i j = mat_of (flat_map ladded ops) i j.
Proof. exact @lil_set_size_to_sparse. Qed.
Print Assumptions C09_lil_set_size_partial.

(** C09 is false whenever the size is deduced: one row too many, and the last row pointer
    is 0 although entries are stored, so the CSR arrays are never valid.  (The values are
    the right ones.) *)
Theorem C09_deduced_size_refuted :
  forall (S : scalar) (srt : @list_sorter S) (ops : list (lil_op S)) (M : lil S),
  list_sorts srt -> Forall ladded_ok ops -> lil_run srt lil_new ops = Ok M -> flat_map ladded ops <> [] ->
  exists A M', lil_to_sparse srt M = Ok (A, M') /\ c_rows A = bound erow (flat_map ladded ops) + 1 /\
    ~ csr_valid A /\ ptr A (c_rows A) = 0 /\ 0 < nnz A /\
    (ring_laws S -> forall i j, csr_mat A i j = mat_of (flat_map ladded ops) i j).
Proof. exact @lil_deduced. Qed.
Print Assumptions C09_deduced_size_refuted.

(** C09 is false when SetSize asks for more rows than were reached: again invalid. *)
Theorem C09_larger_size_refuted :
  forall (S : scalar) (srt : @list_sorter S) (ops : list (lil_op S)) (M : lil S) (rows cols : Z),
  list_sorts srt -> Forall ladded_ok ops -> lil_run srt lil_new ops = Ok M -> flat_map ladded ops <> [] ->
  bound erow (flat_map ladded ops) < rows -> 0 <= cols -> Forall (fun e => ecol e < cols) (flat_map ladded ops) ->
  exists A M', lil_to_sparse srt (lil_set_size M rows cols) = Ok (A, M') /\ c_rows A = rows /\ ~ csr_valid A.
Proof. exact @lil_larger_size. Qed.
Print Assumptions C09_larger_size_refuted.

(** C09 is false when SetSize comes first: the row lists are not created, so the first
    Add inside the declared size indexes past the end. *)
Theorem C09_set_size_first_refuted :
  forall (S : scalar) (rows cols i j : Z) (v : car S),
  0 <= i < rows -> 0 <= j < cols -> seqb v v = true ->
  lil_add (lil_set_size lil_new rows cols) i j v = Fail FUB.
Proof. exact @lil_set_size_first. Qed.
Print Assumptions C09_set_size_first_refuted.

Example C09_instance :
  @list_sorts Zs node_sort /\ Forall ladded_ok exLOps /\
  Forall (entry_fits (Some (3, 4))) (flat_map ladded exLOps) /\ Forall (entry_fits None) (flat_map ladded exLOps) /\
  (M0 <- lil_new_size 3 4 ;; M <- @lil_run Zs node_sort M0 exLOps ;; '(A, _) <- @lil_to_sparse Zs node_sort M ;; Ok A) =
    Ok (@CSR Zs 3 4 [0; 3; 5; 7] [0; 1; 2; 1; 2; 0; 1] [3; 1; 7; 3; 5; 10; 2]) /\
  (M <- @lil_run Zs node_sort lil_new exLOps ;; '(A, _) <- @lil_to_sparse Zs node_sort M ;; Ok A) =
    Ok (@CSR Zs 4 3 [0; 3; 5; 7; 0] [0; 1; 2; 1; 2; 0; 1] [3; 1; 7; 3; 5; 10; 2]) /\
  (M <- @lil_run Zs node_sort lil_new exLOps ;; '(A, _) <- @lil_to_sparse Zs node_sort (lil_set_size M 3 4) ;; Ok A) =
    Ok (@CSR Zs 3 4 [0; 3; 5; 7] [0; 1; 2; 1; 2; 0; 1] [3; 1; 7; 3; 5; 10; 2]) /\
  bound erow (flat_map ladded exLOps) = 3.
Proof.
  split; [exact node_sort_ok|]. split; [repeat constructor; discriminate|]. split; [solve_small|]. split; [solve_small|].
  repeat split; vm_compute; reflexivity.
Qed.

(* ---------------------------------------------------------------- C10 *)

(** C10 for ToDense, whatever the shape and however the size is known. *)
Theorem C10_lil_to_dense :
  forall (S : scalar), ring_laws S -> forall (M : lil S) (out : dense S), lil_wf M ->
  d_gives (lil_to_dense_into M out) (fst (lil_find_size M)) (snd (lil_find_size M)) (mat_of (lil_entries M)).
Proof. exact @lil_to_dense_spec. Qed.
Print Assumptions C10_lil_to_dense.

(** C10 for Mult, rectangular matrices too. *)
Theorem C10_lil_mult :
  forall (S : scalar), ring_laws S -> forall (M : lil S) (x out : list (car S)), lil_wf M ->
  zlen x = snd (lil_find_size M) -> zlen out = fst (lil_find_size M) ->
  exists y, lil_mult M x out = Ok y /\ zlen y = fst (lil_find_size M) /\
    forall i, 0 <= i < fst (lil_find_size M) -> vec_of y i = mat_vec (mat_of (lil_entries M)) (snd (lil_find_size M)) (vec_of x) i.
Proof. exact @lil_mult_spec. Qed.
Print Assumptions C10_lil_mult.

(** C10 for MultAT of square matrices (missing: rectangular ones, always rejected, below). *)
Theorem C10_lil_multAT_partial :
  forall (S : scalar), ring_laws S -> forall (M : lil S) (x out : list (car S)), lil_wf M ->
  fst (lil_find_size M) = snd (lil_find_size M) -> zlen x = fst (lil_find_size M) -> zlen out = snd (lil_find_size M) ->
  exists y, lil_multAT M x out = Ok y /\ zlen y = snd (lil_find_size M) /\
    forall j, 0 <= j < snd (lil_find_size M) -> vec_of y j = mat_vec (mat_T (mat_of (lil_entries M))) (fst (lil_find_size M)) (vec_of x) j.
Proof. exact @lil_multAT_spec. Qed.
Print Assumptions C10_lil_multAT_partial.

(** The object after any history, as used by the theorems above. *)
Theorem C10_assembled_object :
  forall (S : scalar) (srt : @list_sorter S) (rows cols : Z) (M0 : lil S) (ops : list (lil_op S)) (M : lil S),
  list_sorts srt -> (lil_new_size rows cols = Ok M0 \/ M0 = lil_new) -> Forall ladded_ok ops -> lil_run srt M0 ops = Ok M ->
  lil_wf M /\ Permutation (lil_entries M) (flat_map ladded ops) /\
  lil_find_size M = if l_set M0 then (rows, cols) else (bound erow (flat_map ladded ops) + 1, Z.max 1 (bound ecol (flat_map ladded ops))).
Proof. exact @lil_assembled. Qed.
Print Assumptions C10_assembled_object.

(** C10 is false for MultAT of any rectangular matrix: the call is rejected. *)
Theorem C10_multAT_rectangular_refuted :
  forall (S : scalar) (M : lil S) (x out : list (car S)),
  fst (lil_find_size M) <> snd (lil_find_size M) -> zlen x = fst (lil_find_size M) -> zlen out = snd (lil_find_size M) ->
  lil_multAT M x out = Fail FAssert.
Proof. exact @lil_multAT_rejects. Qed.
Print Assumptions C10_multAT_rectangular_refuted.

Example C10_instance :
  lil_ok exLil /\ lil_to_dense exLil = Ok (@Dense Zs 2 3 [2; 6; 3; 0; 0; 4]) /\
  @lil_mult Zs exLil [1; 10; 100] [0; 0] = Ok [32; 406] /\
  lil_ok exLilSq /\ @lil_multAT Zs exLilSq [1; 10] [9; 9] = Ok [0; 43] /\
  @lil_multAT Zs exLil [1; 10] [0; 0; 0] = Fail FAssert.
Proof. split; [exact exLil_ok|]. split; [reflexivity|]. split; [reflexivity|]. split; [exact exLilSq_ok|]. split; reflexivity. Qed.

(* ---------------------------------------------------------------- C11 (LilMatrix) *)

(** C11 for LilMatrix, tolerance form: exactly the entries with |v| < tol go. *)
Theorem C11_lil_eliminate_zeros_partial :
  forall (S : scalar) (M : lil S) (tol : car S), lil_wf M ->
  lil_entries (lil_elim_zeros M tol) = filter (fun e => negb (slt (sabs (evalue e)) tol)) (lil_entries M) /\
  l_size (lil_elim_zeros M tol) = l_size M /\ lil_wf (lil_elim_zeros M tol).
Proof. exact @lil_elim_zeros_spec. Qed.
Print Assumptions C11_lil_eliminate_zeros_partial.

(** C11 is false for LilMatrix: with the default tolerance nothing is ever removed. *)
Theorem C11_lil_eliminate_zeros_refuted :
  forall (S : scalar) (M : lil S), abs_laws S -> lil_elim_zeros M s0 = M.
Proof. exact @lil_elim_zeros_default. Qed.
Print Assumptions C11_lil_eliminate_zeros_refuted.

Example C11_lil_instance :
  lil_wf exLilSq /\ In (0, 0, 0) (lil_entries (@lil_elim_zeros Zs exLilSq 0)) /\
  lil_entries (@lil_elim_zeros Zs exLilSq 4) = [(0, 1, 5); (1, 1, 4)].
Proof. split; [exact (proj1 exLilSq_ok)|]. split; [cbv; tauto|reflexivity]. Qed.

(* ---------------------------------------------------------------- C21 (LilMatrix) *)

Theorem C21_lil_adjoint_partial :
  forall (S : scalar), ring_laws S ->
  forall (M : lil S) (x y u v o1 o2 : list (car S)), lil_wf M -> fst (lil_find_size M) = snd (lil_find_size M) ->
  zlen x = snd (lil_find_size M) -> zlen y = fst (lil_find_size M) ->
  zlen o1 = fst (lil_find_size M) -> zlen o2 = snd (lil_find_size M) ->
  lil_mult M x o1 = Ok u -> lil_multAT M y o2 = Ok v ->
  inner (fst (lil_find_size M)) (vec_of u) (vec_of y) = inner (snd (lil_find_size M)) (vec_of x) (vec_of v).
Proof. exact @lil_adjoint. Qed.
Print Assumptions C21_lil_adjoint_partial.
