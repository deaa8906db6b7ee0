(** Properties C05 - C08 and C69: CooMatrix; CooMatrix parts of C11 and C21. *)

From Coq Require Import ZArith List Bool Lia.
From Verif Require Import Base Scalar Spec Dense Sparse SparseMore Coo CooSpec CooMore Examples.
Import ListNotations.
Open Scope Z_scope.

(* ---------------------------------------------------------------- C05 *)

(** Which histories run to the end: exactly those whose indices are not negative and
    inside the size declared at that moment (and whose values are not NaN). *)
Theorem C05_accepted_histories :
  forall (S : scalar) (d : option (Z * Z)) (M0 : coo S) (ops : list (coo_op S)),
  coo_start d = Ok M0 -> Forall added_ok ops ->
  (exists M, coo_run M0 ops = Ok M) <-> accepted d ops.
Proof. exact @coo_run_iff. Qed.
Print Assumptions C05_accepted_histories.

(** C05: after any history ToSparse gives a valid matrix of the declared (or deduced)
    size, no coordinate twice, and entry (i,j) is the sum of everything added there.  The
    last hypothesis only excludes a SetSize that is too small for the entries. *)
Theorem C05_coo_assembly :
  forall (S : scalar), ring_laws S ->
  forall (d : option (Z * Z)) (M0 : coo S) (ops : list (coo_op S)) (M : coo S) (rows cols : Z),
  coo_start d = Ok M0 -> Forall added_ok ops -> coo_run M0 ops = Ok M ->
  assembled_size (declared d ops) (flat_map added ops) = (rows, cols) ->
  in_shape rows cols (flat_map added ops) ->
  exists A, coo_to_sparse M = Ok A /\ csr_valid A /\ c_rows A = rows /\ c_cols A = cols /\
    no_dup_coords (entries A) /\ forall i j, csr_mat A i j = mat_of (flat_map added ops) i j.
Proof. exact @coo_to_sparse_assembled. Qed.
Print Assumptions C05_coo_assembly.

(** The same in any arithmetic, floating point included: the stored value is the sum in
    the order of the calls. *)
Theorem C05_coo_assembly_exact :
  forall (S : scalar) (d : option (Z * Z)) (M0 : coo S) (ops : list (coo_op S)) (M : coo S) (rows cols : Z),
  coo_start d = Ok M0 -> Forall added_ok ops -> coo_run M0 ops = Ok M ->
  assembled_size (declared d ops) (flat_map added ops) = (rows, cols) ->
  in_shape rows cols (flat_map added ops) ->
  exists A, coo_to_sparse M = Ok A /\ csr_valid A /\ c_rows A = rows /\ c_cols A = cols /\
    no_dup_coords (entries A) /\
    forall i j v, In (i, j, v) (entries A) <->
      (exists w, In (i, j, w) (flat_map added ops)) /\
      v = fold_left sadd (map evalue (filter (at_pos i j) (flat_map added ops))) s0.
Proof. exact @coo_to_sparse_assembled_exact. Qed.
Print Assumptions C05_coo_assembly_exact.

(** Without SetSize that hypothesis always holds. *)
Theorem C05_entries_inside :
  forall (S : scalar) (d : option (Z * Z)) (M0 : coo S) (ops : list (coo_op S)) (M : coo S),
  coo_start d = Ok M0 -> Forall added_ok ops -> forallb is_add ops = true -> coo_run M0 ops = Ok M ->
  let s := assembled_size (declared d ops) (flat_map added ops) in
  in_shape (fst s) (snd s) (flat_map added ops).
Proof. exact @coo_no_set_size_fits. Qed.
Print Assumptions C05_entries_inside.

(** The object after any history, as used by the theorems below. *)
Theorem C05_assembled_object :
  forall (S : scalar) (d : option (Z * Z)) (M0 : coo S) (ops : list (coo_op S)) (M : coo S),
  coo_start d = Ok M0 -> Forall added_ok ops -> coo_run M0 ops = Ok M ->
  o_entries M = flat_map added ops /\ o_size M = declared d ops /\
  coo_find_size M = assembled_size (declared d ops) (flat_map added ops) /\
  (in_shape (fst (coo_find_size M)) (snd (coo_find_size M)) (flat_map added ops) -> coo_ok M).
Proof. exact @coo_assembled. Qed.
Print Assumptions C05_assembled_object.

Definition exOps : list (coo_op Zs) :=
  [ @OAdd Zs 0 1 5; @OAddSym Zs 2 0 7;
    @OAddDenseScaled Zs [0; 2] [1; 0] 10 (@Dense Zs 2 2 [1; 2; 3; 4]);
    @OAddCol Zs [1; 2] 0 [8; 9]; @OAddSym Zs 1 1 3; @OAddList Zs [2; 2] [3; 3] [1; -1] ].

Example C05_instance :
  Forall added_ok exOps /\ accepted (Some (3, 4)) exOps /\ accepted None exOps /\
  (M <- coo_run (@Coo Zs 3 4 true []) exOps ;; coo_to_sparse M) =
    Ok (@CSR Zs 3 4 [0; 3; 5; 8] [1; 2; 0; 0; 1; 0; 1; 3] [15; 7; 30; 8; 3; 56; 20; 0]) /\
  (M <- coo_run coo_new exOps ;; coo_to_sparse M) =
    Ok (@CSR Zs 3 4 [0; 3; 5; 8] [1; 2; 0; 0; 1; 0; 1; 3] [15; 7; 30; 8; 3; 56; 20; 0]) /\
  in_shape 3 4 (flat_map added exOps).
Proof.
  split; [|split; [|split; [|split; [|split]]]].
  - repeat constructor; discriminate.
  - solve_small.
  - solve_small.
  - vm_compute. reflexivity.
  - vm_compute. reflexivity.
  - solve_small.
Qed.

(* ---------------------------------------------------------------- C06 *)

(** C06, in any arithmetic: the two dense copies are identical. *)
Theorem C06_dense_views_agree :
  forall (S : scalar) (M : coo S) (A : csr S) (out : dense S),
  coo_ok M -> coo_to_sparse M = Ok A -> coo_to_dense_into M out = sp_to_dense A.
Proof. exact @coo_dense_sparse_agree. Qed.
Print Assumptions C06_dense_views_agree.

(** C06: and they hold the sums of all added entries. *)
Theorem C06_dense_view_is_sum :
  forall (S : scalar), ring_laws S -> forall (M : coo S) (out : dense S), coo_ok M ->
  d_gives (coo_to_dense_into M out) (fst (coo_find_size M)) (snd (coo_find_size M)) (mat_of (o_entries M)).
Proof. exact @coo_to_dense_spec. Qed.
Print Assumptions C06_dense_view_is_sum.

Definition exCoo : coo Zs := @Coo Zs 2 3 true [(0, 1, 5); (1, 2, 4); (0, 1, -2); (1, 0, 6)].
Example exCoo_ok : coo_ok exCoo.
Proof. solve_small. Qed.
Definition exSq : coo Zs := @Coo Zs 2 2 true [(0, 1, 5); (1, 1, 4); (0, 1, -2); (1, 0, 0)].
Example exSq_ok : coo_ok exSq.
Proof. solve_small. Qed.

Example C06_instance :
  coo_ok exCoo /\ coo_to_sparse exCoo = Ok (@CSR Zs 2 3 [0; 1; 3] [1; 2; 0] [3; 4; 6]) /\
  coo_to_dense exCoo = Ok (@Dense Zs 2 3 [0; 6; 3; 0; 0; 4]).
Proof. split; [exact exCoo_ok|split; reflexivity]. Qed.

(* ---------------------------------------------------------------- C07 *)

(** C07 for a declared size, and for a deduced size with at least one entry (missing: the
    empty matrix without a size, and what Rows() and Cols() report; both false, below). *)
Theorem C07_size_deduction_partial :
  forall (S : scalar) (d : option (Z * Z)) (M0 : coo S) (ops : list (coo_op S)) (M : coo S) (A : csr S) (D : dense S),
  coo_start d = Ok M0 -> Forall added_ok ops -> forallb is_add ops = true -> coo_run M0 ops = Ok M ->
  coo_to_sparse M = Ok A -> coo_to_dense M = Ok D ->
  (c_rows A, c_cols A) = (d_rows D, d_cols D) /\
  (c_rows A, c_cols A) = match d with
     | Some s => s
     | None => (Z.max 1 (bound erow (flat_map added ops)), Z.max 1 (bound ecol (flat_map added ops))) end.
Proof. exact @coo_produced_size. Qed.
Print Assumptions C07_size_deduction_partial.

(** C07: a declared size is what Rows() and Cols() report. *)
Theorem C07_declared_size_reported :
  forall (S : scalar) (d : option (Z * Z)) (M0 : coo S) (ops : list (coo_op S)) (M : coo S) (rows cols : Z),
  coo_start d = Ok M0 -> Forall added_ok ops -> coo_run M0 ops = Ok M ->
  declared d ops = Some (rows, cols) -> o_rows M = rows /\ o_cols M = cols.
Proof. exact @coo_size_reported. Qed.
Print Assumptions C07_declared_size_reported.

(** C07 is false for the empty matrix: it becomes 1 x 1. *)
Theorem C07_empty_size_refuted :
  exists A : csr Zs, coo_run coo_new [] = Ok (@coo_new Zs) /\ coo_to_sparse (@coo_new Zs) = Ok A /\
    bound erow (flat_map (@added Zs) []) = 0 /\ c_rows A = 1 /\ c_cols A = 1.
Proof. eexists. repeat split; vm_compute; reflexivity. Qed.
Print Assumptions C07_empty_size_refuted.

(** C07 is false for Rows() and Cols() of a matrix without a size: they stay 0. *)
Theorem C07_reported_size_refuted :
  exists (M : coo Zs) (A : csr Zs), coo_run coo_new [@OAdd Zs 1 2 5] = Ok M /\ coo_to_sparse M = Ok A /\
    c_rows A = 2 /\ c_cols A = 3 /\ o_rows M = 0 /\ o_cols M = 0.
Proof. eexists. eexists. repeat split; vm_compute; reflexivity. Qed.
Print Assumptions C07_reported_size_refuted.

Example C07_instance :
  (M <- coo_run coo_new exOps ;; D <- coo_to_dense M ;; A <- coo_to_sparse M ;;
   Ok ((d_rows D, d_cols D), (c_rows A, c_cols A))) = Ok ((3, 4), (3, 4)) /\
  forallb is_add exOps = true /\
  bound erow (flat_map added exOps) = 3 /\ bound ecol (flat_map added exOps) = 4.
Proof. split; [vm_compute; reflexivity|]. split; [reflexivity|]. split; vm_compute; reflexivity. Qed.

(* ---------------------------------------------------------------- C08 *)

(** C08 for Mult, rectangular matrices too, when the size was declared (missing: a deduced
    size, for which Mult fails, below). *)
Theorem C08_coo_mult_partial :
  forall (S : scalar), ring_laws S ->
  forall (M : coo S) (A : csr S) (x o1 o2 : list (car S)),
  coo_ok M -> o_set M = true -> coo_to_sparse M = Ok A ->
  zlen x = o_cols M -> zlen o1 = o_rows M -> zlen o2 = o_rows M ->
  exists y, coo_mult M x o1 = Ok y /\ sp_mult A x o2 = Ok y.
Proof. exact @coo_mult_agrees. Qed.
Print Assumptions C08_coo_mult_partial.

(** C08 for MultAT of square matrices (missing: rectangular ones, always rejected, below). *)
Theorem C08_coo_multAT_partial :
  forall (S : scalar), ring_laws S ->
  forall (M : coo S) (A : csr S) (x o1 o2 : list (car S)),
  coo_ok M -> o_set M = true -> o_rows M = o_cols M -> coo_to_sparse M = Ok A ->
  zlen x = o_rows M -> zlen o1 = o_cols M -> zlen o2 = o_cols M ->
  exists y, coo_multAT M x o1 = Ok y /\ sp_multAT A x o2 = Ok y.
Proof. exact @coo_multAT_agrees. Qed.
Print Assumptions C08_coo_multAT_partial.

(** The order of the additions, in any arithmetic: as the entries were added. *)
Theorem C08_coo_mult_exact :
  forall (S : scalar) (M : coo S) (x out : list (car S)),
  coo_ok M -> o_set M = true -> zlen x = o_cols M -> zlen out = o_rows M ->
  exists y, coo_mult M x out = Ok y /\ zlen y = o_rows M /\
    forall i, 0 <= i < o_rows M ->
      zn s0 y i = fold_left (fun s e => sadd s (smul (evalue e) (vec_of x (ecol e))))
                    (filter (fun e => erow e =? i) (o_entries M)) s0.
Proof. exact @coo_mult_exact. Qed.
Print Assumptions C08_coo_mult_exact.

(** C08 is false for MultAT of any rectangular matrix: the call is rejected. *)
Theorem C08_multAT_rectangular_refuted :
  forall (S : scalar) (M : coo S) (x out : list (car S)),
  o_rows M <> o_cols M -> zlen x = o_rows M -> zlen out = o_cols M -> coo_multAT M x out = Fail FAssert.
Proof. exact @coo_multAT_rejects. Qed.
Print Assumptions C08_multAT_rectangular_refuted.

(** C08 is false for Mult without a declared size: ToSparse().Mult works, Mult does not. *)
Theorem C08_mult_no_size_refuted :
  exists (M : coo Zs) (A : csr Zs) (x y : list Z), coo_run coo_new [@OAdd Zs 1 1 5] = Ok M /\ coo_to_sparse M = Ok A /\
    @sp_mult_new Zs A x = Ok y /\ @coo_mult_new Zs M x = Fail FAssert.
Proof. eexists. eexists. exists [1; 1], [0; 5]. repeat split; vm_compute; reflexivity. Qed.
Print Assumptions C08_mult_no_size_refuted.

Example C08_instance :
  coo_ok exCoo /\ o_set exCoo = true /\
  @coo_mult Zs exCoo [1; 10; 100] [0; 0] = Ok [30; 406] /\
  coo_ok exSq /\ o_set exSq = true /\ o_rows exSq = o_cols exSq /\
  @coo_multAT Zs exSq [1; 10] [0; 0] = Ok [0; 43].
Proof. repeat split; try (reflexivity || discriminate); try exact (proj2 (proj2 exCoo_ok)); exact (proj2 (proj2 exSq_ok)). Qed.

(* ---------------------------------------------------------------- C11 (CooMatrix) *)

(** C11 for CooMatrix, tolerance form: exactly the entries with |v| < tol go. *)
Theorem C11_coo_eliminate_zeros_partial :
  forall (S : scalar) (M : coo S) (tol : car S) (e : entry S),
  (In e (o_entries (coo_elim_zeros M tol)) <-> In e (o_entries M) /\ slt (sabs (evalue e)) tol = false) /\
  o_size (coo_elim_zeros M tol) = o_size M /\ (coo_ok M -> coo_ok (coo_elim_zeros M tol)).
Proof. exact @coo_elim_zeros_spec. Qed.
Print Assumptions C11_coo_eliminate_zeros_partial.

(** C11 is false for CooMatrix: with the default tolerance nothing is ever removed. *)
Theorem C11_coo_eliminate_zeros_refuted :
  forall (S : scalar) (M : coo S), abs_laws S -> coo_elim_zeros M s0 = M.
Proof. exact @coo_elim_zeros_default. Qed.
Print Assumptions C11_coo_eliminate_zeros_refuted.

Example C11_coo_instance :
  abs_laws Zs /\ In (1, 0, 0) (o_entries (@coo_elim_zeros Zs exSq 0)) /\
  o_entries (@coo_elim_zeros Zs exSq 5) = [(0, 1, 5)].
Proof. split; [exact Zs_abs|]. split; [cbv; tauto|reflexivity]. Qed.

(* ---------------------------------------------------------------- C21 (CooMatrix) *)

Theorem C21_coo_adjoint_partial :
  forall (S : scalar), ring_laws S ->
  forall (M : coo S) (x y u v o1 o2 : list (car S)), coo_ok M -> o_set M = true -> o_rows M = o_cols M ->
  zlen x = o_cols M -> zlen y = o_rows M -> zlen o1 = o_rows M -> zlen o2 = o_cols M ->
  coo_mult M x o1 = Ok u -> coo_multAT M y o2 = Ok v ->
  inner (o_rows M) (vec_of u) (vec_of y) = inner (o_cols M) (vec_of x) (vec_of v).
Proof. exact @coo_adjoint. Qed.
Print Assumptions C21_coo_adjoint_partial.

(* ---------------------------------------------------------------- C69 *)

(** C69: PermuteRowsCols(rp, cp) moves element (i,j) to (rp[i], cp[j]). *)
Theorem C69_permute_rows_cols :
  forall (S : scalar) (M : coo S) (rp cp : list Z) (rows cols : Z),
  coo_ok M -> coo_find_size M = (rows, cols) -> is_perm rows rp -> is_perm cols cp ->
  exists M', coo_permute_rows_cols M rp cp = Ok M' /\ o_size M' = o_size M /\ (o_set M = true -> coo_ok M') /\
    forall i j, 0 <= i < rows -> 0 <= j < cols ->
      mat_of (o_entries M') (zn 0 rp i) (zn 0 cp j) = mat_of (o_entries M) i j.
Proof. exact @coo_permute_rows_cols_mat. Qed.
Print Assumptions C69_permute_rows_cols.

Theorem C69_permute_rows :
  forall (S : scalar) (M : coo S) (rp : list Z) (rows cols : Z),
  coo_ok M -> coo_find_size M = (rows, cols) -> is_perm rows rp ->
  exists M', coo_permute_rows M rp = Ok M' /\ o_size M' = o_size M /\ (o_set M = true -> coo_ok M') /\
    forall i j, 0 <= i < rows -> 0 <= j < cols -> mat_of (o_entries M') (zn 0 rp i) j = mat_of (o_entries M) i j.
Proof. exact @coo_permute_rows_mat. Qed.
Print Assumptions C69_permute_rows.

Theorem C69_permute_cols :
  forall (S : scalar) (M : coo S) (cp : list Z) (rows cols : Z),
  coo_ok M -> coo_find_size M = (rows, cols) -> is_perm cols cp ->
  exists M', coo_permute_cols M cp = Ok M' /\ o_size M' = o_size M /\ (o_set M = true -> coo_ok M') /\
    forall i j, 0 <= i < rows -> 0 <= j < cols -> mat_of (o_entries M') i (zn 0 cp j) = mat_of (o_entries M) i j.
Proof. exact @coo_permute_cols_mat. Qed.
Print Assumptions C69_permute_cols.

Example C69_instance :
  is_perm 2 [1; 0] /\ is_perm 3 [2; 0; 1] /\ coo_find_size exCoo = (2, 3) /\
  @coo_permute_rows_cols Zs exCoo [1; 0] [2; 0; 1] = Ok (@Coo Zs 2 3 true [(1, 0, 5); (0, 1, 4); (1, 0, -2); (0, 2, 6)]).
Proof.
  repeat split; try reflexivity; try solve_small; repeat constructor; cbn; intuition discriminate.
Qed.
