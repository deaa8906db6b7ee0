(** Properties C11 (CSR part), C14 - C20: entry-wise changes, elimination, dense
    copies and dense products of SparseMatrix. *)

From Coq Require Import ZArith List Bool Lia.
From Verif Require Import Base Scalar Spec Dense Sparse EntrywiseProofs EntrywiseMat SparseMore Examples.
Import ListNotations.
Open Scope Z_scope.

(* ---------------------------------------------------------------- C11 *)

(** C11, any arithmetic and any tolerance: exactly the entries with tol < |v| stay, in
    their order. *)
Theorem C11_csr_eliminate_zeros_tolerance :
  forall (S : scalar) (A : csr S) (tol : car S), csr_valid A ->
  exists B, sp_elim_zeros A tol = Ok B /\ csr_valid B /\ c_rows B = c_rows A /\ c_cols B = c_cols A /\
    entries B = filter (fun e => slt tol (sabs (evalue e))) (entries A).
Proof. exact @sp_elim_zeros_spec. Qed.
Print Assumptions C11_csr_eliminate_zeros_tolerance.

(** C11 with the default tolerance 0: exactly the stored zeros go; the matrix stays. *)
Theorem C11_csr_eliminate_zeros :
  forall (S : scalar) (A : csr S),
  order_laws S -> abs_laws S -> csr_valid A ->
  exists B, sp_elim_zeros A s0 = Ok B /\ csr_valid B /\ c_rows B = c_rows A /\ c_cols B = c_cols A /\
    (forall e, In e (entries B) <-> In e (entries A) /\ evalue e <> s0) /\
    (ring_laws S -> forall i j, csr_mat B i j = csr_mat A i j).
Proof. exact @sp_elim_zeros_default. Qed.
Print Assumptions C11_csr_eliminate_zeros.

Definition exZ : csr Zs := @CSR Zs 3 3 [0; 3; 4; 6] [0; 2; 1; 1; 0; 2] [0; -3; 2; 0; 1; 0].
Example C11_instance :
  order_laws Zs /\ abs_laws Zs /\ csr_valid exZ /\
  sp_elim_zeros exZ 0 = Ok (@CSR Zs 3 3 [0; 2; 2; 3] [2; 1; 0] [-3; 2; 1]) /\
  sp_elim_zeros exZ 2 = Ok (@CSR Zs 3 3 [0; 1; 1; 1] [2] [-3]).
Proof.
  split; [exact Zs_order|split; [exact Zs_abs|split; [apply csr_validb_ok; reflexivity|split; reflexivity]]].
Qed.

(* ---------------------------------------------------------------- C14 *)

(** C14 for matrices that store no coordinate twice (missing: matrices that do, for
    which the statement is false, see below). *)
Theorem C14_to_dense_partial :
  forall (S : scalar), ring_laws S ->
  forall (A : csr S), csr_valid A -> no_dup_coords (entries A) ->
  exists D, sp_to_dense A = Ok D /\ dense_ok D /\ d_rows D = c_rows A /\ d_cols D = c_cols A /\
    forall i j, 0 <= i < c_rows A -> 0 <= j < c_cols A -> dense_mat D i j = csr_mat A i j.
Proof. exact @sp_to_dense_spec. Qed.
Print Assumptions C14_to_dense_partial.

(** The overloads writing into an existing dense matrix (any previous content). *)
Theorem C14_to_dense_into_partial :
  forall (S : scalar), ring_laws S ->
  forall (A : csr S) (out : dense S), csr_valid A -> no_dup_coords (entries A) ->
  exists D, sp_to_dense_into A out = Ok D /\ dense_ok D /\ d_rows D = c_rows A /\ d_cols D = c_cols A /\
    forall i j, 0 <= i < c_rows A -> 0 <= j < c_cols A -> dense_mat D i j = csr_mat A i j.
Proof. exact @sp_to_dense_into_spec. Qed.
Print Assumptions C14_to_dense_into_partial.

Theorem C14_transpose_dense_partial :
  forall (S : scalar), ring_laws S ->
  forall (A : csr S) (out : dense S), csr_valid A -> no_dup_coords (entries A) ->
  exists D, sp_transpose_dense_into A out = Ok D /\ dense_ok D /\ d_rows D = c_cols A /\ d_cols D = c_rows A /\
    forall i j, 0 <= i < c_rows A -> 0 <= j < c_cols A -> dense_mat D j i = csr_mat A i j.
Proof. exact @sp_transpose_dense_into_spec. Qed.
Print Assumptions C14_transpose_dense_partial.

(** Any matrix, any arithmetic: a coordinate stored several times gets the value stored
    last. *)
Theorem C14_to_dense_last_value :
  forall (S : scalar) (A : csr S), csr_valid A ->
  exists D, sp_to_dense A = Ok D /\ dense_ok D /\ d_rows D = c_rows A /\ d_cols D = c_cols A /\
    forall i j, 0 <= i < c_rows A -> 0 <= j < c_cols A ->
      dense_mat D i j = fold_left (fun _ e => evalue e) (filter (at_pos i j) (entries A)) s0.
Proof. exact @sp_to_dense_exact. Qed.
Print Assumptions C14_to_dense_last_value.

(** The full statement of C14 is false: a valid matrix whose dense copy is not the
    operator Mult applies. *)
Theorem C14_to_dense_refuted :
  exists (A : csr Zs) (D : dense Zs) (y : list Z),
    csr_valid A /\ sp_to_dense A = Ok D /\ sp_mult A [0; 1; 0] [0; 0; 0; 0] = Ok y /\
    dense_mat D 2 1 = 4 /\ vec_of (S := Zs) y 2 = 7.
Proof.
  exists exA. eexists. eexists. split; [exact exA_valid|].
  split; [vm_compute; reflexivity|]. split; [vm_compute; reflexivity|]. split; vm_compute; reflexivity.
Qed.
Print Assumptions C14_to_dense_refuted.

Lemma exS_no_dup : no_dup_coords (entries exS).
Proof. vm_compute. repeat constructor; cbn; intuition congruence. Qed.

Example C14_instance :
  csr_valid exS /\ no_dup_coords (entries exS) /\
  sp_to_dense exS = Ok (@Dense Zs 3 3 [2; 0; 4; 1; 0; 0; 0; 3; 5]).
Proof. split; [exact exS_valid|split; [exact exS_no_dup|vm_compute; reflexivity]]. Qed.

(* ---------------------------------------------------------------- C15 *)

(** C15 for any arithmetic: same positions, each value combined with the factor of its
    row or column and nothing else. *)
Theorem C15_scaling_entries :
  forall (S : scalar) (A : csr S), csr_valid A ->
  (forall v, updates (Ok (sp_scale A v)) A (fun _ _ a => smul a v)) /\
  (forall v, seqb v s0 = false -> updates (sp_div A v) A (fun _ _ a => sdiv a v)) /\
  (forall w, zlen w = c_rows A -> updates (sp_scale_rows A w) A (fun i _ a => smul a (vec_of w i))) /\
  (forall w, zlen w = c_cols A -> updates (sp_scale_cols A w) A (fun _ j a => smul a (vec_of w j))) /\
  (forall w, zlen w = c_rows A -> (forall i, 0 <= i < c_rows A -> seqb (vec_of w i) s0 = false) ->
     updates (sp_inv_scale_rows A w) A (fun i _ a => sdiv a (vec_of w i))) /\
  (forall w, zlen w = c_cols A -> (forall j, 0 <= j < c_cols A -> seqb (vec_of w j) s0 = false) ->
     updates (sp_inv_scale_cols A w) A (fun _ j a => sdiv a (vec_of w j))).
Proof.
  exact (fun S A V => conj (fun v => sp_scale_updates A v V) (conj (fun v => sp_div_updates A v V)
   (conj (fun w => sp_scale_rows_updates A w V) (conj (fun w => sp_scale_cols_updates A w V)
   (conj (fun w => sp_inv_scale_rows_updates A w V) (fun w => sp_inv_scale_cols_updates A w V)))))).
Qed.
Print Assumptions C15_scaling_entries.

Theorem C15_scalar_multiple :
  forall (S : scalar), ring_laws S ->
  forall (A : csr S) (v : car S), csr_valid A ->
  csr_valid (sp_scale A v) /\ same_pattern A (sp_scale A v) /\
  forall i j, csr_mat (sp_scale A v) i j = smul (csr_mat A i j) v.
Proof. exact @sp_scale_mat. Qed.
Print Assumptions C15_scalar_multiple.

Theorem C15_scale_rows :
  forall (S : scalar), ring_laws S ->
  forall (A : csr S) (w : list (car S)), csr_valid A -> zlen w = c_rows A ->
  exists B, sp_scale_rows A w = Ok B /\ csr_valid B /\ same_pattern A B /\
  forall i j, csr_mat B i j = smul (csr_mat A i j) (vec_of w i).
Proof. exact @sp_scale_rows_mat_spec. Qed.
Print Assumptions C15_scale_rows.

Theorem C15_scale_cols :
  forall (S : scalar), ring_laws S ->
  forall (A : csr S) (w : list (car S)), csr_valid A -> zlen w = c_cols A ->
  exists B, sp_scale_cols A w = Ok B /\ csr_valid B /\ same_pattern A B /\
  forall i j, csr_mat B i j = smul (csr_mat A i j) (vec_of w j).
Proof. exact @sp_scale_cols_mat_spec. Qed.
Print Assumptions C15_scale_cols.

Theorem C15_divide :
  forall (S : scalar), field_laws S ->
  forall (A : csr S) (v : car S), csr_valid A -> seqb v s0 = false ->
  exists B, sp_div A v = Ok B /\ csr_valid B /\ same_pattern A B /\
  forall i j, csr_mat B i j = sdiv (csr_mat A i j) v.
Proof. exact @sp_div_mat. Qed.
Print Assumptions C15_divide.

Theorem C15_inverse_scale_rows :
  forall (S : scalar), field_laws S ->
  forall (A : csr S) (w : list (car S)), csr_valid A -> zlen w = c_rows A ->
  (forall i, 0 <= i < c_rows A -> seqb (vec_of w i) s0 = false) ->
  exists B, sp_inv_scale_rows A w = Ok B /\ csr_valid B /\ same_pattern A B /\
  forall i j, csr_mat B i j = sdiv (csr_mat A i j) (vec_of w i).
Proof. exact @sp_inv_scale_rows_mat_spec. Qed.
Print Assumptions C15_inverse_scale_rows.

Theorem C15_inverse_scale_cols :
  forall (S : scalar), field_laws S ->
  forall (A : csr S) (w : list (car S)), csr_valid A -> zlen w = c_cols A ->
  (forall j, 0 <= j < c_cols A -> seqb (vec_of w j) s0 = false) ->
  exists B, sp_inv_scale_cols A w = Ok B /\ csr_valid B /\ same_pattern A B /\
  forall i j, csr_mat B i j = sdiv (csr_mat A i j) (vec_of w j).
Proof. exact @sp_inv_scale_cols_mat_spec. Qed.
Print Assumptions C15_inverse_scale_cols.

(** C15 for the overloads taking a diagonal matrix: D A and A D. *)
Theorem C15_scale_rows_by_diagonal_matrix :
  forall (S : scalar), ring_laws S ->
  forall (A : csr S) (d : list (car S)), csr_valid A -> zlen d = c_rows A ->
  exists B, sp_scale_rows_mat A (sp_diag d) = Ok B /\ csr_valid B /\ same_pattern A B /\
  forall i j, csr_mat B i j = mat_mul (csr_mat (sp_diag d)) (csr_mat A) (c_rows A) i j.
Proof. exact @sp_scale_rows_diag. Qed.
Print Assumptions C15_scale_rows_by_diagonal_matrix.

Theorem C15_scale_cols_by_diagonal_matrix :
  forall (S : scalar), ring_laws S ->
  forall (A : csr S) (d : list (car S)), csr_valid A -> zlen d = c_cols A ->
  exists B, sp_scale_cols_mat A (sp_diag d) = Ok B /\ csr_valid B /\ same_pattern A B /\
  forall i j, csr_mat B i j = mat_mul (csr_mat A) (csr_mat (sp_diag d)) (c_cols A) i j.
Proof. exact @sp_scale_cols_diag. Qed.
Print Assumptions C15_scale_cols_by_diagonal_matrix.

Example C15_instance :
  csr_valid exA /\ zlen [2; 3; 5; 7] = c_rows exA /\
  sp_scale_rows exA [2; 3; 5; 7] = Ok (@CSR Zs 4 3 [0; 2; 2; 4; 6] [2; 0; 1; 1; 0; 2] [4; 2; 15; 20; 35; 42]) /\
  sp_scale_cols exA [2; 3; 5] = Ok (@CSR Zs 4 3 [0; 2; 2; 4; 6] [2; 0; 1; 1; 0; 2] [10; 2; 9; 12; 10; 30]).
Proof. split; [exact exA_valid|repeat split; vm_compute; reflexivity]. Qed.

(* ---------------------------------------------------------------- C16 *)

Theorem C16_eliminate_row :
  forall (S : scalar), ring_laws S ->
  forall (A : csr S) (index : Z), csr_valid A -> 0 <= index < c_rows A ->
  exists B, sp_elim_row A index = Ok B /\ csr_valid B /\ same_pattern A B /\
  forall i j, csr_mat B i j = if i =? index then s0 else csr_mat A i j.
Proof. exact @sp_elim_row_mat. Qed.
Print Assumptions C16_eliminate_row.

Theorem C16_eliminate_col :
  forall (S : scalar), ring_laws S ->
  forall (A : csr S) (index : Z), csr_valid A -> 0 <= index < c_cols A ->
  exists B, sp_elim_col A index = Ok B /\ csr_valid B /\ same_pattern A B /\
  forall i j, csr_mat B i j = if j =? index then s0 else csr_mat A i j.
Proof. exact @sp_elim_col_mat. Qed.
Print Assumptions C16_eliminate_col.

Theorem C16_eliminate_col_marker :
  forall (S : scalar), ring_laws S ->
  forall (A : csr S) (marker : list bool), csr_valid A -> c_cols A <= zlen marker ->
  exists B, sp_elim_col_marker A marker = Ok B /\ csr_valid B /\ same_pattern A B /\
  forall i j, csr_mat B i j = if zn false marker j then s0 else csr_mat A i j.
Proof. exact @sp_elim_col_marker_mat. Qed.
Print Assumptions C16_eliminate_col_marker.

(** EliminateRowCol: the row and the column become zero, the diagonal entry becomes one
    if it is stored exactly once and zero if it is not stored. *)
Theorem C16_eliminate_row_col_partial :
  forall (S : scalar), ring_laws S ->
  forall (A : csr S) (index : Z), csr_valid A -> 0 <= index < c_rows A -> index < c_cols A ->
  exists B, sp_elim_row_col A index = Ok B /\ csr_valid B /\ same_pattern A B /\
  (forall i j, i <> index -> j <> index -> csr_mat B i j = csr_mat A i j) /\
  (forall j, j <> index -> csr_mat B index j = s0 /\ csr_mat B j index = s0) /\
  (no_dup_coords (entries A) -> stored A index index -> csr_mat B index index = s1) /\
  (~ stored A index index -> csr_mat B index index = s0).
Proof. exact @sp_elim_row_col_mat. Qed.
Print Assumptions C16_eliminate_row_col_partial.

Theorem C16_eliminate_row_col_marker_partial :
  forall (S : scalar), ring_laws S ->
  forall (A : csr S) (marker : list bool), csr_valid A -> c_rows A = c_cols A -> c_cols A <= zlen marker ->
  exists B, sp_elim_row_col_marker A marker = Ok B /\ csr_valid B /\ same_pattern A B /\
  (forall i j, zn false marker i = false -> zn false marker j = false -> csr_mat B i j = csr_mat A i j) /\
  (forall i j, zn false marker i = true \/ zn false marker j = true -> i <> j -> csr_mat B i j = s0) /\
  (forall i, zn false marker i = true -> no_dup_coords (entries A) -> stored A i i -> csr_mat B i i = s1) /\
  (forall i, zn false marker i = true -> ~ stored A i i -> csr_mat B i i = s0).
Proof. exact @sp_elim_row_col_marker_mat. Qed.
Print Assumptions C16_eliminate_row_col_marker_partial.

(** What is stored afterwards, for every arithmetic and also with repeated entries. *)
Theorem C16_elimination_entries :
  forall (S : scalar) (A : csr S), csr_valid A ->
  (forall k, 0 <= k < c_rows A -> updates (sp_elim_row A k) A (fun i _ a => if i =? k then s0 else a)) /\
  (forall k, 0 <= k < c_cols A \/ 0 <= k /\ c_cols A = 0 ->
     updates (sp_elim_col A k) A (fun _ j a => if j =? k then s0 else a)) /\
  (forall k, 0 <= k < c_rows A -> k < c_cols A ->
     updates (sp_elim_row_col A k) A
       (fun i j a => if (i =? k) || (j =? k) then (if i =? j then s1 else s0) else a)).
Proof.
  exact (fun S A V => conj (fun k => sp_elim_row_updates A k V)
   (conj (fun k => sp_elim_col_updates A k V) (fun k => sp_elim_row_col_updates A k V))).
Qed.
Print Assumptions C16_elimination_entries.

(** A diagonal entry that is stored twice becomes 2, one that is not stored stays 0:
    "the diagonal becomes 1" is false in general. *)
Theorem C16_eliminate_row_col_diagonal_refuted :
  exists (A B C : csr Zs),
    csr_valid A /\ sp_elim_row_col A 0 = Ok B /\ csr_mat B 0 0 = 2 /\
    sp_elim_row_col A 1 = Ok C /\ csr_mat C 1 1 = 0.
Proof.
  exists (@CSR Zs 2 2 [0; 2; 3] [0; 0; 0] [3; 4; 5]). eexists. eexists.
  split; [apply csr_validb_ok; reflexivity|]. split; [vm_compute; reflexivity|].
  split; [vm_compute; reflexivity|]. split; vm_compute; reflexivity.
Qed.
Print Assumptions C16_eliminate_row_col_diagonal_refuted.

Example C16_instance :
  csr_valid exS /\ no_dup_coords (entries exS) /\ stored exS 2 2 /\ ~ stored exS 1 1 /\
  sp_elim_row_col exS 2 = Ok (@CSR Zs 3 3 [0; 2; 3; 5] [0; 1; 2; 2; 0] [2; 1; 0; 1; 0]).
Proof.
  split; [exact exS_valid|]. split; [exact exS_no_dup|].
  split; [exists 5; vm_compute; tauto|]. split; [|vm_compute; reflexivity].
  intros (v & H). vm_compute in H. intuition congruence.
Qed.

(* ---------------------------------------------------------------- C17 *)

Theorem C17_elimination_keeps_residual :
  forall (S : scalar), ring_laws S ->
  forall (A : csr S) (marker : list bool) (x b : list (car S)),
  eqb_laws S -> csr_valid A -> c_cols A <= zlen marker -> zlen x = c_cols A -> zlen b = c_rows A ->
  exists B b', sp_elim_col_bc A marker x b = Ok (B, b') /\ csr_valid B /\ same_pattern A B /\ zlen b' = c_rows A /\
    (forall i j, csr_mat B i j = if zn false marker j then s0 else csr_mat A i j) /\
    (forall y i, 0 <= i < c_rows A ->
       (forall j, 0 <= j < c_cols A -> zn false marker j = true -> y j = vec_of x j) ->
       ssub (vec_of b' i) (mat_vec (csr_mat B) (c_cols A) y i)
       = ssub (vec_of b i) (mat_vec (csr_mat A) (c_cols A) y i)).
Proof. exact @sp_elim_col_bc_spec. Qed.
Print Assumptions C17_elimination_keeps_residual.

Example C17_instance :
  eqb_laws Zs /\ csr_valid exA /\ c_cols exA <= zlen [true; false; true] /\
  sp_elim_col_bc exA [true; false; true] [10; 7; 100] [1; 2; 3; 4]
  = Ok (@CSR Zs 4 3 [0; 2; 2; 4; 6] [2; 0; 1; 1; 0; 2] [0; 0; 3; 4; 0; 0], [-209; 2; 3; -646]).
Proof. split; [exact Zs_eqb|split; [exact exA_valid|split; [vm_compute; discriminate|vm_compute; reflexivity]]]. Qed.

(* ---------------------------------------------------------------- C18 *)

(** C18 for matrices without repeated coordinates (missing: the others, for which
    GetDiag and AddDiag do not act on the represented matrix, see below). *)
Theorem C18_get_diag_partial :
  forall (S : scalar), ring_laws S ->
  forall (A : csr S), csr_valid A -> c_rows A = c_cols A -> no_dup_coords (entries A) ->
  exists d, sp_get_diag A = Ok d /\ zlen d = c_rows A /\
    forall i, 0 <= i < c_rows A -> vec_of d i = csr_mat A i i.
Proof. exact @sp_get_diag_spec. Qed.
Print Assumptions C18_get_diag_partial.

Theorem C18_add_diag_partial :
  forall (S : scalar), ring_laws S ->
  forall (A : csr S) (diag : list (car S)), csr_valid A -> c_rows A = c_cols A -> zlen diag = c_rows A ->
  exists B, sp_add_diag A diag = Ok B /\ csr_valid B /\ same_pattern A B /\
  (forall i j, i <> j -> csr_mat B i j = csr_mat A i j) /\
  (forall i, no_dup_coords (entries A) -> stored A i i -> csr_mat B i i = sadd (csr_mat A i i) (vec_of diag i)) /\
  (forall i, ~ stored A i i -> csr_mat B i i = csr_mat A i i).
Proof. exact @sp_add_diag_mat. Qed.
Print Assumptions C18_add_diag_partial.

Theorem C18_add_diag_value_partial :
  forall (S : scalar), ring_laws S ->
  forall (A : csr S) (v : car S), csr_valid A -> c_rows A = c_cols A ->
  exists B, sp_add_diag_val A v = Ok B /\ csr_valid B /\ same_pattern A B /\
  (forall i j, i <> j -> csr_mat B i j = csr_mat A i j) /\
  (forall i, no_dup_coords (entries A) -> stored A i i -> csr_mat B i i = sadd (csr_mat A i i) v) /\
  (forall i, ~ stored A i i -> csr_mat B i i = csr_mat A i i).
Proof. exact @sp_add_diag_val_mat. Qed.
Print Assumptions C18_add_diag_value_partial.

(** Repeated diagonal entries: GetDiag returns the last one, AddDiag adds to each. *)
Theorem C18_diagonal_refuted :
  exists (A B : csr Zs) (d : list Z),
    csr_valid A /\ csr_mat A 0 0 = 7 /\ sp_get_diag A = Ok d /\ vec_of (S := Zs) d 0 = 4 /\
    sp_add_diag A [10; 10] = Ok B /\ csr_mat B 0 0 = 27.
Proof.
  exists (@CSR Zs 2 2 [0; 2; 3] [0; 0; 0] [3; 4; 5]). eexists. eexists.
  split; [apply csr_validb_ok; reflexivity|]. repeat (split; [vm_compute; reflexivity|]). vm_compute; reflexivity.
Qed.
Print Assumptions C18_diagonal_refuted.

Example C18_instance :
  csr_valid exS /\ c_rows exS = c_cols exS /\ no_dup_coords (entries exS) /\
  sp_get_diag exS = Ok [2; 0; 5] /\
  sp_add_diag exS [10; 20; 30] = Ok (@CSR Zs 3 3 [0; 2; 3; 5] [0; 1; 2; 2; 0] [12; 1; 3; 35; 4]).
Proof. split; [exact exS_valid|split; [reflexivity|split; [exact exS_no_dup|split; vm_compute; reflexivity]]]. Qed.

(* ---------------------------------------------------------------- C19 *)

Theorem C19_permute_cols :
  forall (S : scalar), ring_laws S ->
  forall (A : csr S) (perm : list Z),
  csr_valid A -> zlen perm = c_cols A -> (forall j, 0 <= j < c_cols A -> 0 <= zn 0 perm j < c_cols A) ->
  exists B, sp_permute_cols A perm = Ok B /\ csr_valid B /\ c_rows B = c_rows A /\ c_cols B = c_cols A /\
    (forall i k, csr_mat B i k = sum_range 0 (c_cols A) (fun j => if zn 0 perm j =? k then csr_mat A i j else s0)) /\
    (NoDup perm -> forall i j, 0 <= j < c_cols A -> csr_mat B i (zn 0 perm j) = csr_mat A i j).
Proof. exact @sp_permute_cols_spec. Qed.
Print Assumptions C19_permute_cols.

Example C19_instance :
  csr_valid exA /\ NoDup [2; 0; 1] /\
  sp_permute_cols exA [2; 0; 1] = Ok (@CSR Zs 4 3 [0; 2; 2; 4; 6] [1; 2; 0; 0; 2; 1] [2; 1; 3; 4; 5; 6]).
Proof.
  split; [exact exA_valid|split; [repeat constructor; cbn; intuition congruence|vm_compute; reflexivity]].
Qed.

(* ---------------------------------------------------------------- C20 *)

Theorem C20_mult_dense :
  forall (S : scalar), ring_laws S ->
  forall (A : csr S) (X out : dense S),
  csr_valid A -> dense_ok X -> d_rows X = c_cols A ->
  exists D, sp_mult_dense A X out = Ok D /\ dense_ok D /\ d_rows D = c_rows A /\ d_cols D = d_cols X /\
    forall i k, 0 <= i < c_rows A -> 0 <= k < d_cols X ->
      dense_mat D i k = mat_mul (csr_mat A) (dense_mat X) (c_cols A) i k.
Proof. exact @sp_mult_dense_spec. Qed.
Print Assumptions C20_mult_dense.

Theorem C20_multAT_dense :
  forall (S : scalar), ring_laws S ->
  forall (A : csr S) (X out : dense S),
  csr_valid A -> dense_ok X -> d_rows X = c_rows A ->
  exists D, sp_multAT_dense A X out = Ok D /\ dense_ok D /\ d_rows D = c_cols A /\ d_cols D = d_cols X /\
    forall j k, 0 <= j < c_cols A -> 0 <= k < d_cols X ->
      dense_mat D j k = mat_mul (mat_T (csr_mat A)) (dense_mat X) (c_rows A) j k.
Proof. exact @sp_multAT_dense_spec. Qed.
Print Assumptions C20_multAT_dense.

Theorem C20_multCT_dense :
  forall (S : scalar), ring_laws S ->
  forall (A : csr S) (X out : dense S),
  csr_valid A -> dense_ok X -> d_rows X = c_cols A ->
  exists D, sp_multCT_dense A X out = Ok D /\ dense_ok D /\ d_rows D = d_cols X /\ d_cols D = c_rows A /\
    forall i k, 0 <= i < c_rows A -> 0 <= k < d_cols X ->
      dense_mat D k i = mat_mul (csr_mat A) (dense_mat X) (c_cols A) i k.
Proof. exact @sp_multCT_dense_spec. Qed.
Print Assumptions C20_multCT_dense.

Definition exX : dense Zs := @Dense Zs 3 2 [1; 2; 3; 10; 20; 30].
Example C20_instance :
  csr_valid exA /\ dense_ok exX /\ d_rows exX = c_cols exA /\
  sp_mult_dense exA exX (@Dense Zs 1 1 [99]) = Ok (@Dense Zs 4 2 [7; 0; 14; 23; 70; 0; 140; 230]) /\
  sp_multCT_dense exA exX (@Dense Zs 1 1 [99]) = Ok (@Dense Zs 2 4 [7; 70; 0; 0; 14; 140; 23; 230]) /\
  sp_multAT_dense exA (@Dense Zs 4 1 [1; 10; 100; 1000]) (@Dense Zs 0 0 []) = Ok (@Dense Zs 3 1 [5001; 700; 6002]).
Proof.
  split; [exact exA_valid|]. split; [vm_compute; intuition congruence|]. split; [reflexivity|].
  repeat split; vm_compute; reflexivity.
Qed.
