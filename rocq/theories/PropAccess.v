(** C119: writes through the references and views that a SparseMatrix hands out. *)

From Coq Require Import ZArith List Lia Bool.
From Verif Require Import Base Scalar Spec Sparse Examples ShortSpec Access AccessSpec AccessProofs.
Import ListNotations.
Open Scope Z_scope.

(** GetIndicesView(row) shows the columns stored in the row ... *)
Theorem C119_view_reads :
  forall (S : scalar) (A : csr S) (row : Z) (d : entry S), csr_valid A -> 0 <= row < c_rows A ->
  exists w, sp_indices_view A row = Ok w /\ iv_size w = zlen (stored_in_row A row) /\
  forall i, 0 <= i < iv_size w -> iv_read A w i = Ok (ecol (zn d (stored_in_row A row) i)).
Proof. exact @view_reads. Qed.
Print Assumptions C119_view_reads.

(** ... any sequence of assignments through GetIndicesView(row), GetIndices() and GetData() to entries
    that exist leaves a valid matrix of the same size in which exactly the assigned columns and values
    are changed ... *)
Theorem C119_assignments :
  forall (S : scalar) (ps : list (assignment S)) (A : csr S), csr_valid A -> Forall (proper A) ps ->
  exists B, assign_all A ps = Ok B /\ csr_valid B /\ c_rows B = c_rows A /\ c_cols B = c_cols A /\
  entries B = fold_left effect ps (entries A).
Proof. exact @assign_all_ok. Qed.
Print Assumptions C119_assignments.

(** ... a row that does not exist, and an index at or past the end of the view, are rejected ... *)
Theorem C119_rejected :
  forall (S : scalar) (A : csr S) (row i c : Z), csr_valid A ->
  (~ (0 <= row < c_rows A) -> sp_indices_view A row = Fail FAssert) /\
  (0 <= row < c_rows A -> zlen (stored_in_row A row) <= i ->
   (exists w, sp_indices_view A row = Ok w /\ iv_read A w i = Fail FAssert) /\ assign A (ThroughView row i c) = Fail FAssert).
Proof. exact @view_rejected. Qed.
Print Assumptions C119_rejected.

(** ... and an assignment outside the vectors of the matrix is undefined. *)
Theorem C119_outside_vectors :
  forall (S : scalar) (A : csr S) (k c : Z) (v : car S), csr_valid A -> ~ (0 <= k < zlen (entries A)) ->
  assign A (ToIndices k c) = Fail FUB /\ assign A (ToData k v) = Fail FUB.
Proof. exact @vector_rejected. Qed.
Print Assumptions C119_outside_vectors.

(** Not every index outside the row is rejected: a negative index of a view goes through and moves an
    entry of an earlier row to another column, or is undefined when no earlier entry is there. *)
Theorem C119_negative_index_refuted :
  forall (S : scalar) (A : csr S) (row i c : Z),
  csr_valid A -> 0 <= row < c_rows A -> 0 <= c < c_cols A -> i < 0 ->
  (stored_before (entries A) row + i < 0 -> assign A (ThroughView row i c) = Fail FUB) /\
  (0 <= stored_before (entries A) row + i ->
   exists B, assign A (ThroughView row i c) = Ok B /\ stored_in_row B row = stored_in_row A row /\
   exists e, nth_error (entries A) (Z.to_nat (stored_before (entries A) row + i)) = Some e /\ erow e < row /\
   entries B = change_nth (entries A) (Z.to_nat (stored_before (entries A) row + i)) (in_column c)).
Proof. exact @negative_index. Qed.
Print Assumptions C119_negative_index_refuted.

(** Nor is a column outside the matrix: the assignment goes through and the matrix is no longer valid. *)
Theorem C119_bad_column :
  forall (S : scalar) (A : csr S) (k c : Z), csr_valid A -> 0 <= k < zlen (entries A) -> ~ (0 <= c < c_cols A) ->
  exists B, assign A (ToIndices k c) = Ok B /\ ~ csr_valid B.
Proof. exact @bad_column. Qed.
Print Assumptions C119_bad_column.

Example C119_instance :
  let A := exS in
  csr_valid A /\
  Forall (proper A) [ThroughView 2 1 1; ToData 2 (7 : car Zs); ToIndices 0 2] /\
  assign_all A [ThroughView 2 1 1; ToData 2 (7 : car Zs); ToIndices 0 2]
    = Ok (@CSR Zs 3 3 [0; 2; 3; 5] [2; 1; 2; 2; 1] [2; 1; 7; 5; 4]) /\
  stored_before (entries A) 2 + -1 = 2 /\
  assign A (ThroughView 2 (-1) 0) = Ok (@CSR Zs 3 3 [0; 2; 3; 5] [0; 1; 0; 2; 0] [2; 1; 3; 5; 4]) /\
  assign A (ThroughView 0 (-1) 0) = Fail FUB /\ assign A (ThroughView 1 1 0) = Fail FAssert.
Proof.
  cbv zeta. split; [|split; [|repeat split; vm_compute; reflexivity]].
  - exact exS_valid.
  - repeat constructor; vm_compute; congruence.
Qed.
