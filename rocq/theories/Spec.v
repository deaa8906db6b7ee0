(** What the theorems talk about: finite sums, matrices as functions, the matrix
    represented by a list of entries, compressed sparse row (CSR) storage.
    This file contains definitions only. *)

From Coq Require Import ZArith List Bool Permutation.
From Verif Require Import Base Scalar.
Import ListNotations.
Open Scope Z_scope.

Section Spec.
Context (S : scalar).
Notation T := (car S).

(** a1 + (a2 + (... + 0)) *)
Definition sum_list (l : list T) : T := fold_right sadd s0 l.

(** f(lo) + ... + f(hi-1) *)
Definition sum_range (lo hi : Z) (f : Z -> T) : T := sum_list (map f (zrange lo hi)).

(** Mathematical vectors and matrices are functions of the index. *)
Definition vect : Type := Z -> T.
Definition mat : Type := Z -> Z -> T.

(** The vector stored in an array. *)
Definition vec_of (l : list T) : vect := fun i => zn s0 l i.

Definition mat_vec (A : mat) (cols : Z) (x : vect) : vect :=
  fun i => sum_range 0 cols (fun j => smul (A i j) (x j)).

Definition mat_mul (A B : mat) (inner : Z) : mat :=
  fun i j => sum_range 0 inner (fun k => smul (A i k) (B k j)).

Definition mat_T (A : mat) : mat := fun i j => A j i.

Definition inner (n : Z) (x y : vect) : T := sum_range 0 n (fun i => smul (x i) (y i)).

(** One stored entry: row, column, value. *)
Definition entry : Type := (Z * Z * T)%type.
Definition erow (e : entry) : Z := fst (fst e).
Definition ecol (e : entry) : Z := snd (fst e).
Definition evalue (e : entry) : T := snd e.

Definition at_pos (i j : Z) (e : entry) : bool := (erow e =? i) && (ecol e =? j).

(** The matrix represented by a list of entries: the value at (i,j) is the sum of
    all values stored for that coordinate. *)
Definition mat_of (l : list entry) : mat :=
  fun i j => sum_list (map evalue (filter (at_pos i j) l)).

(** Every coordinate occurs at most once. *)
Definition no_dup_coords (l : list entry) : Prop := NoDup (map fst l).

(** All entries lie inside a rows x cols matrix. *)
Definition in_shape (rows cols : Z) (l : list entry) : Prop :=
  Forall (fun e => 0 <= erow e < rows /\ 0 <= ecol e < cols) l.

(** The members of SparseMatrix<T> (include/sparsematrix.hpp:439-441) and its base
    class Operator (include/operator.hpp, rows_ and cols_). *)
Record csr : Type := CSR {
  c_rows : Z;
  c_cols : Z;
  c_ptr : list Z;     (* indptr_ *)
  c_idx : list Z;     (* indices_ *)
  c_val : list T      (* data_ *)
}.

Definition ptr (A : csr) (i : Z) : Z := zn 0 (c_ptr A) i.
Definition idx (A : csr) (k : Z) : Z := zn 0 (c_idx A) k.
Definition val (A : csr) (k : Z) : T := zn s0 (c_val A) k.
Definition nnz (A : csr) : Z := zlen (c_val A).

(** Valid compressed sparse row storage. *)
Record csr_valid (A : csr) : Prop := {
  cv_rows : 0 <= c_rows A;
  cv_cols : 0 <= c_cols A;
  cv_ptr_len : zlen (c_ptr A) = c_rows A + 1;
  cv_len : zlen (c_idx A) = zlen (c_val A);
  cv_first : ptr A 0 = 0;
  cv_mono : forall i, 0 <= i < c_rows A -> ptr A i <= ptr A (i + 1);
  cv_last : ptr A (c_rows A) = nnz A;
  cv_idx : forall k, 0 <= k < zlen (c_idx A) -> 0 <= idx A k < c_cols A
}.

(** The entries of row i, in storage order; then of the whole matrix. *)
Definition row_entries (A : csr) (i : Z) : list entry :=
  map (fun k => (i, idx A k, val A k)) (zrange (ptr A i) (ptr A (i + 1))).

Definition entries (A : csr) : list entry :=
  flat_map (row_entries A) (zrange 0 (c_rows A)).

(** The matrix a CSR object represents. *)
Definition csr_mat (A : csr) : mat := mat_of (entries A).

(** Column indices of every row strictly/weakly increasing. *)
Definition rows_sorted (A : csr) : Prop :=
  forall i k, 0 <= i < c_rows A -> ptr A i <= k -> k + 1 < ptr A (i + 1) ->
              idx A k <= idx A (k + 1).

(** Same shape and the same stored positions; only values may differ. *)
Definition same_pattern (A B : csr) : Prop :=
  c_rows B = c_rows A /\ c_cols B = c_cols A /\ c_ptr B = c_ptr A /\ c_idx B = c_idx A.

(** The entry list with every value replaced by a function of row, column and value. *)
Definition map_values (h : Z -> Z -> T -> T) (l : list entry) : list entry :=
  map (fun e => (erow e, ecol e, h (erow e) (ecol e) (evalue e))) l.

(** Coordinate (i,j) is stored. *)
Definition stored (A : csr) (i j : Z) : Prop := exists v, In (i, j, v) (entries A).

(** The call [m] on [A] returns a valid matrix with the stored positions of [A] in
    which only the values changed, value [v] at (i,j) to [h i j v]. *)
Definition updates (m : res csr) (A : csr) (h : Z -> Z -> T -> T) : Prop :=
  exists B, m = Ok B /\ csr_valid B /\ same_pattern A B /\ entries B = map_values h (entries A).

(** The same column indices and values in the same rows, in some order. *)
Definition same_entries (A B : csr) : Prop :=
  c_rows B = c_rows A /\ c_cols B = c_cols A /\ c_ptr B = c_ptr A /\
  forall i, 0 <= i < c_rows A -> Permutation (row_entries A i) (row_entries B i).

End Spec.

Arguments sum_list {S} _.
Arguments sum_range {S} _ _ _.
Arguments vec_of {S} _ _.
Arguments mat_vec {S} _ _ _ _.
Arguments mat_mul {S} _ _ _ _ _.
Arguments mat_T {S} _ _ _.
Arguments inner {S} _ _ _.
Arguments erow {S} _.
Arguments ecol {S} _.
Arguments evalue {S} _.
Arguments at_pos {S} _ _ _.
Arguments mat_of {S} _ _ _.
Arguments no_dup_coords {S} _.
Arguments in_shape {S} _ _ _.
Arguments CSR {S} _ _ _ _ _.
Arguments c_rows {S} _.
Arguments c_cols {S} _.
Arguments c_ptr {S} _.
Arguments c_idx {S} _.
Arguments c_val {S} _.
Arguments ptr {S} _ _.
Arguments idx {S} _ _.
Arguments val {S} _ _.
Arguments nnz {S} _.
Arguments csr_valid {S} _.
Arguments row_entries {S} _ _.
Arguments entries {S} _.
Arguments csr_mat {S} _ _ _.
Arguments rows_sorted {S} _.
Arguments same_pattern {S} _ _.
Arguments map_values {S} _ _.
Arguments stored {S} _ _ _.
Arguments updates {S} _ _ _.
Arguments same_entries {S} _ _.
Arguments cv_rows {S A} _.
Arguments cv_cols {S A} _.
Arguments cv_ptr_len {S A} _.
Arguments cv_len {S A} _.
Arguments cv_first {S A} _.
Arguments cv_last {S A} _.
Arguments cv_mono {S A} _ _ _.
Arguments cv_idx {S A} _ _ _.
