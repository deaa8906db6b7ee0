(** What the theorems about the short forms of the interface say.  Definitions only. *)

From Coq Require Import ZArith List Bool.
From Verif Require Import Base Scalar Spec Sparse.
Import ListNotations.
Open Scope Z_scope.

Section ShortSpec.
Context {S : scalar}.

(** The entries of row i, in the order they are stored. *)
Definition stored_in_row (A : csr S) (i : Z) : list (entry S) := filter (fun e => erow e =? i) (entries A).

(** A diagonal matrix as users build them: n by n, and what is stored is one entry in each row, on
    the diagonal. *)
Definition stored_diagonal (D : csr S) (n : Z) : Prop :=
  csr_valid D /\ c_rows D = n /\ c_cols D = n /\ map fst (entries D) = map (fun i => (i, i)) (zrange 0 n).

(** No entry of it is zero. *)
Definition invertible_diagonal (D : csr S) (n : Z) : Prop :=
  forall i, 0 <= i < n -> seqb (csr_mat D i i) s0 = false.

(** What stands at (i,j) when a matrix is written out in full: the value stored last, or zero. *)
Definition shown (A : csr S) (i j : Z) : car S := fold_left (fun _ e => evalue e) (filter (at_pos i j) (entries A)) s0.

(** A call returns the product of f with x. *)
Definition gives_product (m : res (list (car S))) (n k : Z) (f : mat S) (x : list (car S)) : Prop :=
  exists y, m = Ok y /\ zlen y = n /\ forall i, 0 <= i < n -> vec_of y i = mat_vec f k (vec_of x) i.

End ShortSpec.
