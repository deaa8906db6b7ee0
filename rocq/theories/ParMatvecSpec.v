(** What C94 means: distributed vectors, and the contract of hypre's products. *)

From Coq Require Import ZArith List Bool.
From Verif Require Import Base Scalar Spec Dense Sparse Par ParSpec HypreTransposeSpec ParMatvec.
Import ListNotations.
Open Scope Z_scope.

Section ParMatvecSpec.
Context {S : scalar}.
Notation T := (car S).
Notation parmat := (parmat S).

(** [part] is [pm_rs] or [pm_cs]: the partition of the rows or of the columns. *)

(** Every index below n belongs to a rank. *)
Definition tiles (part : parmat -> list Z) (n : Z) (As : list parmat) : Prop :=
  forall i, 0 <= i < n -> exists r A, get As r = Ok A /\ zn 0 (part A) 0 <= i < zn 0 (part A) 1.

(** Every rank has as many elements as indices. *)
Definition fits (part : parmat -> list Z) (As : list parmat) (vs : list (list T)) : Prop :=
  zlen vs = zlen As /\ forall r A v, get As r = Ok A -> get vs r = Ok v -> zlen v = zn 0 (part A) 1 - zn 0 (part A) 0.

(** The ranks hold the elements of X. *)
Definition holds (part : parmat -> list Z) (As : list parmat) (vs : list (list T)) (X : vect S) : Prop :=
  fits part As vs /\
  forall r A v i, get As r = Ok A -> get vs r = Ok v -> 0 <= i < zlen v -> zn s0 v i = X (zn 0 (part A) 0 + i).

(** The vectors were created with the partition. *)
Definition laid (part : parmat -> list Z) (As : list parmat) (vs : list (hvec S)) : Prop :=
  zlen vs = zlen As /\ forall r A v, get As r = Ok A -> get vs r = Ok v -> hv_part v = part A.

(** The products of hypre, for vectors with the partitions of the matrix. *)
Record multiplies (H : hypre S) : Prop := {
  mu_matvec : forall M N As xs ys X, distributed M N As -> tiles pm_cs N As ->
    laid pm_cs As xs -> holds pm_cs As (map hv_data xs) X -> laid pm_rs As ys -> fits pm_rs As (map hv_data ys) ->
    forall r A i, get As r = Ok A -> 0 <= i < pm_rows A ->
    hy_matvec H As xs ys r i = mat_vec (world_mat As) N X (row0 A + i);
  mu_matvecT : forall M N As xs ys X, distributed M N As -> tiles pm_rs M As ->
    laid pm_rs As xs -> holds pm_rs As (map hv_data xs) X -> laid pm_cs As ys -> fits pm_cs As (map hv_data ys) ->
    forall r A i, get As r = Ok A -> 0 <= i < pm_cols A ->
    hy_matvecT H As xs ys r i = mat_vec (mat_T (world_mat As)) M X (col0 A + i)
}.

(** The rows and the columns are split in the same way. *)
Definition same_split (As : list parmat) : Prop := forall r A, get As r = Ok A -> pm_rs A = pm_cs A.

(** Every rank starts before the end. *)
Definition starts_inside (part : parmat -> list Z) (As : list parmat) : Prop :=
  forall r A, get As r = Ok A -> zn 0 (part A) 0 < zn 0 (part A) 2.

End ParMatvecSpec.
