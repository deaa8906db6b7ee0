(** What C106 means: the shares of the ranks of a vector whose elements belong to the vertices of a graph. *)

From Coq Require Import ZArith List Bool.
From Verif Require Import Base Scalar Spec Dense Sparse Block Spmd SpmdSpec.
Import ListNotations.
Open Scope Z_scope.

(** Vertex i belongs to rank part[i].  The vertices of rank r, in increasing order *)
Definition mine (part : list Z) (r : Z) : list Z := filter (fun i => zn 0 part i =? r) (zrange 0 (zlen part)).

Section SplitSpec.
Context {S : scalar}.
Notation T := (car S).

(** What rank r holds of the vector x, and what the ranks 0 .. p-1 hold *)
Definition share (part : list Z) (x : list T) (r : Z) : list T := map (fun i => zn s0 x i) (mine part r).
Definition deal (part : list Z) (p : Z) (x : list T) : list (list T) := map (share part x) (zrange 0 p).

(** A square matrix and a rank for each of its rows.  Between vertices of one rank the matrix is symmetric: without
    that ParSplit makes another matrix (C59_refuted). *)
Record splittable (A : csr S) (part : list Z) (p : Z) : Prop := {
  st_valid : csr_valid A;
  st_square : c_rows A = c_cols A;
  st_ranks : 0 < p;
  st_rows : zlen part = c_rows A;
  st_range : forall i, 0 <= i < zlen part -> 0 <= zn 0 part i < p;
  st_sym : forall i j, zn 0 part i = zn 0 part j -> csr_mat A i j = csr_mat A j i
}.

(** Every vector of the function is dealt out to the ranks. *)
Definition dealt (part : list Z) (p : Z) (sts : list (store S)) (st : store S) : Prop :=
  forall v, zlen (st v) = zlen part /\ map (fun s : store S => s v) sts = deal part p (st v).

(** The distributed preconditioner P does on the shares what the preconditioner M does; or there is none. *)
Definition split_precond (part : list Z) (p : Z) (M : option (op S unit)) (P : option (list (list T) -> list (list T) -> res (list (list T)))) : Prop :=
  match M, P with
  | None, None => True
  | Some m, Some q => keeps (zlen part) m /\
      forall x y, zlen x = zlen part -> zlen y = zlen part ->
      match of_op m x y with Ok z => q (deal part p x) (deal part p y) = Ok (deal part p z) | Fail f => q (deal part p x) (deal part p y) = Fail f end
  | _, _ => False
  end.

End SplitSpec.
