(** What C104 means: vectors cut into the pieces of the ranks, and operators that act on all pieces together. *)

From Coq Require Import ZArith List Bool.
From Verif Require Import Base Scalar Spec Dense Sparse Block Par ParSpec HypreTransposeSpec ParMatvec Spmd.
Import ListNotations.
Open Scope Z_scope.

Section SpmdSpec.
Context {S : scalar}.
Notation T := (car S).

(** The vector X is the vectors of the ranks one after the other; rank r has sizes[r] elements. *)
Definition pieces (sizes : list Z) (vs : list (list T)) (X : list T) : Prop := map zlen vs = sizes /\ concat vs = X.

(** Every vector of the function is cut in this way. *)
Definition cut (sizes : list Z) (sts : list (store S)) (st : store S) : Prop :=
  forall v, pieces sizes (map (fun s : store S => s v) sts) (st v).

(** The operators on all ranks do on the pieces what the operators of one process do on the whole. *)
Definition collective (sizes : list Z) (ops : Z -> list (list T) -> list (list T) -> res (list (list T)))
    (whole : Z -> list T -> list T -> res (list T)) : Prop :=
  forall o xs ys X Y, pieces sizes xs X -> pieces sizes ys Y ->
  match whole o X Y with
  | Ok Z => exists zs, ops o xs ys = Ok zs /\ pieces sizes zs Z
  | Fail f => ops o xs ys = Fail f
  end.

(** MPI_Allreduce gives the same number to all ranks. *)
Definition agrees (red : allreduce (S := S)) : Prop := forall r q l, red r l = red q l.

(** Rank r of a square ParMatrix owns the rows and columns first_of sizes r .. first_of sizes (r+1) - 1. *)
Definition owns (sizes : list Z) (As : list (parmat S)) : Prop :=
  zlen sizes = zlen As /\
  forall r A, get As r = Ok A ->
    pm_rs A = [first_of sizes r; first_of sizes (r + 1); first_of sizes (zlen sizes)] /\ pm_cs A = pm_rs A.

(** The ParMatrix on the ranks is the sparse matrix G of one process. *)
Record spread (sizes : list Z) (As : list (parmat S)) (G : csr S) : Prop := {
  sd_owns : owns sizes As;
  sd_dist : distributed (first_of sizes (zlen sizes)) (first_of sizes (zlen sizes)) As;
  sd_valid : csr_valid G;
  sd_rows : c_rows G = first_of sizes (zlen sizes);
  sd_cols : c_cols G = first_of sizes (zlen sizes);
  sd_same : forall i j, 0 <= i < c_rows G -> 0 <= j < c_cols G -> world_mat As i j = csr_mat G i j
}.

(** The product of an operator with x into y, and the operators of a solver: 0 is A_, 1 is M_ *)
Definition of_op (o : op S unit) (x y : list T) : res (list T) := '(_, z) <- op_mult_vec o tt x y ;; Ok z.
Definition keeps (n : Z) (o : op S unit) : Prop := forall x y z, zlen x = n -> zlen y = n -> op_mult_vec o tt x y = Ok (tt, z) -> zlen z = n.
Definition solver_ops (A : op S unit) (M : option (op S unit)) (o : Z) (x y : list T) : res (list T) :=
  if o =? 0 then of_op A x y else match M with Some m => of_op m x y | None => Fail FUB end.
Definition par_ops (H : hypre S) (As : list (parmat S)) (P : option (list (list T) -> list (list T) -> res (list (list T))))
    (o : Z) (xs ys : list (list T)) : res (list (list T)) :=
  if o =? 0 then view_mult H As xs ys else match P with Some p => p xs ys | None => Fail FUB end.

(** The distributed preconditioner P is the preconditioner M of one process; or there is none. *)
Definition precond (sizes : list Z) (M : option (op S unit)) (P : option (list (list T) -> list (list T) -> res (list (list T)))) : Prop :=
  match M, P with
  | None, None => True
  | Some m, Some p => keeps (first_of sizes (zlen sizes)) m /\
      forall xs ys X Y, pieces sizes xs X -> pieces sizes ys Y ->
      match of_op m X Y with Ok Z => exists zs, p xs ys = Ok zs /\ pieces sizes zs Z | Fail f => p xs ys = Fail f end
  | _, _ => False
  end.

End SpmdSpec.
