(** What C99 says: what hypre's solver answers when it is given exact products. *)

From Coq Require Import ZArith List Bool.
From Verif Require Import Base Scalar Spec Sparse Par ParSpec HypreTransposeSpec ParMatvecSpec Lobpcg.
Import ListNotations.
Open Scope Z_scope.

Section LobpcgSpec.
Context {S : scalar}.
Notation T := (car S).
Notation dvec := (list (list T)).

(** The eigenvalues and vectors that the solver ends with when every product is op and every
    application of the preconditioner is pre. *)
Fixpoint answer (op pre : dvec -> dvec) (t : solver S) : list T * list dvec :=
  match t with
  | Finished e vs _ => (e, vs)
  | Matvec x _ k => answer op pre (k (op x))
  | Precond b _ k => answer op pre (k (pre b))
  end.

(** The solver works with vectors that are split like the rows of the matrix, ends with n
    eigenvalues and n vectors, and calls the preconditioner only if there is one. *)
Fixpoint polite (As : list (parmat S)) (n : Z) (has_pre : Prop) (t : solver S) : Prop :=
  match t with
  | Finished e vs _ => zlen e = n /\ zlen vs = n /\ forall v, In v vs -> fits pm_rs As v
  | Matvec x y k => fits pm_rs As x /\ fits pm_rs As y /\ forall z, fits pm_rs As z -> polite As n has_pre (k z)
  | Precond b x k => has_pre /\ fits pm_rs As b /\ fits pm_rs As x /\ forall z, fits pm_rs As z -> polite As n has_pre (k z)
  end.

(** op multiplies distributed vectors by the N x N matrix that the ranks hold. *)
Definition product_with (As : list (parmat S)) (N : Z) (op : dvec -> dvec) : Prop :=
  forall ins X, holds pm_rs As ins X -> holds pm_rs As (op ins) (mat_vec (world_mat As) N X).

(** The preconditioner: none, or one that computes pre. *)
Definition preconditions (As : list (parmat S)) (m : option (dvec -> dvec -> res dvec)) (pre : dvec -> dvec) : Prop :=
  match m with None => True | Some f => forall b x, fits pm_rs As b -> fits pm_rs As x -> f b x = Ok (pre b) /\ fits pm_rs As (pre b) end.

(** On every rank every vector has at most as many elements as the rank has rows. *)
Definition within (As : list (parmat S)) (xs : list dvec) : Prop :=
  forall x, In x xs -> zlen x = zlen As /\ forall r A d, get As r = Ok A -> get x r = Ok d -> zlen d <= pm_rows A.

(** The vectors xs, filled up with zeros. *)
Definition padded (As : list (parmat S)) (xs mv : list dvec) : Prop :=
  zlen mv = zlen xs /\ (forall v, In v mv -> fits pm_rs As v) /\
  forall i r k, 0 <= i < zlen xs -> 0 <= r < zlen As -> 0 <= k < zlen (zn [] (zn [] mv i) r) ->
    zn s0 (zn [] (zn [] mv i) r) k = zn s0 (zn [] (zn [] xs i) r) k.

(** ys has the sizes of xs and the leading elements of vs. *)
Definition leading (xs vs ys : list dvec) : Prop :=
  zlen ys = zlen xs /\ forall i, 0 <= i < zlen xs -> zlen (zn [] ys i) = zlen (zn [] xs i) /\
  forall r, 0 <= r < zlen (zn [] xs i) -> zlen (zn [] (zn [] ys i) r) = zlen (zn [] (zn [] xs i) r) /\
  forall k, 0 <= k < zlen (zn [] (zn [] xs i) r) -> zn s0 (zn [] (zn [] ys i) r) k = zn s0 (zn [] (zn [] vs i) r) k.

End LobpcgSpec.

(** The same solver reporting status s at the end (for instance: not converged). *)
Fixpoint with_status {S : scalar} (s : Z) (t : solver S) : solver S :=
  match t with
  | Finished e vs _ => Finished e vs s
  | Matvec x y k => Matvec x y (fun z => with_status s (k z))
  | Precond b x k => Precond b x (fun z => with_status s (k z))
  end.
