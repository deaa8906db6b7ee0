(** The vectors from which a Krylov method builds its solution. *)

From Coq Require Import ZArith List Bool.
From Verif Require Import Base Scalar Spec Solver SolverSpec.
Import ListNotations.
Open Scope Z_scope.

Section KrylovSpec.
Context {S : scalar}.
Notation T := (car S).

(** M r, M A M r, M A M A M r, ... *)
Fixpoint krylov (mA mM : mat S) (n : Z) (r : vect S) (j : nat) : vect S :=
  match j with
  | O => mat_vec mM n r
  | Datatypes.S j => mat_vec mM n (mat_vec mA n (krylov mA mM n r j))
  end.

(** Their combination with the coefficients c *)
Definition krylov_sum (mA mM : mat S) (n : Z) (r : vect S) (c : list T) : vect S :=
  fun i => sum_range 0 (zlen c) (fun j => (vec_of c j * krylov mA mM n r (Z.to_nat j) i)%S).

(** The number of passes of PCG behind a start with residual form q0 and a result with residual
    form q1, when the iteration count it reports is k: none when the start is good enough; the last
    one is counted when it ended in the break. *)
Definition passes (tol q0 q1 : T) (k : Z) : Z := if slt q0 tol then 0 else if slt q1 tol then k else k - 1.

(** r . M r for the residual r of x, which PCG compares with the tolerance *)
Definition res_form (mA mM : mat S) (n : Z) (b x : list T) : T :=
  inner n (vec_of (mat_list mM n (residual mA n b x))) (vec_of (residual mA n b x)).

(** The passes of a call that went from x to x' *)
Definition passes_made (mA mM : mat S) (n : Z) (par : sparams S) (b x x' : list T) (k : Z) : Z :=
  passes (tolerance par (res_form mA mM n b x)) (res_form mA mM n b x) (res_form mA mM n b x') k.

(** The square of the M-norm of the residual of v *)
Definition res_sq (mA mM : mat S) (n : Z) (b : list T) (v : vect S) : T :=
  let r := fun i => (vec_of b i - mat_vec mA n v i)%S in inner n r (mat_vec mM n r).

(** x' is x plus a combination of the first m Krylov vectors, and none of these has a smaller residual *)
Definition least_residual (mA mM : mat S) (n : Z) (b x x' : list T) (m : Z) : Prop :=
  (exists c, zlen c = m /\ forall i, 0 <= i < n -> vec_of x' i = (vec_of x i + krylov_sum mA mM n (vec_of (residual mA n b x)) c i)%S) /\
  forall c, zlen c = m ->
    sle (res_sq mA mM n b (vec_of x'))
        (res_sq mA mM n b (fun i => (vec_of x i + krylov_sum mA mM n (vec_of (residual mA n b x)) c i)%S)).

(** The solution y is x plus a combination of m Krylov vectors *)
Definition reaches (mA mM : mat S) (n : Z) (b x : list T) (y : vect S) (m : Z) : Prop :=
  (forall i, 0 <= i < n -> mat_vec mA n y i = vec_of b i) /\
  exists c, zlen c = m /\ forall i, 0 <= i < n -> y i = (vec_of x i + krylov_sum mA mM n (vec_of (residual mA n b x)) c i)%S.

(** The sum of a list of vectors, each with its eigenvalue *)
Definition eigen_sum (es : list (T * vect S)) : vect S := fun i => fold_right (fun le s => (snd le i + s)%S) s0 es.

(** Eigenvectors of M A *)
Definition eigenvectors (mA mM : mat S) (n : Z) (es : list (T * vect S)) : Prop :=
  forall l e, In (l, e) es -> l <> s0 /\ forall i, 0 <= i < n -> mat_vec mM n (mat_vec mA n e) i = (l * e i)%S.

(** The error y - x of the solution y is a sum of eigenvectors of M A with eigenvalues among ls *)
Definition error_of (mA mM : mat S) (n : Z) (b x : list T) (y : vect S) (ls : list T) : Prop :=
  (forall i, 0 <= i < n -> mat_vec mA n y i = vec_of b i) /\
  exists es, eigenvectors mA mM n es /\ (forall l e, In (l, e) es -> In l ls) /\
    forall i, 0 <= i < n -> y i = (vec_of x i + eigen_sum es i)%S.

End KrylovSpec.
