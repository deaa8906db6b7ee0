(** How fast the conjugate gradients converge: what the statements of C117 say. *)

From Coq Require Import ZArith List Ring.
From Verif Require Import Base Scalar Spec Block BlockSpec SolverSpec KrylovSpec.
Open Scope Z_scope.

Section RateSpec.
Context {S : scalar}.
Notation T := (car S).
Local Open Scope S_scope.

Notation s2 := (@s1 S + s1).

(** The Chebyshev polynomials T_0 = 1, T_1 = t, T_(m+2) = 2 t T_(m+1) - T_m *)
Fixpoint cheb (m : nat) (t : T) : T :=
  match m with
  | O => s1
  | Datatypes.S O => t
  | Datatypes.S (Datatypes.S k as m') => s2 * t * cheb m' t - cheb k t
  end.

(** The eigenvalues of A are between lo and hi: lo (v, v) <= (v, A v) <= hi (v, v) *)
Definition eigenvalues_in (mA : mat S) (n : Z) (lo hi : T) : Prop := forall v : vect S,
  sle (lo * inner n v v) (inner n v (mat_vec mA n v)) /\ sle (inner n v (mat_vec mA n v)) (hi * inner n v v).

(** The eigenvalues of M A are between lo and hi: lo (v, A v) <= (A v, M A v) <= hi (v, A v) *)
Definition prec_eigenvalues_in (mA mM : mat S) (n : Z) (lo hi : T) : Prop := forall v : vect S,
  sle (lo * inner n v (mat_vec mA n v)) (inner n (mat_vec mA n v) (mat_vec mM n (mat_vec mA n v))) /\
  sle (inner n (mat_vec mA n v) (mat_vec mM n (mat_vec mA n v))) (hi * inner n v (mat_vec mA n v)).

(** The eigenvalues of A M, positive or negative, have magnitudes between lo and hi: with |w|^2 = (w, M w),
    lo |w| <= |A M w| <= hi |w| *)
Definition magnitudes_in (mA mM : mat S) (n : Z) (lo hi : T) : Prop := forall w : vect S,
  sle (lo * lo * inner n w (mat_vec mM n w)) (inner n (mat_vec mA n (mat_vec mM n w)) (mat_vec mM n (mat_vec mA n (mat_vec mM n w)))) /\
  sle (inner n (mat_vec mA n (mat_vec mM n w)) (mat_vec mM n (mat_vec mA n (mat_vec mM n w)))) (hi * hi * inner n w (mat_vec mM n w)).

End RateSpec.
