(** What the theorems on the Laplacian and the power iteration talk about. *)

From Coq Require Import ZArith List Bool.
From Verif Require Import Base Scalar Spec Vec.
Import ListNotations.
Open Scope Z_scope.

Section BasicsSpec.
Context {S : scalar}.
Notation T := (car S).

(** How many entries are stored for the coordinate (i, j). *)
Definition edges (A : csr S) (i j : Z) : Z := zlen (filter (at_pos i j) (entries A)).

(** How many entries of row i are stored off the diagonal. *)
Definition neighbours (A : csr S) (i : Z) : Z := zlen (filter (fun e => (erow e =? i) && negb (ecol e =? i)) (entries A)).

(** Every row has exactly one stored diagonal entry. *)
Definition one_diagonal (A : csr S) : Prop := forall i, 0 <= i < c_rows A -> edges A i i = 1.

(** There are as many entries for (i, j) as for (j, i). *)
Definition mutual (A : csr S) : Prop := forall i j, 0 <= i < c_rows A -> 0 <= j < c_rows A -> edges A i j = edges A j i.

(** The number of edges between i and another j, as a number *)
Definition weight (A : csr S) (i j : Z) : T := if i =? j then s0 else of_int (edges A i j).

(** The Laplacian: degrees on the diagonal, minus the numbers of edges off it. *)
Definition laplacian (A : csr S) : mat S := fun i j => if i =? j then of_int (neighbours A i) else sopp (of_int (edges A i j)).

(** Vertices i and j share an edge of the vertex-edge relation. *)
Definition share (VE : csr S) (i j : Z) : Prop := exists e, stored VE i e /\ stored VE j e.

(** A^k x *)
Definition pow_vec (A : mat S) (n : Z) (k : nat) (x : vect S) : vect S := Nat.iter k (mat_vec A n) x.

(** Zero, or not, on the indices 0..n-1 *)
Definition zero_vec (n : Z) (x : vect S) : Prop := forall i, 0 <= i < n -> x i = s0.
Definition nonzero_vec (n : Z) (x : vect S) : Prop := exists i, 0 <= i < n /\ x i <> s0.

(** (x, A x) / (x, x) *)
Definition rayleigh (A : mat S) (n : Z) (x : vect S) : T := sdiv (inner n (mat_vec A n x) x) (inner n x x).

(** The test for stopping after the value q k, given the values q: the relative change is below tol; the value
    before the first is taken as 0. *)
Definition settled (tol : T) (q : nat -> T) (k : nat) : bool :=
  let before := match k with O => s0 | Datatypes.S k => q k end in
  slt (sdiv (sabs (ssub (q k) before)) (sabs (q k))) tol.

(** What the power iteration may do with the start x, f the outcome and I the invariant of the operator: return the
    quotient of A^k x for the first k at which the test succeeds, or for the last; or fail at an A^k x = 0. *)
Definition power_outcome {W : Type} (I : W -> Prop) (A : mat S) (n : Z) (tol : T) (max : nat) (x : vect S) (f : res (W * T)) : Prop :=
  let q k := rayleigh A n (pow_vec A n k x) in
  match f with
  | Ok (w, r) => I w /\ exists k, (k < max)%nat /\ r = q k /\ nonzero_vec n (pow_vec A n (k + 1) x) /\
      (k + 1 = max \/ settled tol q k = true)%nat /\ forall j, (j < k)%nat -> settled tol q j = false
  | Fail e => e = FAssert /\ exists k, (k <= max)%nat /\ zero_vec n (pow_vec A n k x) /\ (forall j, (j < k)%nat -> nonzero_vec n (pow_vec A n j x)) /\
      forall j, (j + 1 < k)%nat -> settled tol q j = false
  end.

(** x^T A x >= 0 *)
Definition mat_pos_semidef (n : Z) (A : mat S) : Prop := forall x : vect S, sle s0 (inner n x (mat_vec A n x)).

(** a^k *)
Fixpoint power (a : T) (k : nat) : T := match k with O => s1 | Datatypes.S k => smul a (power a k) end.

End BasicsSpec.
