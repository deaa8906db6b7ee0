(** What C113 says: rounding errors of elimination and of triangular systems. *)

From Coq Require Import ZArith Reals List Bool Floats.SpecFloat.
From Verif Require Import Base Scalar ScalarR Spec Dense Double RoundSpec.
Import ListNotations.

(** The usual factor: about n times the unit roundoff *)
Definition gamma (n : Z) : R := ((1 + unit_roundoff) ^ Z.to_nat n - 1)%R.
Definition growth (n : Z) : R := ((1 + unit_roundoff) ^ Z.to_nat n)%R.

(** The matrices of real numbers: values, lower and upper triangle, absolute values *)
Definition real_dense (D : dense SFs) : mat Rs := fun i j => rv (dense_mat D i j).
Definition tril (M : mat Rs) : mat Rs := fun i j => if (j <=? i)%Z then M i j else 0%R.
Definition triu (M : mat Rs) : mat Rs := fun i j => if (i <=? j)%Z then M i j else 0%R.
Definition abs_of (M : mat Rs) : mat Rs := fun i j => Rabs (M i j).
Definition abs_vec (x : vect Rs) : vect Rs := fun i => Rabs (x i).
Definition real_vec (x : list spec_float) : vect Rs := fun i => rv (vec_of (S := SFs) x i).

(** Row i of M x is b_i, up to rounding: gamma_n |M| |x| and a few times the smallest double *)
Definition nearly_solves_row (n : Z) (M : mat Rs) (b x : vect Rs) (i : Z) : Prop :=
  (Rabs (b i - mat_vec M n x i) <= gamma n * mat_vec (abs_of M) n (abs_vec x) i + growth n * ((IZR n + Rabs (M i i)) * underflow))%R.

(** L U is A, up to rounding, at one position *)
Definition nearly_product_at (n : Z) (L U A : mat Rs) (i j : Z) : Prop :=
  (Rabs (A i j - mat_mul L U n i j) <= gamma n * mat_mul (abs_of L) (abs_of U) n i j + growth n * ((IZR n + Rabs (U j j)) * underflow))%R.

(** What is left of b - A x, up to rounding: 3n steps in the worst case, each relative to |L| |U| |x| *)
Definition nearly_solves_lu (n : Z) (L U A : mat Rs) (b x : vect Rs) (i : Z) : Prop :=
  (Rabs (b i - mat_vec A n x i) <= gamma (3 * n) * mat_vec (mat_mul (abs_of L) (abs_of U) n) n (abs_vec x) i
     + growth (2 * n) * ((IZR n + 1 + @sum_range Rs 0 n (fun j => (IZR n + Rabs (U j j)) * (Rabs (L i j) + Rabs (x j)))) * underflow))%R.
