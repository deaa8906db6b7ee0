(** What C100 says: the real number that a double stands for, and the size of rounding errors. *)

From Coq Require Import ZArith Reals List Bool Floats.SpecFloat.
From Flocq Require Import Core BinarySingleNaN.
From Verif Require Import Base Scalar ScalarR Spec Double.
Import ListNotations.

(** A binary64 number, infinities and not-a-number included *)
Definition double (x : spec_float) : Prop := valid_binary 53 1024 x = true.
Definition finite (x : spec_float) : Prop := is_finite_SF x = true.

(** Its value *)
Definition rv (x : spec_float) : R := SF2R radix2 x.

(** Half the distance from 1 to the next double, and half the smallest positive double *)
Definition unit_roundoff : R := bpow radix2 (-53).
Definition underflow : R := bpow radix2 (-1075).

(** The bound for a sum of n products whose absolute values add up to a *)
Definition bound (n : nat) (a : R) : R :=
  (((1 + unit_roundoff) ^ n - 1) * a + INR n * (1 + unit_roundoff) ^ n * underflow)%R.

(** No overflow *)
Definition no_overflow (n : nat) (a : R) : Prop := ((1 + unit_roundoff) ^ n * (a + INR n * underflow) < bpow radix2 1024)%R.

(** Matrices and vectors of real numbers: the values, and their absolute values *)
Definition reals (x : vect SFs) : vect Rs := fun i => rv (x i).
Definition absolutes (x : vect SFs) : vect Rs := fun i => Rabs (rv (x i)).
Definition values_of (f : spec_float -> R) (l : list (entry SFs)) : list (entry Rs) := map (fun e : entry SFs => (erow e, ecol e, f (evalue (S := SFs) e))) l.
Definition real_mat (l : list (entry SFs)) : mat Rs := mat_of (S := Rs) (values_of rv l).
Definition abs_mat (l : list (entry SFs)) : mat Rs := mat_of (S := Rs) (values_of (fun a => Rabs (rv a)) l).

(** A double whose value is an integer *)
Definition integral (x : spec_float) : Prop := finite x /\ exists z : Z, rv x = IZR z.

(** y is the computed sum of n products of doubles; exact is the sum and size the sum of the absolute
    values of the products; [fin] and [int] say that all factors are finite and that they are integers. *)
Record computed (n : nat) (exact size : R) (fin int : Prop) (y : spec_float) : Prop := {
  co_double : double y;
  co_error : finite y -> (Rabs (rv y - exact) <= bound n size)%R;
  co_finite : fin -> no_overflow n size -> finite y;
  co_integer : int -> (size <= 9007199254740992)%R -> finite y /\ rv y = exact
}.

(** y is what rounding makes of row i (of column j) of the matrix with entries l times x *)
Definition accurate_row (l : list (entry SFs)) (cols : Z) (x : vect SFs) (i : Z) (y : spec_float) : Prop :=
  computed (length (filter (fun e : entry SFs => (erow e =? i)%Z) l))
    (mat_vec (real_mat l) cols (reals x) i) (mat_vec (abs_mat l) cols (absolutes x) i)
    ((forall e : entry SFs, In e l -> finite (evalue (S := SFs) e)) /\ (forall k, (0 <= k < cols)%Z -> finite (x k)))
    ((forall e : entry SFs, In e l -> integral (evalue (S := SFs) e)) /\ (forall k, (0 <= k < cols)%Z -> integral (x k))) y.
Definition accurate_col (l : list (entry SFs)) (rows : Z) (x : vect SFs) (j : Z) (y : spec_float) : Prop :=
  computed (length (filter (fun e : entry SFs => (ecol e =? j)%Z) l))
    (mat_vec (mat_T (real_mat l)) rows (reals x) j) (mat_vec (mat_T (abs_mat l)) rows (absolutes x) j)
    ((forall e : entry SFs, In e l -> finite (evalue (S := SFs) e)) /\ (forall k, (0 <= k < rows)%Z -> finite (x k)))
    ((forall e : entry SFs, In e l -> integral (evalue (S := SFs) e)) /\ (forall k, (0 <= k < rows)%Z -> integral (x k))) y.

(** ... of the sum of the products a_k x_k, 0 <= k < n *)
Definition accurate_sum (n : Z) (a x : vect SFs) (y : spec_float) : Prop :=
  computed (Z.to_nat n) (inner n (reals a) (reals x)) (inner n (absolutes a) (absolutes x))
    (forall k, (0 <= k < n)%Z -> finite (a k) /\ finite (x k)) (forall k, (0 <= k < n)%Z -> integral (a k) /\ integral (x k)) y.

(** An entry of row i of the left factor and an entry of column j of the right factor that are multiplied *)
Definition meet (i j : Z) (p : entry SFs * entry SFs) : bool :=
  ((erow (fst p) =? i) && ((ecol (fst p) =? erow (snd p)) && (ecol (snd p) =? j)))%Z.

(** y is what rounding makes of element (i,j) of the product of the matrices with entries la and lb *)
Definition accurate_product (la lb : list (entry SFs)) (inner_size i j : Z) (y : spec_float) : Prop :=
  computed (length (filter (meet i j) (list_prod la lb)))
    (mat_mul (real_mat la) (real_mat lb) inner_size i j) (mat_mul (abs_mat la) (abs_mat lb) inner_size i j)
    ((forall e : entry SFs, In e la -> finite (evalue (S := SFs) e)) /\ (forall e : entry SFs, In e lb -> finite (evalue (S := SFs) e)))
    ((forall e : entry SFs, In e la -> integral (evalue (S := SFs) e)) /\ (forall e : entry SFs, In e lb -> integral (evalue (S := SFs) e))) y.
