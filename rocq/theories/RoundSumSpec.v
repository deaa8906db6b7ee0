(** What C100 says of sums: the size of rounding errors when n doubles are added. *)

From Coq Require Import ZArith Reals List.
From Flocq Require Import Core.
From Coq Require Import Floats.SpecFloat.
From Verif Require Import Base Scalar ScalarR Spec Double RoundSpec.
Open Scope R_scope.

(** y is the computed sum of x_0, ..., x_(n-1): it is off by at most (1 + u)^(n-1) - 1 times the sum of
    the absolute values, it is finite when that sum is not too large, and integers are added exactly. *)
Record accurate_total (n : Z) (x : vect SFs) (y : spec_float) : Prop := {
  at_double : double y;
  at_error : finite y ->
    Rabs (rv y - sum_range (S := Rs) 0 n (reals x)) <= ((1 + unit_roundoff) ^ (Z.to_nat n - 1) - 1) * sum_range (S := Rs) 0 n (absolutes x);
  at_finite : (forall k, (0 <= k < n)%Z -> finite (x k)) ->
    (1 + unit_roundoff) ^ (Z.to_nat n - 1) * sum_range (S := Rs) 0 n (absolutes x) < bpow radix2 1024 -> finite y;
  at_integer : (forall k, (0 <= k < n)%Z -> integral (x k)) -> sum_range (S := Rs) 0 n (absolutes x) <= 9007199254740992 ->
    finite y /\ rv y = sum_range (S := Rs) 0 n (reals x)
}.

(** y is the computed value of a sum: exact is the sum and size the sum of the absolute values of its
    terms; every term passes through at most k roundings, and c of them may underflow. *)
Record rounded (k : nat) (c exact size : R) (fin int : Prop) (y : spec_float) : Prop := {
  ro_double : double y;
  ro_error : finite y -> Rabs (rv y - exact) <= ((1 + unit_roundoff) ^ k - 1) * size + c * (1 + unit_roundoff) ^ k * underflow;
  ro_finite : fin -> (1 + unit_roundoff) ^ k * (size + c * underflow) < bpow radix2 1024 -> finite y;
  ro_integer : int -> size <= 9007199254740992 -> finite y /\ rv y = exact
}.

(** The sum of a number per rank *)
Definition over_ranks {X} (f : X -> R) (ws : list X) : R := fold_right (fun w s => f w + s) 0 ws.
