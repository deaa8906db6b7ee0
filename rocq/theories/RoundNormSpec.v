(** Specification for C100 on norms: y is the root of a sum of n squares, computed in doubles. *)

From Coq Require Import ZArith Reals.
From Flocq Require Import Core.
From Coq Require Import Floats.SpecFloat.
From Verif Require Import Base Scalar ScalarR Spec Double RoundSpec.
Open Scope R_scope.

Record accurate_norm (n : Z) (x : vect SFs) (y : spec_float) : Prop := {
  an_double : double y;
  (** sqrt is 0 on negative numbers, so that the lower bound is 0 when the error may exceed the sum *)
  an_error : finite y ->
    let s := inner (S := Rs) n (reals x) (reals x) in
    (1 - unit_roundoff) * sqrt (s - bound (Z.to_nat n) s) <= rv y <= (1 + unit_roundoff) * sqrt (s + bound (Z.to_nat n) s);
  an_finite : (forall k, (0 <= k < n)%Z -> finite (x k)) -> no_overflow (Z.to_nat n) (inner (S := Rs) n (reals x) (reals x)) -> finite y
}.
