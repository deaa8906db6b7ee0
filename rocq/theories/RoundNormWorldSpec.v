(** Specification for C100 on norms of distributed vectors. *)

From Coq Require Import ZArith Reals.
From Flocq Require Import Core.
From Coq Require Import Floats.SpecFloat.
From Verif Require Import Base Scalar ScalarR Spec Double RoundSpec Vec VecSpec.
Open Scope R_scope.

(** The exact sum of the squares a rank holds *)
Definition local_squares (w : heap SFs * view) : R :=
  let '(h, x) := w in inner (S := Rs) (v_len x) (reals (vat h x)) (reals (vat h x)).

(** y is the root of a sum of squares s, computed with at most k roundings for every term, c of which may underflow *)
Record rounded_norm (k : nat) (c s : R) (fin : Prop) (y : spec_float) : Prop := {
  rn_double : double y;
  rn_error : finite y ->
    let b := ((1 + unit_roundoff) ^ k - 1) * s + c * (1 + unit_roundoff) ^ k * underflow in
    (1 - unit_roundoff) * sqrt (s - b) <= rv y <= (1 + unit_roundoff) * sqrt (s + b);
  rn_finite : fin -> (1 + unit_roundoff) ^ k * (s + c * underflow) < bpow radix2 1024 -> finite y
}.
