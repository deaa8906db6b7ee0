(** Specification for C100 on distributed vectors: every rank has a memory and a view of it.  [local_inner] and
    [local_total] are the exact numbers a rank contributes, [..._size] the sums of absolute values. *)

From Coq Require Import ZArith Reals.
From Coq Require Import Floats.SpecFloat.
From Verif Require Import Base Scalar ScalarR Spec Double RoundSpec RoundSumSpec Vec VecSpec.
Open Scope R_scope.

Definition local_inner (w : heap SFs * view * view) : R :=
  let '(h, x, y) := w in inner (S := Rs) (v_len x) (reals (vat h x)) (reals (vat h y)).
Definition local_inner_size (w : heap SFs * view * view) : R :=
  let '(h, x, y) := w in inner (S := Rs) (v_len x) (absolutes (vat h x)) (absolutes (vat h y)).
Definition local_total (w : heap SFs * view) : R :=
  let '(h, x) := w in sum_range (S := Rs) 0 (v_len x) (reals (vat h x)).
Definition local_total_size (w : heap SFs * view) : R :=
  let '(h, x) := w in sum_range (S := Rs) 0 (v_len x) (absolutes (vat h x)).

(** Every element a rank holds has the property P. *)
Definition all_xy (P : spec_float -> Prop) (w : heap SFs * view * view) : Prop :=
  let '(h, x, y) := w in forall k, (0 <= k < v_len x)%Z -> P (vat h x k) /\ P (vat h y k).
Definition all_x (P : spec_float -> Prop) (w : heap SFs * view) : Prop :=
  let '(h, x) := w in forall k, (0 <= k < v_len x)%Z -> P (vat h x k).
