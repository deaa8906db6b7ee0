(** What the theorems about doubles in files talk about. *)

From Coq Require Import ZArith Floats.SpecFloat.
Open Scope Z_scope.

(** A spec_float that is a double of IEEE binary64. *)
Definition double (x : spec_float) : Prop := valid_binary 53 1024 x = true.

(** Not an infinity, not a NaN. *)
Definition finite (x : spec_float) : Prop :=
  match x with S754_zero _ | S754_finite _ _ _ => True | _ => False end.

(** |x| = D * 10^k where D has at most p decimal digits (both sides times 10^400 * 2^1074). *)
Definition short_decimal (p : Z) (x : spec_float) : Prop :=
  match x with
  | S754_zero _ => True
  | S754_finite _ m e => exists D k, 0 < D < 10 ^ p /\ -400 <= k /\
      Z.pos m * 2 ^ (e + 1074) * 10 ^ 400 = D * 10 ^ (k + 400) * 2 ^ 1074
  | _ => False
  end.

(** |x| is the integer n (both sides times 2^1074). *)
Definition magnitude (x : spec_float) (n : Z) : Prop :=
  match x with
  | S754_zero _ => n = 0
  | S754_finite _ m e => Z.pos m * 2 ^ (e + 1074) = n * 2 ^ 1074
  | _ => False
  end.
