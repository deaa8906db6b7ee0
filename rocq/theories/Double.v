(** The type double as text.  Nothing here is code of /repo; it fixes the meaning of
    [file << x] after [file.precision(p)] and of [file >> x] for x of type double (ISO C++, "C"
    locale; glibc prints the exact binary value rounded to p digits and reads to the nearest
    double, both with ties to even).  A double is a [spec_float] of Coq's SpecFloat with 53 bits:
    S754_finite s m e stands for (-1)^s * m * 2^e. *)

From Coq Require Import ZArith List Bool String Floats.SpecFloat.
From Verif Require Import Base Scalar Text Parser.
Import ListNotations.
Open Scope Z_scope.

(** IEEE binary64, the arithmetic of SpecFloat. *)
Definition SFs : scalar :=
  Scalar spec_float (S754_zero false) (S754_finite false 4503599627370496 (-52))
    (SFadd 53 1024) (SFsub 53 1024) (SFmul 53 1024) (SFdiv 53 1024) SFopp SFabs SFltb SFeqb.

(** The integer nearest to a / b (b > 0), ties to even. *)
Definition nearest (a b : Z) : Z :=
  let q := a / b in let r := a mod b in
  if 2 * r <? b then q else if b <? 2 * r then q + 1 else if Z.even q then q else q + 1.

(* ---------------------------------------------------------------- writing *)

(** The decimal exponent X, 10^X <= a/b < 10^(X+1), of a number not below 10^-400. *)
Definition dec_exp (a b : Z) : Z := zlen (dec (a * 10 ^ 400 / b)) - 401.

(** The p digits (as an integer) and the exponent of the number printed for a/b. *)
Definition dec_digits (p a b : Z) : Z * Z :=
  let X := dec_exp a b in
  let D := nearest (a * 10 ^ Z.max (p - 1 - X) 0) (b * 10 ^ Z.max (X - p + 1) 0) in
  if D =? 10 ^ p then (10 ^ (p - 1), X + 1) else (D, X).

(** Without the zeros at the end. *)
Fixpoint strip (l : list byte) : list byte :=
  match l with
  | [] => []
  | b :: l' => match strip l' with
               | [] => if b =? 48 then [] else [b]
               | r => b :: r
               end
  end.

Definition EE : byte := 101.
(** integer part, fraction, exponent *)
Definition mantissa (ip fp : list byte) : list byte :=
  ip ++ match strip fp with [] => [] | f => DOT :: f end.
Definition exponent (X : Z) : list byte :=
  [EE; if X <? 0 then MINUS else PLUS] ++ (if Z.abs X <? 10 then [48] else []) ++ dec (Z.abs X).

(** %.pg of the positive number a/b *)
Definition fmt_pos (p a b : Z) : list byte :=
  let (D, X) := dec_digits p a b in
  let ds := dec D in
  if (-4 <=? X) && (X <? p) then
    if 0 <=? X then mantissa (firstn (Z.to_nat (X + 1)) ds) (skipn (Z.to_nat (X + 1)) ds)
    else mantissa [48] (repeat 48 (Z.to_nat (- X - 1)) ++ ds)
  else mantissa (firstn 1 ds) (skipn 1 ds) ++ exponent X.

Definition fmt_double (p : Z) (x : spec_float) : list byte :=
  match x with
  | S754_zero s => (if s then [MINUS] else []) ++ [48]
  | S754_infinity s => (if s then [MINUS] else []) ++ txt "inf"
  | S754_nan => txt "nan"
  | S754_finite s m e =>
      (if s then [MINUS] else []) ++ fmt_pos p (Z.pos m * 2 ^ (e + 1074)) (2 ^ 1074)
  end.

(* ---------------------------------------------------------------- reading *)

(** The double nearest to a/b (a >= 0, b > 0), and whether it is in range. *)
Definition round_double (s : bool) (a b : Z) : spec_float * bool :=
  let n := a * 2 ^ 1074 in
  let k := Z.max (Z.log2 (n / b) - 52) 0 in
  let q := nearest n (b * 2 ^ k) in
  let (q, k) := if q =? 2 ^ 53 then (2 ^ 52, k + 1) else (q, k) in
  match q with
  | Zpos m => if k <=? 2045 then (S754_finite s m (k - 1074), true)
              else (S754_finite s (2 ^ 53 - 1) 971, false)
  | _ => (S754_zero s, true)
  end.

(** digits [. digits] [e [sign] digits] *)
Definition scan_double (l : list byte) : spec_float * bool * list byte :=
  let (neg, l) := scan_sign l in
  let (ip, l) := span is_digit l in
  let (fp, l) := match l with
                 | b :: l' => if b =? DOT then span is_digit l' else ([], l)
                 | [] => ([], l)
                 end in
  match ip ++ fp with
  | [] => (S754_zero false, false, l)
  | ds =>
      let '(ex, ok, l) :=
        match l with
        | b :: l' =>
            if (b =? EE) || (b =? 69) then
              let (eneg, l') := scan_sign l' in
              let (es, l') := span is_digit l' in
              match es with
              | [] => (0, false, l')
              | _ => (if eneg then - dec_value es else dec_value es, true, l')
              end
            else (0, true, l)
        | [] => (0, true, l)
        end in
      if ok then
        let E := ex - zlen fp in
        let (x, fits) := round_double neg (dec_value ds * 10 ^ Z.max E 0) (10 ^ Z.max (- E) 0) in
        (x, fits, l)
      else (S754_zero false, false, l)
  end.

Definition double_codec : codec SFs := @Codec SFs fmt_double scan_double.

(** The 8 bytes of a double in memory (IEEE binary64, little endian): the sign in bit 63, the
    biased exponent in bits 52-62, the fraction below.  The payload of a NaN is not modelled. *)
Definition bits_of_double (x : spec_float) : Z :=
  match x with
  | S754_zero s => if s then 2 ^ 63 else 0
  | S754_infinity s => (if s then 2 ^ 63 else 0) + 2047 * 2 ^ 52
  | S754_nan => 2047 * 2 ^ 52 + 2 ^ 51
  | S754_finite s m e =>
      (if s then 2 ^ 63 else 0) +
      (if Z.pos m <? 2 ^ 52 then Z.pos m else (e + 1075) * 2 ^ 52 + (Z.pos m - 2 ^ 52))
  end.
Definition double_of_bits (z : Z) : spec_float :=
  let s := 2 ^ 63 <=? z in
  let z := z mod 2 ^ 63 in
  let ex := z / 2 ^ 52 in let fr := z mod 2 ^ 52 in
  if ex =? 0 then match fr with Zpos m => S754_finite s m (-1074) | _ => S754_zero s end
  else if ex =? 2047 then if fr =? 0 then S754_infinity s else S754_nan
  else match fr + 2 ^ 52 with Zpos m => S754_finite s m (ex - 1075) | _ => S754_nan end.
Definition double_layout : layout SFs :=
  @Layout SFs 8 (fun x => le_bytes 8 (bits_of_double x)) (fun l => double_of_bits (le_value l)).
