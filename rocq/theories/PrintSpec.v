(** What C97 says about printed text. *)

From Coq Require Import ZArith List Bool String SpecFloat.
From Verif Require Import Base Scalar Spec Text Parser Double.
Import ListNotations.
Open Scope list_scope.
Open Scope Z_scope.

(** A text without white space. *)
Definition word (t : list byte) : Prop := t <> [] /\ Forall (fun b => is_space b = false) t.

Section PrintSpec.
Context {S : scalar}.
Notation T := (car S).
Context (C : codec S) (p : Z).

Definition worded (v : T) : Prop := word (tc_fmt C p v).

(** What can be seen of an entry: the position and the text of the value. *)
Definition shown (e : entry S) : Z * Z * list byte := (erow e, ecol e, tc_fmt C p (evalue e)).

(** "(row, column) value", the value in at least w columns *)
Definition entry_line (w : Z) (e : entry S) : list byte :=
  txt "(" ++ fmt_int (erow e) ++ txt ", " ++ fmt_int (ecol e) ++ txt ") " ++
  repeat SP (Z.to_nat (w - zlen (tc_fmt C p (evalue e)))) ++ tc_fmt C p (evalue e) ++ [NL].

(** The label, one line per entry, an empty line *)
Definition report (w : Z) (label : list byte) (es : list (entry S)) : list byte :=
  label ++ [NL] ++ flat_map (entry_line w) es ++ [NL].

End PrintSpec.

(** [t] is an optional minus sign, digits, a dot and p digits (no dot when p = 0), and the number
    it shows is z / 10^p. *)
Definition fixed_decimal (p : Z) (t : list byte) (z : Z) : Prop :=
  exists (neg : bool) ip fp,
    t = (if neg then [MINUS] else []) ++ ip ++ (if p =? 0 then [] else [DOT]) ++ fp /\
    Forall (fun b => is_digit b = true) ip /\ ip <> [] /\ Forall (fun b => is_digit b = true) fp /\ zlen fp = p /\
    z = (if neg then -1 else 1) * (dec_value ip * 10 ^ p + dec_value fp).

(** A finite double is [units x] / 2^1074. *)
Definition units (x : spec_float) : option Z :=
  match x with
  | S754_zero _ => Some 0
  | S754_finite s m e => Some ((if s then -1 else 1) * (Z.pos m * 2 ^ (e + 1074)))
  | _ => None
  end.
