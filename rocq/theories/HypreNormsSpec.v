(** What the theorems about the l1 norms say. *)

From Coq Require Import ZArith List Bool.
From Verif Require Import Base Scalar Spec Dense Sparse Par ParSpec HypreNorms.
Import ListNotations.
Open Scope Z_scope.

Section HypreNormsSpec.
Context {S : scalar}.
Notation T := (car S).

(** The stored values of local row i, in storage order *)
Definition diag_values (A : parmat S) (i : Z) : list T := map evalue (row_entries (pm_diag A) i).
Definition offd_values (A : parmat S) (i : Z) : list T := map evalue (row_entries (pm_offd A) i).
Definition leading (A : parmat S) (i : Z) : T := hd s0 (diag_values A i).

(** a + f v1 + f v2 + ..., from left to right *)
Definition plus_all (f : T -> T) (a : T) (vs : list T) : T := fold_left (fun x v => sadd x (f v)) vs a.

(** The norm of local row i before the sign: option 1 adds the absolute values of the row, 2 the
    leading value and the offd block, 3 the squares of the row, 4 half of the offd block unless that
    changes little. Other options leave the previous value. *)
Definition row_norm (half ratio : T) (option : Z) (A : parmat S) (old : list T) (i : Z) : T :=
  if option =? 1 then plus_all sabs s0 (diag_values A i ++ offd_values A i)
  else if option =? 2 then plus_all sabs (sabs (leading A i)) (offd_values A i)
  else if option =? 3 then plus_all (fun v => smul v v) s0 (diag_values A i ++ offd_values A i)
  else if option =? 4 then
    let d := sabs (leading A i) in
    let x := plus_all (fun v => smul half (sabs v)) d (offd_values A i) in
    if le x (smul ratio d) then d else x
  else if i <? zlen old then zn s0 old i else s0.

(** Rows with a negative leading value get a negative norm. *)
Definition signed_norm (half ratio : T) (option : Z) (A : parmat S) (old : list T) (i : Z) : T :=
  let x := row_norm half ratio option A old i in if slt (leading A i) s0 then sopp x else x.

(** Every row holds its diagonal coefficient, in front, and no column twice. *)
Definition diagonal_first (A : parmat S) : Prop :=
  forall i, 0 <= i < pm_rows A ->
    ecol (hd (0, -1, s0) (row_entries (pm_diag A) i)) = i /\
    NoDup (map ecol (row_entries (pm_diag A) i)) /\ NoDup (map ecol (row_entries (pm_offd A) i)).

End HypreNormsSpec.
