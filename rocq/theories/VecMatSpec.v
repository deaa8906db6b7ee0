(** What C96 says about products whose input and output are views. *)

From Coq Require Import ZArith List Bool.
From Verif Require Import Base Scalar Spec Dense Sparse Vec VecSpec.
Import ListNotations.
Open Scope Z_scope.

Section VecMatSpec.
Context {S : scalar}.
Notation T := (car S).

(** The elements seen through a view *)
Definition seen (h : heap S) (v : view) : list T := map (vat h v) (zrange 0 (v_len v)).

(** Element i of x and element j of y are the same memory cell *)
Definition same_cell (x : view) (i : Z) (y : view) (j : Z) : Prop := v_buf x = v_buf y /\ v_off x + i = v_off y + j.

(** No cell in common *)
Definition apart (x y : view) : Prop := forall i j, 0 <= i < v_len x -> 0 <= j < v_len y -> ~ same_cell x i y j.

(** A function on memory does what a function on lists does: it puts the result in the output view
    and changes nothing else. *)
Definition as_on_lists (f : heap S -> view -> view -> res (heap S)) (g : list T -> list T -> res (list T)) : Prop :=
  forall h x y out, view_ok h x -> view_ok h y -> apart x y -> g (seen h x) (seen h y) = Ok out ->
  exists h', f h x y = Ok h' /\ writes h y (fun i => zn s0 out i) h' /\ zlen out = v_len y.

(** Reading row by row and writing element i after row i: no stored entry reads a cell that an
    earlier row has written. *)
Definition read_in_time (A : csr S) (x y : view) : Prop :=
  forall e i, In e (entries A) -> 0 <= i < erow e -> ~ same_cell x (ecol e) y i.

End VecMatSpec.
