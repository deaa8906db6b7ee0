(** What the theorems about writing into a SparseMatrix say.  Definitions only. *)

From Coq Require Import ZArith List Bool.
From Verif Require Import Base Scalar Spec Sparse ShortSpec Access.
Import ListNotations.
Open Scope Z_scope.

Section AccessSpec.
Context {S : scalar}.

(** The list with its element number k changed by f. *)
Fixpoint change_nth {X : Type} (l : list X) (k : nat) (f : X -> X) : list X :=
  match l, k with
  | [], _ => []
  | x :: t, O => f x :: t
  | x :: t, Datatypes.S k' => x :: change_nth t k' f
  end.

(** The same entry in another column; the same entry with another value. *)
Definition in_column (c : Z) (e : entry S) : entry S := (erow e, c, evalue e).
Definition with_value (v : car S) (e : entry S) : entry S := (erow e, ecol e, v).

(** How many entries are stored in the rows before this one. *)
Definition stored_before (es : list (entry S)) (row : Z) : Z := zlen (filter (fun e => erow e <? row) es).

(** What an assignment does to the list of stored entries. *)
Definition effect (es : list (entry S)) (p : assignment S) : list (entry S) :=
  match p with
  | ThroughView row i c => change_nth es (Z.to_nat (stored_before es row + i)) (in_column c)
  | ToIndices k c => change_nth es (Z.to_nat k) (in_column c)
  | ToData k v => change_nth es (Z.to_nat k) (with_value v)
  end.

(** An assignment to an entry that exists, of a column that exists. *)
Definition proper (A : csr S) (p : assignment S) : Prop :=
  match p with
  | ThroughView row i c => 0 <= row < c_rows A /\ 0 <= i < zlen (stored_in_row A row) /\ 0 <= c < c_cols A
  | ToIndices k c => 0 <= k < zlen (entries A) /\ 0 <= c < c_cols A
  | ToData k v => 0 <= k < zlen (entries A)
  end.

End AccessSpec.
