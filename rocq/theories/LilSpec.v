(** Histories of assembly calls on a LilMatrix, and what they should produce. *)

From Coq Require Import ZArith List Bool.
From Verif Require Import Base Scalar Spec Dense Sparse Lil CooSpec.
Import ListNotations.
Open Scope Z_scope.

Section LilHistory.
Context {S : scalar}.
Notation T := (car S).

(** All entries held by the row lists. *)
Definition lil_entries (M : lil S) : list (entry S) :=
  flat_map (fun i => map (fun n => (i, fst n, snd n)) (zn [] (l_lists M) i)) (zrange 0 (zlen (l_lists M))).

(** Every stored value is a number, every column index is not negative, and the entries
    are inside a size that was set. *)
Definition lil_wf (M : lil S) : Prop :=
  Forall (Forall (fun n => 0 <= fst n /\ seqb (snd n) (snd n) = true)) (l_lists M) /\
  (l_set M = true -> 0 <= l_rows M /\ 0 <= l_cols M /\ zlen (l_lists M) <= l_rows M /\
                     Forall (Forall (fun n => fst n < l_cols M)) (l_lists M)).

(** ... and there is one list for each row, as after LilMatrix(rows, cols). *)
Definition lil_ok (M : lil S) : Prop :=
  lil_wf M /\ l_set M = true /\ zlen (l_lists M) = l_rows M.

(** The assembly calls of lilmatrix.hpp:258-319, and ToSparse, which sorts the lists. *)
Inductive lil_op : Type :=
| LAdd (i j : Z) (v : T)
| LAddSym (i j : Z) (v : T)
| LAddDense (rows cols : list Z) (values : dense S)
| LToSparse.

Definition lil_run_op (srt : list_sorter) (M : lil S) (o : lil_op) : res (lil S) :=
  match o with
  | LAdd i j v => lil_add M i j v
  | LAddSym i j v => lil_add_sym M i j v
  | LAddDense r c V => lil_add_dense M r c V
  | LToSparse => '(_, M) <- lil_to_sparse srt M ;; Ok M
  end.
Definition lil_run (srt : list_sorter) (M : lil S) (ops : list lil_op) : res (lil S) := foldM (lil_run_op srt) ops M.

(** Specification: the entries a call is documented to add. *)
Definition ladded (o : lil_op) : list (entry S) :=
  match o with
  | LAdd i j v => [(i, j, v)]
  | LAddSym i j v => if i =? j then [(i, j, v)] else [(i, j, v); (j, i, v)]
  | LAddDense r c V => dense_added r c (fun v => v) V
  | LToSparse => []
  end.

(** The arguments of a call have matching sizes. *)
Definition ladded_ok (o : lil_op) : Prop :=
  match o with
  | LAddDense r c V => dense_ok V /\ zlen r = d_rows V /\ zlen c = d_cols V
  | _ => True
  end.

(** The declared size, if any. *)
Definition l_size (M : lil S) : option (Z * Z) := if l_set M then Some (l_rows M, l_cols M) else None.

End LilHistory.

Arguments lil_op S : clear implicits.
