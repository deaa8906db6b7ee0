(** Histories of assembly calls on a CooMatrix, and what they should produce. *)

From Coq Require Import ZArith List Bool.
From Verif Require Import Base Scalar Spec Dense Sparse Coo.
Import ListNotations.
Open Scope Z_scope.

Section CooHistory.
Context {S : scalar}.
Notation T := (car S).

(** The assembly calls of coomatrix.hpp:306-506. *)
Inductive coo_op : Type :=
| OAdd (i j : Z) (v : T)
| OAddSym (i j : Z) (v : T)
| OAddDense (rows cols : list Z) (values : dense S)
| OAddDenseScaled (rows cols : list Z) (scale : T) (values : dense S)
| OAddCol (rows : list Z) (col : Z) (values : list T)
| OAddColScaled (rows : list Z) (col : Z) (scale : T) (values : list T)
| OAddRow (row : Z) (cols : list Z) (values : list T)
| OAddRowScaled (row : Z) (cols : list Z) (scale : T) (values : list T)
| OAddList (rows cols : list Z) (values : list T)
| OAddListScaled (rows cols : list Z) (scale : T) (values : list T)
| OSetSize (rows cols : Z).

Definition coo_run_op (M : coo S) (o : coo_op) : res (coo S) :=
  match o with
  | OAdd i j v => coo_add M i j v
  | OAddSym i j v => coo_add_sym M i j v
  | OAddDense r c V => coo_add_dense M r c (fun v => v) V
  | OAddDenseScaled r c s V => coo_add_dense M r c (smul s) V
  | OAddCol r c v => coo_add_col M r c (fun v => v) v
  | OAddColScaled r c s v => coo_add_col M r c (smul s) v
  | OAddRow r c v => coo_add_row M r c (fun v => v) v
  | OAddRowScaled r c s v => coo_add_row M r c (smul s) v
  | OAddList r c v => coo_add_list M r c (fun v => v) v
  | OAddListScaled r c s v => coo_add_list M r c (smul s) v
  | OSetSize r c => coo_set_size M r c
  end.

Definition coo_run (M : coo S) (ops : list coo_op) : res (coo S) := foldM coo_run_op ops M.

(** The start of a history: CooMatrix() or CooMatrix(rows, cols). *)
Definition coo_start (d : option (Z * Z)) : res (coo S) :=
  match d with None => Ok coo_new | Some (r, c) => coo_new_size r c end.

(** Specification: the entries a call is documented to add. *)
Definition dense_added (rows cols : list Z) (f : T -> T) (V : dense S) : list (entry S) :=
  flat_map (fun j => map (fun i => (zn 0 rows i, zn 0 cols j, f (dense_mat V i j))) (zrange 0 (d_rows V)))
           (zrange 0 (d_cols V)).
Definition list_added (row col : Z -> Z) (f : T -> T) (values : list T) : list (entry S) :=
  map (fun i => (row i, col i, f (vec_of values i))) (zrange 0 (zlen values)).

Definition added (o : coo_op) : list (entry S) :=
  match o with
  | OAdd i j v => [(i, j, v)]
  | OAddSym i j v => if i =? j then [(i, j, v)] else [(i, j, v); (j, i, v)]
  | OAddDense r c V => dense_added r c (fun v => v) V
  | OAddDenseScaled r c s V => dense_added r c (smul s) V
  | OAddCol r c v => list_added (zn 0 r) (fun _ => c) (fun v => v) v
  | OAddColScaled r c s v => list_added (zn 0 r) (fun _ => c) (smul s) v
  | OAddRow r c v => list_added (fun _ => r) (zn 0 c) (fun v => v) v
  | OAddRowScaled r c s v => list_added (fun _ => r) (zn 0 c) (smul s) v
  | OAddList r c v => list_added (zn 0 r) (zn 0 c) (fun v => v) v
  | OAddListScaled r c s v => list_added (zn 0 r) (zn 0 c) (smul s) v
  | OSetSize _ _ => []
  end.

(** The arguments of a call have matching sizes. *)
Definition added_ok (o : coo_op) : Prop :=
  match o with
  | OAdd _ _ _ | OAddSym _ _ _ | OSetSize _ _ => True
  | OAddDense r c V | OAddDenseScaled r c _ V => dense_ok V /\ zlen r = d_rows V /\ zlen c = d_cols V
  | OAddCol r _ v | OAddColScaled r _ _ v => zlen r = zlen v
  | OAddRow _ c v | OAddRowScaled _ c _ v => zlen c = zlen v
  | OAddList r c v | OAddListScaled r c _ v => zlen r = zlen v /\ zlen c = zlen v
  end.

(** Every call except SetSize. *)
Definition is_add (o : coo_op) : bool := match o with OSetSize _ _ => false | _ => true end.

(** Specification: the size declared last, if any. *)
Definition declare (d : option (Z * Z)) (o : coo_op) : option (Z * Z) :=
  match o with OSetSize r c => Some (r, c) | _ => d end.
Definition declared (d : option (Z * Z)) (ops : list coo_op) : option (Z * Z) := fold_left declare ops d.

(** The calls a user may make: indices not negative and inside the declared size, no NaN. *)
Definition entry_fits (d : option (Z * Z)) (e : entry S) : Prop :=
  0 <= erow e /\ 0 <= ecol e /\ seqb (evalue e) (evalue e) = true /\
  match d with Some (r, c) => erow e < r /\ ecol e < c | None => True end.
Fixpoint accepted (d : option (Z * Z)) (ops : list coo_op) : Prop :=
  match ops with
  | [] => True
  | o :: ops' =>
      match o with OSetSize r c => 0 <= r /\ 0 <= c | _ => Forall (entry_fits d) (added o) end /\
      accepted (declare d o) ops'
  end.

(** Largest index + 1 (0 for no entries). *)
Definition bound (f : entry S -> Z) (l : list (entry S)) : Z :=
  fold_right (fun e m => Z.max (f e + 1) m) 0 l.

(** The size an assembled matrix has; an entry-less undeclared one is 1 x 1
    (see C07_empty_size_refuted). *)
Definition assembled_size (d : option (Z * Z)) (l : list (entry S)) : Z * Z :=
  match d with Some s => s | None => (Z.max 1 (bound erow l), Z.max 1 (bound ecol l)) end.

(** A coordinate matrix whose entries lie inside its size. *)
Definition coo_ok (M : coo S) : Prop :=
  0 <= o_rows M /\ 0 <= o_cols M /\
  (if o_set M then in_shape (o_rows M) (o_cols M) (o_entries M)
   else Forall (fun e => 0 <= erow e /\ 0 <= ecol e) (o_entries M)).

(** The size a coordinate matrix declares. *)
Definition o_size (M : coo S) : option (Z * Z) := if o_set M then Some (o_rows M, o_cols M) else None.

End CooHistory.

Arguments coo_op S : clear implicits.

(** [p] is a permutation of 0 .. n-1. *)
Definition is_perm (n : Z) (p : list Z) : Prop := zlen p = n /\ NoDup p /\ Forall (fun k => 0 <= k < n) p.
