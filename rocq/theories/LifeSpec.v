(** What C63 says about the matrix classes: objects are values. *)

From Coq Require Import ZArith List Bool.
From Verif Require Import Base Scalar Spec Dense Sparse Block Life.
Import ListNotations.
Open Scope Z_scope.

(** The same operations on plain values; [e] is the value of an object whose members were taken. *)
Definition vstep {O V} (val : O -> V) (e : V) (vs : list V) (p : lop O) : res (list V) :=
  match p with
  | LCopy y => v <- get vs y ;; Ok (vs ++ [v])
  | LMove y => v <- get vs y ;; vs <- set vs y e ;; Ok (vs ++ [v])
  | LAssign x y => v <- get vs y ;; set vs x v
  | LMoveAssign x y => v <- get vs y ;; vs <- set vs y e ;; set vs x v
  | LSwap x y => v <- get vs x ;; w <- get vs y ;; vs <- set vs x w ;; set vs y v
  | LSet x o => set vs x (val o)
  end.

(** A class is a class of values: whenever the operations make sense, running them on the objects
    succeeds and leaves the objects with the values that the operations on values give. [ok] holds
    of the objects at the start and of those that other member functions leave. *)
Definition values_class {O V} (K : class O) (val : O -> V) (ok : V -> Prop) : Prop :=
  forall (st : list O) (ps : list (lop O)) (vs : list V),
  (forall o, In o st -> ok (val o)) -> (forall x o, In (LSet x o) ps -> ok (val o)) ->
  foldM (vstep val (val (k_fresh K))) ps (map val st) = Ok vs ->
  exists st', lrun K st ps = Ok st' /\ map val st' = vs.

(** Sizes are not negative. *)
Definition sized {O} (rows cols : O -> Z) (o : O) : Prop := 0 <= rows o /\ 0 <= cols o.

(** The source of a move has no rows and no columns. *)
Definition leaves_empty {O} (K : class O) (rows cols : O -> Z) : Prop :=
  forall (st : list O) (y : Z), 0 <= y < zlen st -> exists st' o', lrun K st [LMove y] = Ok st' /\ get st' y = Ok o' /\ rows o' = 0 /\ cols o' = 0.

(** What a BlockOperator is, apart from the buffer tmp_ *)
Definition bo_value {S} (o : bobj S) := (bo_rows_ o, bo_cols_ o, bo_ro_ o, bo_co_ o, bo_A_ o, bo_x_ o, bo_y_ o).
