(** Property C63 for the matrix and solver classes. *)

From Coq Require Import ZArith List Bool Lia.
From Verif Require Import Base Scalar Spec Dense Sparse Coo Lil Block Life LifeSpec LifeProofs LifeMore.
Import ListNotations.
Open Scope Z_scope.

(** Over every history of copies, moves, assignments, swaps and other changes, the objects of each
    class have the values of plain values: copies are equal and independent, moves transfer, swaps
    exchange, self-assignment changes nothing. *)
Theorem C63_sparse_values : forall S : scalar, values_class (@sp_class S) (fun o => o) (sized (@c_rows S) (@c_cols S)).
Proof. exact @sp_values. Qed.
Print Assumptions C63_sparse_values.

Theorem C63_dense_values : forall S : scalar, values_class (@d_class S) (fun o => o) (sized (@d_rows S) (@d_cols S)).
Proof. exact @d_values. Qed.
Print Assumptions C63_dense_values.

Theorem C63_coo_values : forall S : scalar, values_class (@coo_class S) (fun o => o) (sized (@co_rows S) (@co_cols S)).
Proof. exact @coo_values. Qed.
Print Assumptions C63_coo_values.

Theorem C63_lil_values : forall S : scalar, values_class (@lil_class S) (fun o => o) (sized (@lo_rows S) (@lo_cols S)).
Proof. exact @lil_values. Qed.
Print Assumptions C63_lil_values.

Theorem C63_block_matrix_values : forall S : scalar, values_class (@bm_class S) (fun o => o) (sized (@bm_rows S) (@bm_cols S)).
Proof. exact @bm_values. Qed.
Print Assumptions C63_block_matrix_values.

Theorem C63_block_vector_values : forall S : scalar, values_class (@bv_class S) (fun o => o) (fun _ => True).
Proof. exact @bv_values. Qed.
Print Assumptions C63_block_vector_values.

(** A BlockOperator: all but the contents of a scratch buffer *)
Theorem C63_block_operator_values : forall S : scalar,
  values_class (@bo_class S) bo_value (fun v => let '(rows, cols, _, _, _, _, _) := v in 0 <= rows /\ 0 <= cols).
Proof. exact @bo_values. Qed.
Print Assumptions C63_block_operator_values.

Theorem C63_pcg_values : forall S : scalar, values_class (@pcg_class S) (fun o => o) (fun o => sized (@so_rows S) (@so_cols S) (pg_base o)).
Proof. exact @pcg_values. Qed.
Print Assumptions C63_pcg_values.

Theorem C63_minres_values : forall S : scalar, values_class (@minres_class S) (fun o => o) (fun o => sized (@so_rows S) (@so_cols S) (mr_base o)).
Proof. exact @minres_values. Qed.
Print Assumptions C63_minres_values.

Theorem C63_pminres_values : forall S : scalar, values_class (@pminres_class S) (fun o => o) (fun o => sized (@so_rows S) (@so_cols S) (pm_base o)).
Proof. exact @pminres_values. Qed.
Print Assumptions C63_pminres_values.

(** The values of plain values, spelt out: [x = x], [swap(x, x)] and [x = std::move(x)] leave every
    value as it was, and after [z = copy of y] a change of either does not show in the other. *)
Theorem C63_self_assign : forall (O V : Type) (val : O -> V) (e : V) (vs : list V) (x : Z), 0 <= x < zlen vs ->
  vstep val e vs (LAssign x x) = Ok vs /\ vstep val e vs (LSwap x x) = Ok vs /\ vstep val e vs (LMoveAssign x x) = Ok vs.
Proof. exact @v_self. Qed.
Print Assumptions C63_self_assign.

Theorem C63_copy_independent : forall (O V : Type) (val : O -> V) (e : V) (vs : list V) (y : Z) (o : O) (v : V), get vs y = Ok v ->
  foldM (vstep val e) [LCopy y; LSet y o] vs = Ok (upd vs (Z.to_nat y) (val o) ++ [v]) /\
  foldM (vstep val e) [LCopy y; LSet (zlen vs) o] vs = Ok (vs ++ [val o]).
Proof. exact @v_copy_independent. Qed.
Print Assumptions C63_copy_independent.

(** What the claim misses: the source of a move from a CooMatrix or LilMatrix holds a flag that was
    never set, and every function that needs the size of the matrix reads it. *)
Theorem C63_moved_from_coo_refuted : forall (S : scalar) (st : list (cobj S)) (y : Z), 0 <= y < zlen st ->
  exists st' o', lrun coo_class st [LMove y] = Ok st' /\ get st' y = Ok o' /\ coo_use o' = Fail FUB.
Proof. exact @coo_moved. Qed.
Print Assumptions C63_moved_from_coo_refuted.

Theorem C63_moved_from_lil_refuted : forall (S : scalar) (st : list (lobj S)) (y : Z), 0 <= y < zlen st ->
  exists st' o', lrun lil_class st [LMove y] = Ok st' /\ get st' y = Ok o' /\ lil_use o' = Fail FUB.
Proof. exact @lil_moved. Qed.
Print Assumptions C63_moved_from_lil_refuted.

(** Rows() and Cols() of the source of a move are 0 in all classes of matrices. *)
Theorem C63_moved_from_empty : forall S : scalar,
  leaves_empty (@sp_class S) (@c_rows S) (@c_cols S) /\ leaves_empty (@d_class S) (@d_rows S) (@d_cols S) /\
  leaves_empty (@coo_class S) (@co_rows S) (@co_cols S) /\ leaves_empty (@lil_class S) (@lo_rows S) (@lo_cols S) /\
  leaves_empty (@bm_class S) (@bm_rows S) (@bm_cols S).
Proof. exact @all_moved_empty. Qed.
Print Assumptions C63_moved_from_empty.

(** A moved-from BlockVector has no elements and no offsets; a moved-from BlockOperator has no rows,
    columns, offsets and blocks.  The new object is the old one. *)
Theorem C63_moved_block_vector : forall (S : scalar) (st : list (bvec S)) (y : Z), 0 <= y < zlen st ->
  exists st' o o', lrun bv_class st [LMove y] = Ok st' /\ get st y = Ok o /\ get st' (zlen st) = Ok o /\
    get st' y = Ok o' /\ bv_data o' = [] /\ bv_offs o' = [].
Proof. exact @bv_moved. Qed.
Print Assumptions C63_moved_block_vector.

Theorem C63_moved_block_operator : forall (S : scalar) (st : list (bobj S)) (y : Z), 0 <= y < zlen st ->
  exists st' o o' n, lrun bo_class st [LMove y] = Ok st' /\ get st y = Ok o /\ get st' (zlen st) = Ok n /\ bo_value n = bo_value o /\
    get st' y = Ok o' /\ bo_value o' = (0, 0, [], [], [], BVec [] [0], BVec [] [0]) /\ bo_tmp_ o' = bo_tmp_ o.
Proof. exact @bo_moved. Qed.
Print Assumptions C63_moved_block_operator.

(** SetSize or an assignment makes it usable again, as the matrix without entries or as the one assigned. *)
Theorem C63_moved_from_set_size : forall (S : scalar) (st : list (cobj S)) (y rows cols : Z), 0 <= y < zlen st -> 0 <= rows -> 0 <= cols ->
  exists st' o' o'', lrun coo_class st [LMove y] = Ok st' /\ get st' y = Ok o' /\
    coo_use_set_size o' rows cols = Ok o'' /\ coo_use o'' = coo_new_size rows cols.
Proof. exact @coo_moved_set_size. Qed.
Print Assumptions C63_moved_from_set_size.

Theorem C63_coo_assigned : forall (S : scalar) (st : list (cobj S)) (x y : Z) (M : coo S), 0 <= x < zlen st ->
  get st y = Ok (of_coo M) -> 0 <= Coo.o_rows M -> 0 <= Coo.o_cols M ->
  exists st' o, lrun coo_class st [LAssign x y] = Ok st' /\ get st' x = Ok o /\ coo_use o = Ok M.
Proof. exact @coo_assigned. Qed.
Print Assumptions C63_coo_assigned.

(** A 2x2 matrix copied, moved, assigned to itself and exchanged *)
Example C63_matrix_instance :
  let A := @Dense Zs 2 2 [1; 2; 3; 4] in let B := @Dense Zs 1 1 [9] in
  let ps := [LCopy 0; LMove 0; LAssign 1 1; LSet 1 B; LSwap 1 2; LMoveAssign 2 2; LAssign 0 1] in
  (exists st', lrun d_class [A] ps = Ok st' /\ map (fun o => o) st' = [A; A; B]) /\
  (exists st', lrun (@sp_class Zs) [@CSR Zs 1 1 [0; 1] [0] [7]] [LMove 0; LCopy 1; LAssign 0 2] = Ok st' /\
     map (fun o => o) st' = repeat (@CSR Zs 1 1 [0; 1] [0] [7]) 3) /\
  exists st' o', lrun coo_class [of_coo (@Coo Zs 1 1 true [])] [LMove 0] = Ok st' /\ get st' 0 = Ok o' /\ coo_use o' = Fail FUB.
Proof.
  split; [|split].
  - apply C63_dense_values; [| |vm_compute; reflexivity].
    + intros o [<-|[]]. split; cbn; lia.
    + intros x o H. repeat (destruct H as [H|H]; [try discriminate H; try (injection H as <- <-; split; cbn; lia)|]). destruct H.
  - apply C63_sparse_values; [| |vm_compute; reflexivity].
    + intros o [<-|[]]. split; cbn; lia.
    + intros x o H. repeat (destruct H as [H|H]; [discriminate H|]). destruct H.
  - apply C63_moved_from_coo_refuted. split; [lia|reflexivity].
Qed.
