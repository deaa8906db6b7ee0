(** C27, the overloads: whole rows and columns, blocks placed by their first element, results that are allocated. *)

From Coq Require Import ZArith List Bool Lia.
From Verif Require Import Base Scalar Spec Dense DenseOverloads.
Import ListNotations.
Open Scope Z_scope.

(** GetRow(start, end) and GetCol(start, end) (missing: matrices without rows or columns and start at the end, see
    [C27_empty_window_refuted]) *)
Theorem C27_get_rows_partial :
  forall (S : scalar) (D : dense S) (start stop : Z), dense_ok D -> 0 <= start < d_rows D -> 0 < d_cols D -> start <= stop <= d_rows D ->
  d_gives (d_get_rows_range D start stop) (stop - start) (d_cols D) (fun i j => dense_mat D (i + start) j).
Proof. exact block_get_rows. Qed.
Print Assumptions C27_get_rows_partial.

Theorem C27_get_cols_partial :
  forall (S : scalar) (D : dense S) (start stop : Z), dense_ok D -> 0 <= start < d_cols D -> 0 < d_rows D -> start <= stop <= d_cols D ->
  d_gives (d_get_cols_range D start stop) (d_rows D) (stop - start) (fun i j => dense_mat D i (j + start)).
Proof. exact block_get_cols. Qed.
Print Assumptions C27_get_cols_partial.

(** GetSubMatrix that allocates the result *)
Theorem C27_get_new_partial :
  forall (S : scalar) (D : dense S) (si sj ei ej : Z), dense_ok D ->
  0 <= si < d_rows D -> 0 <= sj < d_cols D -> si <= ei <= d_rows D -> sj <= ej <= d_cols D ->
  d_gives (d_get_sub_new D si sj ei ej) (ei - si) (ej - sj) (fun i j => dense_mat D (i + si) (j + sj)).
Proof. exact block_get_new. Qed.
Print Assumptions C27_get_new_partial.

Theorem C27_get_lists_new :
  forall (S : scalar) (D : dense S) (rows cols : list Z), dense_ok D ->
  (forall r, In r rows -> 0 <= r < d_rows D) -> (forall c, In c cols -> 0 <= c < d_cols D) ->
  d_gives (d_get_sub_lists_new D rows cols) (zlen rows) (zlen cols) (fun i j => dense_mat D (zn 0 rows i) (zn 0 cols j)).
Proof. exact block_get_lists_new. Qed.
Print Assumptions C27_get_lists_new.

(** SetRow(start, B) and SetCol(start, B): the rows (columns) from start on become those of B, nothing else changes *)
Theorem C27_set_rows_partial :
  forall (S : scalar) (D : dense S) (start : Z) (B : dense S), dense_ok D -> dense_ok B -> 0 <= start < d_rows D -> 0 < d_cols D ->
  start + d_rows B <= d_rows D -> d_cols B = d_cols D ->
  d_gives (d_set_rows D start B) (d_rows D) (d_cols D)
    (fun i j => if (start <=? i) && (i <? start + d_rows B) then dense_mat B (i - start) j else dense_mat D i j).
Proof. exact block_set_rows. Qed.
Print Assumptions C27_set_rows_partial.

Theorem C27_set_cols_partial :
  forall (S : scalar) (D : dense S) (start : Z) (B : dense S), dense_ok D -> dense_ok B -> 0 <= start < d_cols D -> 0 < d_rows D ->
  start + d_cols B <= d_cols D -> d_rows B = d_rows D ->
  d_gives (d_set_cols D start B) (d_rows D) (d_cols D)
    (fun i j => if (start <=? j) && (j <? start + d_cols B) then dense_mat B i (j - start) else dense_mat D i j).
Proof. exact block_set_cols. Qed.
Print Assumptions C27_set_cols_partial.

(** SetSubMatrix(i, j, B) and SetSubMatrixTranspose(i, j, B) *)
Theorem C27_set_at_partial :
  forall (S : scalar) (D : dense S) (si sj : Z) (B : dense S), dense_ok D -> dense_ok B ->
  0 <= si < d_rows D -> 0 <= sj < d_cols D -> si + d_rows B <= d_rows D -> sj + d_cols B <= d_cols D ->
  d_gives (d_set_sub_at D si sj B) (d_rows D) (d_cols D)
    (fun a b => if (si <=? a) && (a <? si + d_rows B) && ((sj <=? b) && (b <? sj + d_cols B)) then dense_mat B (a - si) (b - sj) else dense_mat D a b).
Proof. exact block_set_at. Qed.
Print Assumptions C27_set_at_partial.

Theorem C27_set_transpose_at_partial :
  forall (S : scalar) (D : dense S) (si sj : Z) (B : dense S), dense_ok D -> dense_ok B ->
  0 <= si < d_rows D -> 0 <= sj < d_cols D -> si + d_cols B <= d_rows D -> sj + d_rows B <= d_cols D ->
  d_gives (d_set_sub_T_at D si sj B) (d_rows D) (d_cols D)
    (fun a b => if (si <=? a) && (a <? si + d_cols B) && ((sj <=? b) && (b <? sj + d_rows B)) then dense_mat B (b - sj) (a - si) else dense_mat D a b).
Proof. exact block_set_transpose_at. Qed.
Print Assumptions C27_set_transpose_at_partial.

(** A block that does not fit is refused. *)
Theorem C27_misfit :
  forall (S : scalar) (D : dense S) (si sj : Z) (B : dense S), dense_ok D -> dense_ok B ->
  si < 0 \/ sj < 0 \/ d_rows D < si + d_rows B \/ d_cols D < sj + d_cols B -> d_set_sub_at D si sj B = Fail FAssert.
Proof. exact block_misfit. Qed.
Print Assumptions C27_misfit.

(** [ 1 3 5 ; 2 4 6 ] *)
Example C27_overloads_instance :
  let D := @Dense Zs 2 3 [1; 2; 3; 4; 5; 6] in let B := @Dense Zs 1 2 [8; 9] in let R := @Dense Zs 1 3 [7; 8; 9] in
  dense_ok D /\ dense_ok B /\ dense_ok R /\
  d_get_rows_range D 1 2 = Ok (@Dense Zs 1 3 [2; 4; 6]) /\ d_get_cols_range D 1 3 = Ok (@Dense Zs 2 2 [3; 4; 5; 6]) /\
  d_get_sub_new D 0 1 1 3 = Ok (@Dense Zs 1 2 [3; 5]) /\ d_get_sub_lists_new D [1; 0; 1] [2] = Ok (@Dense Zs 3 1 [6; 5; 6]) /\
  d_set_rows D 1 R = Ok (@Dense Zs 2 3 [1; 7; 3; 8; 5; 9]) /\ d_set_cols D 2 (@Dense Zs 2 1 [0; 0]) = Ok (@Dense Zs 2 3 [1; 2; 3; 4; 0; 0]) /\
  d_set_sub_at D 1 1 B = Ok (@Dense Zs 2 3 [1; 2; 3; 8; 5; 9]) /\ d_set_sub_T_at D 0 2 B = Ok (@Dense Zs 2 3 [1; 2; 3; 4; 8; 9]) /\
  d_set_sub_at D 1 2 B = Fail FAssert.
Proof. cbv zeta. do 3 (split; [repeat split; cbv; congruence|]). repeat split. Qed.
