(** Properties C24 - C29, C67, C68: DenseMatrix; dense parts of C14 and C21. *)

From Coq Require Import ZArith List Bool Lia.
From Verif Require Import Base Scalar Spec Dense Sparse SparseProofs SparseMore DenseFacts DenseProofs DenseLinks Examples.
Import ListNotations.
Open Scope Z_scope.

(** [ 1 3 5 ]
    [ 2 4 6 ] *)
Definition exD : dense Zs := @Dense Zs 2 3 [1; 2; 3; 4; 5; 6].
Example exD_ok : dense_ok exD.
Proof. repeat split; cbv; congruence. Qed.

(** [ 7 9 ]
    [ 8 0 ] *)
Definition exE : dense Zs := @Dense Zs 2 2 [7; 8; 9; 0].
Example exE_ok : dense_ok exE.
Proof. repeat split; cbv; congruence. Qed.

(* ---------------------------------------------------------------- C24 *)

(** A(i,j) = v changes exactly element (i,j). *)
Theorem C24_set_element :
  forall (S : scalar) (D : dense S) (i j : Z) (v : car S),
  dense_ok D -> 0 <= i < d_rows D -> 0 <= j < d_cols D ->
  d_gives (d_set D i j v) (d_rows D) (d_cols D)
    (fun a b => if (a =? i) && (b =? j) then v else dense_mat D a b).
Proof. exact @d_set_gives. Qed.
Print Assumptions C24_set_element.

(** Reading gives the element; positions outside the matrix are stopped by an assertion. *)
Theorem C24_get_element :
  forall (S : scalar) (D : dense S) (i j : Z), dense_ok D ->
  (0 <= i < d_rows D -> 0 <= j < d_cols D -> d_get D i j = Ok (dense_mat D i j)) /\
  (~ (0 <= i < d_rows D /\ 0 <= j < d_cols D) -> d_get D i j = Fail FAssert).
Proof. exact @d_get_spec. Qed.
Print Assumptions C24_get_element.

Theorem C24_set_col :
  forall (S : scalar) (D : dense S) (col : Z) (v : list (car S)),
  dense_ok D -> 0 <= col < d_cols D -> zlen v = d_rows D ->
  d_gives (d_set_col D col v) (d_rows D) (d_cols D)
    (fun a b => if b =? col then vec_of v a else dense_mat D a b).
Proof. exact @d_set_col_gives. Qed.
Print Assumptions C24_set_col.

Theorem C24_set_row :
  forall (S : scalar) (D : dense S) (row : Z) (v : list (car S)),
  dense_ok D -> 0 <= row < d_rows D -> zlen v = d_cols D ->
  d_gives (d_set_row D row v) (d_rows D) (d_cols D)
    (fun a b => if a =? row then vec_of v b else dense_mat D a b).
Proof. exact @d_set_row_gives. Qed.
Print Assumptions C24_set_row.

Theorem C24_get_col :
  forall (S : scalar) (D : dense S) (col : Z) (v : list (car S)),
  dense_ok D -> 0 <= col < d_cols D -> zlen v = d_rows D ->
  d_get_col D col v = Ok (map (fun i => dense_mat D i col) (zrange 0 (d_rows D))).
Proof. exact @d_get_col_exact. Qed.
Print Assumptions C24_get_col.

Theorem C24_get_row :
  forall (S : scalar) (D : dense S) (row : Z) (v : list (car S)),
  dense_ok D -> 0 <= row < d_rows D -> zlen v = d_cols D ->
  d_get_row D row v = Ok (map (fun j => dense_mat D row j) (zrange 0 (d_cols D))).
Proof. exact @d_get_row_exact. Qed.
Print Assumptions C24_get_row.

(** What was written into a column or row is read back. *)
Theorem C24_set_get_col :
  forall (S : scalar) (D D' : dense S) (col : Z) (v out : list (car S)),
  dense_ok D -> 0 <= col < d_cols D -> zlen v = d_rows D -> zlen out = d_rows D ->
  d_set_col D col v = Ok D' -> d_get_col D' col out = Ok v.
Proof. exact @d_set_get_col. Qed.
Print Assumptions C24_set_get_col.

Theorem C24_set_get_row :
  forall (S : scalar) (D D' : dense S) (row : Z) (v out : list (car S)),
  dense_ok D -> 0 <= row < d_rows D -> zlen v = d_cols D -> zlen out = d_cols D ->
  d_set_row D row v = Ok D' -> d_get_row D' row out = Ok v.
Proof. exact @d_set_get_row. Qed.
Print Assumptions C24_set_get_row.

(** Reading or writing element i of GetColView(col) is reading or writing (i,col). *)
Theorem C24_col_view :
  forall (S : scalar) (D : dense S) (col : Z), dense_ok D -> 0 <= col < d_cols D ->
  exists off, d_col_view D col = Ok (off, d_rows D) /\ 0 <= off /\ off + d_rows D <= zlen (d_data D) /\
    (forall i, 0 <= i < d_rows D -> get (d_data D) (off + i) = d_get D i col) /\
    (forall i v, 0 <= i < d_rows D ->
       (data <- set (d_data D) (off + i) v ;; Ok (Dense (d_rows D) (d_cols D) data)) = d_set D i col v).
Proof. exact @d_col_view_spec. Qed.
Print Assumptions C24_col_view.

Example C24_instance :
  dense_ok exD /\ d_set exD 1 2 9 = Ok (@Dense Zs 2 3 [1; 2; 3; 4; 5; 9]) /\
  d_set_col exD 1 [8; 9] = Ok (@Dense Zs 2 3 [1; 2; 8; 9; 5; 6]) /\
  d_set_row exD 1 [7; 8; 9] = Ok (@Dense Zs 2 3 [1; 7; 3; 8; 5; 9]) /\
  d_get_row exD 1 [0; 0; 0] = Ok [2; 4; 6].
Proof. split; [exact exD_ok|]. repeat split. Qed.

(* ---------------------------------------------------------------- C25 *)

Theorem C25_mult :
  forall (S : scalar), ring_laws S -> forall (D : dense S) (x out : list (car S)),
  dense_ok D -> zlen x = d_cols D -> zlen out = d_rows D ->
  exists y, d_mult D x out = Ok y /\ zlen y = d_rows D /\
    forall i, 0 <= i < d_rows D -> vec_of y i = mat_vec (dense_mat D) (d_cols D) (vec_of x) i.
Proof. exact @d_mult_spec. Qed.
Print Assumptions C25_mult.

Theorem C25_multAT :
  forall (S : scalar), ring_laws S -> forall (D : dense S) (x out : list (car S)),
  dense_ok D -> zlen x = d_rows D -> zlen out = d_cols D ->
  exists y, d_multAT D x out = Ok y /\ zlen y = d_cols D /\
    forall i, 0 <= i < d_cols D -> vec_of y i = mat_vec (mat_T (dense_mat D)) (d_rows D) (vec_of x) i.
Proof. exact @d_multAT_spec. Qed.
Print Assumptions C25_multAT.

(** In any arithmetic: the exact order of the operations. *)
Theorem C25_mult_exact :
  forall (S : scalar) (D : dense S) (x out : list (car S)),
  dense_ok D -> zlen x = d_cols D -> zlen out = d_rows D ->
  d_mult D x out = Ok (map (fun i => fold_left (fun s j => sadd s (smul (dense_mat D i j) (vec_of x j))) (zrange 0 (d_cols D)) s0)
                           (zrange 0 (d_rows D))).
Proof. exact @d_mult_exact. Qed.
Print Assumptions C25_mult_exact.

Theorem C25_multAT_exact :
  forall (S : scalar) (D : dense S) (x out : list (car S)),
  dense_ok D -> zlen x = d_rows D -> zlen out = d_cols D ->
  d_multAT D x out = Ok (map (fun j => fold_left (fun s i => sadd s (smul (dense_mat D i j) (vec_of x i))) (zrange 0 (d_rows D)) s0)
                           (zrange 0 (d_cols D))).
Proof. exact @d_multAT_exact. Qed.
Print Assumptions C25_multAT_exact.

(** The overloads that allocate the result. *)
Theorem C25_mult_new :
  forall (S : scalar), ring_laws S -> forall (D : dense S) (x : list (car S)),
  dense_ok D -> zlen x = d_cols D ->
  exists y, d_mult_new D x = Ok y /\ zlen y = d_rows D /\
    forall i, 0 <= i < d_rows D -> vec_of y i = mat_vec (dense_mat D) (d_cols D) (vec_of x) i.
Proof. exact @d_mult_new_spec. Qed.
Print Assumptions C25_mult_new.

Theorem C25_multAT_new :
  forall (S : scalar), ring_laws S -> forall (D : dense S) (x : list (car S)),
  dense_ok D -> zlen x = d_rows D ->
  exists y, d_multAT_new D x = Ok y /\ zlen y = d_cols D /\
    forall i, 0 <= i < d_cols D -> vec_of y i = mat_vec (mat_T (dense_mat D)) (d_rows D) (vec_of x) i.
Proof. exact @d_multAT_new_spec. Qed.
Print Assumptions C25_multAT_new.

Example C25_instance :
  dense_ok exD /\ d_mult exD [1; 0; 2] [99; 99] = Ok [11; 14] /\ d_multAT exD [1; 10] [0; 0; 0] = Ok [21; 43; 65] /\
  d_mult (@Dense Zs 2 0 []) [] [7; 7] = Ok [0; 0].
Proof. split; [exact exD_ok|]. repeat split. Qed.

(* ---------------------------------------------------------------- C21 (dense) *)

Theorem C21_dense_adjoint :
  forall (S : scalar), ring_laws S ->
  forall (D : dense S) (x y u v o1 o2 : list (car S)), dense_ok D ->
  zlen x = d_cols D -> zlen y = d_rows D -> zlen o1 = d_rows D -> zlen o2 = d_cols D ->
  d_mult D x o1 = Ok u -> d_multAT D y o2 = Ok v ->
  inner (d_rows D) (vec_of u) (vec_of y) = inner (d_cols D) (vec_of x) (vec_of v).
Proof. exact @d_adjoint. Qed.
Print Assumptions C21_dense_adjoint.

(* ---------------------------------------------------------------- C14 (dense) *)

(** Multiplying the dense copy is multiplying the sparse matrix. *)
Theorem C14_dense_mult_agrees_partial :
  forall (S : scalar), ring_laws S ->
  forall (A : csr S) (D : dense S) (x o1 o2 : list (car S)),
  csr_valid A -> no_dup_coords (entries A) -> sp_to_dense A = Ok D ->
  zlen x = c_cols A -> zlen o1 = c_rows A -> zlen o2 = c_rows A ->
  exists y, sp_mult A x o1 = Ok y /\ d_mult D x o2 = Ok y.
Proof. exact @to_dense_mult. Qed.
Print Assumptions C14_dense_mult_agrees_partial.

(* ---------------------------------------------------------------- C26 *)

Theorem C26_transpose :
  forall (S : scalar) (D : dense S), dense_ok D ->
  d_gives (d_transpose D) (d_cols D) (d_rows D) (mat_T (dense_mat D)).
Proof. exact @d_transpose_gives. Qed.
Print Assumptions C26_transpose.

(** Into an existing matrix with any previous content. *)
Theorem C26_transpose_into :
  forall (S : scalar) (D out : dense S), dense_ok D ->
  d_gives (d_transpose_into D out) (d_cols D) (d_rows D) (mat_T (dense_mat D)).
Proof. exact @d_transpose_into_gives. Qed.
Print Assumptions C26_transpose_into.

Theorem C26_transpose_involution :
  forall (S : scalar) (D B C : dense S), dense_ok D -> d_transpose D = Ok B -> d_transpose B = Ok C -> C = D.
Proof. exact @d_transpose_twice. Qed.
Print Assumptions C26_transpose_involution.

(** A.Transpose(A), the output being the object itself, does not transpose. *)
Theorem C26_transpose_in_place_differs :
  exists (D R : dense Zs), dense_ok D /\ d_transpose_self D = Ok R /\ d_transpose D <> Ok R.
Proof. exists exE, (@Dense Zs 2 2 [7; 9; 9; 0]). split; [exact exE_ok|]. split; [reflexivity|]. vm_compute. congruence. Qed.
Print Assumptions C26_transpose_in_place_differs.

Example C26_instance : dense_ok exD /\ d_transpose exD = Ok (@Dense Zs 3 2 [1; 3; 5; 2; 4; 6]).
Proof. split; [exact exD_ok|reflexivity]. Qed.

(* ---------------------------------------------------------------- C27 *)

(** GetSubMatrix of a window (missing in the _partial theorems: an empty window that
    starts at the end of the matrix, see [C27_empty_window_refuted]). *)
Theorem C27_get_submatrix_partial :
  forall (S : scalar) (D : dense S) (si sj ei ej : Z) (out : dense S), dense_ok D ->
  0 <= si < d_rows D -> 0 <= sj < d_cols D -> si <= ei <= d_rows D -> sj <= ej <= d_cols D ->
  d_gives (d_get_sub D si sj ei ej out) (ei - si) (ej - sj) (fun i j => dense_mat D (i + si) (j + sj)).
Proof. exact @d_get_sub_gives. Qed.
Print Assumptions C27_get_submatrix_partial.

(** GetSubMatrix with index lists, any indices, in any order, with repetition. *)
Theorem C27_get_submatrix_lists :
  forall (S : scalar) (D : dense S) (rows cols : list Z) (out : dense S), dense_ok D ->
  (forall r, In r rows -> 0 <= r < d_rows D) -> (forall c, In c cols -> 0 <= c < d_cols D) ->
  d_gives (d_get_sub_lists D rows cols out) (zlen rows) (zlen cols)
    (fun i j => dense_mat D (zn 0 rows i) (zn 0 cols j)).
Proof. exact @d_get_sub_lists_gives. Qed.
Print Assumptions C27_get_submatrix_lists.

Theorem C27_set_submatrix_partial :
  forall (S : scalar) (D : dense S) (si sj ei ej : Z) (B : dense S), dense_ok D -> dense_ok B ->
  0 <= si < d_rows D -> 0 <= sj < d_cols D -> si <= ei <= d_rows D -> sj <= ej <= d_cols D ->
  ei - si <= d_rows B -> ej - sj <= d_cols B ->
  d_gives (d_set_sub D si sj ei ej B) (d_rows D) (d_cols D)
    (fun a b => if (si <=? a) && (a <? ei) && ((sj <=? b) && (b <? ej)) then dense_mat B (a - si) (b - sj) else dense_mat D a b).
Proof. exact @d_set_sub_gives. Qed.
Print Assumptions C27_set_submatrix_partial.

Theorem C27_set_submatrix_transpose_partial :
  forall (S : scalar) (D : dense S) (si sj ei ej : Z) (B : dense S), dense_ok D -> dense_ok B ->
  0 <= si < d_rows D -> 0 <= sj < d_cols D -> si <= ei <= d_rows D -> sj <= ej <= d_cols D ->
  ei - si <= d_cols B -> ej - sj <= d_rows B ->
  d_gives (d_set_sub_T D si sj ei ej B) (d_rows D) (d_cols D)
    (fun a b => if (si <=? a) && (a <? ei) && ((sj <=? b) && (b <? ej)) then dense_mat B (b - sj) (a - si) else dense_mat D a b).
Proof. exact @d_set_sub_T_gives. Qed.
Print Assumptions C27_set_submatrix_transpose_partial.

Theorem C27_set_then_get_partial :
  forall (S : scalar) (D : dense S) (si sj ei ej : Z) (B out D' : dense S), dense_ok D -> dense_ok B ->
  0 <= si < d_rows D -> 0 <= sj < d_cols D -> si <= ei <= d_rows D -> sj <= ej <= d_cols D ->
  ei - si = d_rows B -> ej - sj = d_cols B ->
  d_set_sub D si sj ei ej B = Ok D' -> d_get_sub D' si sj ei ej out = Ok B.
Proof. exact @d_set_get_sub. Qed.
Print Assumptions C27_set_then_get_partial.

(** AddSubMatrix: entry (a,b) receives the sum of all B(i,j) with rows[i] = a and
    cols[j] = b (index lists may repeat). *)
Theorem C27_add_submatrix :
  forall (S : scalar), ring_laws S -> forall (D : dense S) (rows cols : list Z) (B : dense S),
  dense_ok D -> dense_ok B -> zlen rows = d_rows B -> zlen cols = d_cols B ->
  (forall r, In r rows -> 0 <= r < d_rows D) -> (forall c, In c cols -> 0 <= c < d_cols D) ->
  d_gives (d_add_sub D rows cols B) (d_rows D) (d_cols D)
    (fun a b => sadd (dense_mat D a b)
       (sum_range 0 (d_cols B) (fun j => sum_range 0 (d_rows B) (fun i =>
          if (zn 0 rows i =? a) && (zn 0 cols j =? b) then dense_mat B i j else s0)))).
Proof. exact @d_add_sub_gives. Qed.
Print Assumptions C27_add_submatrix.

(** An empty window that starts at the end of the matrix fits, but is rejected. *)
Theorem C27_empty_window_refuted :
  exists (D B : dense Zs) (si sj ei ej : Z),
    dense_ok D /\ dense_ok B /\ 0 <= si <= ei /\ ei <= d_rows D /\ 0 <= sj <= ej /\ ej <= d_cols D /\
    ei - si = d_rows B /\ ej - sj = d_cols B /\
    d_set_sub D si sj ei ej B = Fail FAssert /\ d_get_sub D si sj ei ej d_empty = Fail FAssert.
Proof.
  exists exD, (@Dense Zs 2 0 []), 0, 3, 2, 3. split; [exact exD_ok|]. split; [repeat split; cbv; congruence|].
  repeat (split; [cbv; first [split; congruence | congruence | reflexivity]|]). reflexivity.
Qed.
Print Assumptions C27_empty_window_refuted.

Example C27_instance :
  dense_ok exD /\ dense_ok exE /\
  d_set_sub exD 0 1 2 3 exE = Ok (@Dense Zs 2 3 [1; 2; 7; 8; 9; 0]) /\
  d_set_sub_T exD 0 1 2 3 exE = Ok (@Dense Zs 2 3 [1; 2; 7; 9; 8; 0]) /\
  d_get_sub exD 1 1 2 3 d_empty = Ok (@Dense Zs 1 2 [4; 6]) /\
  d_add_sub exD [1; 1] [0; 2] exE = Ok (@Dense Zs 2 3 [1; 17; 3; 4; 5; 15]).
Proof. split; [exact exD_ok|]. split; [exact exE_ok|]. repeat split. Qed.

(* ---------------------------------------------------------------- C28 *)

(** HStack for matrices with at least one row, or without columns (missing: matrices
    without rows but with columns, see [C28_hstack_no_rows_refuted]). *)
Theorem C28_hstack_partial :
  forall (S : scalar) (l : list (dense S)) (out : dense S) (rows : Z),
  l <> [] -> Forall dense_ok l -> Forall (fun D => d_rows D = rows) l -> (0 < rows \/ sum_cols l = 0) ->
  exists R, d_hstack l out = Ok R /\ dense_ok R /\ d_rows R = rows /\ d_cols R = sum_cols l /\
    forall pre D post, l = pre ++ D :: post ->
    forall i j, 0 <= i < rows -> 0 <= j < d_cols D -> dense_mat R i (sum_cols pre + j) = dense_mat D i j.
Proof. exact @d_hstack_spec. Qed.
Print Assumptions C28_hstack_partial.

Theorem C28_hstack_no_rows_refuted :
  exists (l : list (dense Zs)), l <> [] /\ Forall dense_ok l /\ Forall (fun D => d_rows D = 0) l /\
    d_hstack l d_empty = Fail FAssert.
Proof.
  exists [@Dense Zs 0 2 []]. split; [congruence|]. split; [constructor; [|constructor]; repeat split; cbv; congruence|].
  split; [constructor; [reflexivity|constructor]|]. reflexivity.
Qed.
Print Assumptions C28_hstack_no_rows_refuted.

Example C28_instance :
  Forall dense_ok [exD; exE; exD] /\ Forall (fun D => d_rows D = 2) [exD; exE; exD] /\
  d_hstack [exD; exE; exD] exE = Ok (@Dense Zs 2 8 [1; 2; 3; 4; 5; 6; 7; 8; 9; 0; 1; 2; 3; 4; 5; 6]).
Proof.
  split; [repeat constructor; first [exact (proj1 exD_ok) | cbv; congruence]|].
  split; [repeat constructor|reflexivity].
Qed.

(* ---------------------------------------------------------------- C29 *)

Theorem C29_add_sub :
  forall (S : scalar) (D E : dense S), dense_ok D -> dense_ok E -> d_rows D = d_rows E -> d_cols D = d_cols E ->
  d_gives (d_add D E) (d_rows D) (d_cols D) (fun i j => sadd (dense_mat D i j) (dense_mat E i j)) /\
  d_gives (d_sub D E) (d_rows D) (d_cols D) (fun i j => ssub (dense_mat D i j) (dense_mat E i j)).
Proof. exact @d_add_sub_entry. Qed.
Print Assumptions C29_add_sub.

Theorem C29_scale_div :
  forall (S : scalar) (D : dense S) (v : car S), dense_ok D ->
  d_gives (Ok (d_scale D v)) (d_rows D) (d_cols D) (fun i j => smul (dense_mat D i j) v) /\
  d_gives (Ok (d_fill D v)) (d_rows D) (d_cols D) (fun i j => v) /\
  (seqb v s0 = false -> d_gives (d_div D v) (d_rows D) (d_cols D) (fun i j => sdiv (dense_mat D i j) v)) /\
  (seqb v s0 = true -> d_div D v = Fail FAssert).
Proof. exact @d_scale_div_entry. Qed.
Print Assumptions C29_scale_div.

Theorem C29_scale_rows :
  forall (S : scalar) (D : dense S) (w : list (car S)), dense_ok D -> zlen w = d_rows D ->
  d_gives (d_scale_rows D w) (d_rows D) (d_cols D) (fun i j => smul (dense_mat D i j) (vec_of w i)).
Proof. exact @d_scale_rows_gives. Qed.
Print Assumptions C29_scale_rows.

Theorem C29_scale_cols :
  forall (S : scalar) (D : dense S) (w : list (car S)), dense_ok D -> zlen w = d_cols D ->
  d_gives (d_scale_cols D w) (d_rows D) (d_cols D) (fun i j => smul (dense_mat D i j) (vec_of w j)).
Proof. exact @d_scale_cols_gives. Qed.
Print Assumptions C29_scale_cols.

Theorem C29_inverse_scale_rows :
  forall (S : scalar) (D : dense S) (w : list (car S)), dense_ok D -> zlen w = d_rows D ->
  (forall i, 0 <= i < d_rows D -> seqb (vec_of w i) s0 = false) ->
  d_gives (d_inv_scale_rows D w) (d_rows D) (d_cols D) (fun i j => sdiv (dense_mat D i j) (vec_of w i)).
Proof. exact @d_inv_scale_rows_gives. Qed.
Print Assumptions C29_inverse_scale_rows.

Theorem C29_inverse_scale_cols :
  forall (S : scalar) (D : dense S) (w : list (car S)), dense_ok D -> zlen w = d_cols D ->
  (forall j, 0 <= j < d_cols D -> seqb (vec_of w j) s0 = false) ->
  d_gives (d_inv_scale_cols D w) (d_rows D) (d_cols D) (fun i j => sdiv (dense_mat D i j) (vec_of w j)).
Proof. exact @d_inv_scale_cols_gives. Qed.
Print Assumptions C29_inverse_scale_cols.

Example C29_instance :
  dense_ok exD /\ d_add exD exD = Ok (@Dense Zs 2 3 [2; 4; 6; 8; 10; 12]) /\
  d_scale_rows exD [10; 1] = Ok (@Dense Zs 2 3 [10; 2; 30; 4; 50; 6]) /\
  d_scale_cols exD [1; 0; 2] = Ok (@Dense Zs 2 3 [1; 2; 0; 0; 10; 12]) /\
  d_inv_scale_cols exD [1; 3; 5] = Ok (@Dense Zs 2 3 [1; 2; 1; 1; 1; 1]).
Proof. split; [exact exD_ok|]. repeat split. Qed.

(* ---------------------------------------------------------------- C67 *)

(** Dense matrix products, relative to the documented contract of BLAS dgemm. *)
Theorem C67_dense_products :
  forall (S : scalar) (A B : dense S), dense_ok A -> dense_ok B ->
  0 < d_rows A -> 0 < d_cols A -> 0 < d_rows B ->
  (d_cols A = d_rows B -> d_gives (d_matmul A B) (d_rows A) (d_cols B) (mat_mul (dense_mat A) (dense_mat B) (d_cols A))) /\
  (d_rows A = d_rows B -> d_gives (d_matmulAT A B) (d_cols A) (d_cols B) (mat_mul (mat_T (dense_mat A)) (dense_mat B) (d_rows A))) /\
  (d_cols A = d_cols B -> d_gives (d_matmulBT A B) (d_rows A) (d_rows B) (mat_mul (dense_mat A) (mat_T (dense_mat B)) (d_cols A))) /\
  (d_rows A = d_cols B -> d_gives (d_matmulABT A B) (d_cols A) (d_rows B) (mat_mul (mat_T (dense_mat A)) (mat_T (dense_mat B)) (d_rows A))).
Proof. exact @d_products. Qed.
Print Assumptions C67_dense_products.

(** A product with an empty factor is rejected by the argument check of dgemm (its
    leading dimensions must be at least 1). *)
Theorem C67_empty_product_refuted :
  exists (A B : dense Zs), dense_ok A /\ dense_ok B /\ d_cols A = d_rows B /\ d_matmul A B = Fail FThrow.
Proof.
  exists (@Dense Zs 2 0 []), (@Dense Zs 0 2 []).
  split; [repeat split; cbv; congruence|]. split; [repeat split; cbv; congruence|]. split; reflexivity.
Qed.
Print Assumptions C67_empty_product_refuted.

Example C67_instance : d_matmul exE exD = Ok (@Dense Zs 2 3 [25; 8; 57; 24; 89; 40]).
Proof. reflexivity. Qed.

(* ---------------------------------------------------------------- C68 *)

Theorem C68_dense_sum :
  forall (S : scalar), ring_laws S -> forall (D : dense S), dense_ok D -> 0 < d_rows D -> 0 < d_cols D ->
  d_sum D = Ok (sum_range 0 (d_cols D) (fun j => sum_range 0 (d_rows D) (fun i => dense_mat D i j))).
Proof. exact @d_sum_spec. Qed.
Print Assumptions C68_dense_sum.

Theorem C68_dense_max :
  forall (S : scalar), order_laws S -> forall (D : dense S), dense_ok D -> 0 < d_rows D -> 0 < d_cols D ->
  exists m, d_max D = Ok m /\
    (exists i j, 0 <= i < d_rows D /\ 0 <= j < d_cols D /\ m = dense_mat D i j) /\
    forall i j, 0 <= i < d_rows D -> 0 <= j < d_cols D -> sle (dense_mat D i j) m.
Proof. exact @d_max_spec. Qed.
Print Assumptions C68_dense_max.

Theorem C68_dense_min :
  forall (S : scalar), order_laws S -> forall (D : dense S), dense_ok D -> 0 < d_rows D -> 0 < d_cols D ->
  exists m, d_min D = Ok m /\
    (exists i j, 0 <= i < d_rows D /\ 0 <= j < d_cols D /\ m = dense_mat D i j) /\
    forall i j, 0 <= i < d_rows D -> 0 <= j < d_cols D -> sle m (dense_mat D i j).
Proof. exact @d_min_spec. Qed.
Print Assumptions C68_dense_min.

Theorem C68_dense_diag :
  forall (S : scalar) (D : dense S), dense_ok D -> d_rows D = d_cols D ->
  d_get_diag D = Ok (map (fun i => dense_mat D i i) (zrange 0 (d_rows D))).
Proof. exact @d_get_diag_exact. Qed.
Print Assumptions C68_dense_diag.

Theorem C68_dense_diag_refuses :
  forall (S : scalar) (D : dense S), d_rows D <> d_cols D -> d_get_diag D = Fail FAssert.
Proof. intros S D E. unfold d_get_diag. apply Z.eqb_neq in E. now rewrite E. Qed.
Print Assumptions C68_dense_diag_refuses.

(** GetRow(rows): any list of rows. *)
Theorem C68_dense_get_rows :
  forall (S : scalar) (D : dense S) (rows : list Z), dense_ok D -> (forall r, In r rows -> 0 <= r < d_rows D) ->
  d_gives (d_get_rows_new D rows) (zlen rows) (d_cols D) (fun i j => dense_mat D (zn 0 rows i) j).
Proof. exact @d_get_rows_new_gives. Qed.
Print Assumptions C68_dense_get_rows.

Example C68_instance : d_sum exD = Ok 21 /\ d_max exE = Ok 9 /\ d_min exE = Ok 0 /\ d_get_diag exE = Ok [7; 0] /\
  d_get_rows_new exD [1; 1; 0] = Ok (@Dense Zs 3 3 [2; 2; 1; 4; 4; 3; 6; 6; 5]).
Proof. repeat split. Qed.
