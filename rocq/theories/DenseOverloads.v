(** The overloads for blocks of dense matrices. *)

From Coq Require Import ZArith List Bool Lia.
From Verif Require Import Base Scalar Spec Dense DenseFacts DenseProofs.
Import ListNotations.
Open Scope Z_scope.

Lemma block_get_rows :
  forall (S : scalar) (D : dense S) (start stop : Z), dense_ok D -> 0 <= start < d_rows D -> 0 < d_cols D -> start <= stop <= d_rows D ->
  d_gives (d_get_rows_range D start stop) (stop - start) (d_cols D) (fun i j => dense_mat D (i + start) j).
Proof.
  intros S D start stop OK H1 H2 H3. unfold d_get_rows_range. destruct (d_zeros_ok (S := S) (stop - start) (d_cols D)) as (O & -> & _); [lia|lia|]. cbn [bind].
  destruct (d_get_sub_gives D start 0 stop (d_cols D) O OK) as (E & R & K1 & K2 & K3 & K4); try lia. exists E. split; [exact R|]. split; [exact K1|]. split; [exact K2|]. split; [lia|].
  intros i j Hi Hj. rewrite K4 by lia. f_equal; lia.
Qed.

Lemma block_get_cols :
  forall (S : scalar) (D : dense S) (start stop : Z), dense_ok D -> 0 <= start < d_cols D -> 0 < d_rows D -> start <= stop <= d_cols D ->
  d_gives (d_get_cols_range D start stop) (d_rows D) (stop - start) (fun i j => dense_mat D i (j + start)).
Proof.
  intros S D start stop OK H1 H2 H3. unfold d_get_cols_range. destruct (d_zeros_ok (S := S) (d_rows D) (stop - start)) as (O & -> & _); [lia|lia|]. cbn [bind].
  destruct (d_get_sub_gives D 0 start (d_rows D) stop O OK) as (E & R & K1 & K2 & K3 & K4); try lia. exists E. split; [exact R|]. split; [exact K1|]. split; [lia|]. split; [exact K3|].
  intros i j Hi Hj. rewrite K4 by lia. f_equal; lia.
Qed.

Lemma block_get_new :
  forall (S : scalar) (D : dense S) (si sj ei ej : Z), dense_ok D ->
  0 <= si < d_rows D -> 0 <= sj < d_cols D -> si <= ei <= d_rows D -> sj <= ej <= d_cols D ->
  d_gives (d_get_sub_new D si sj ei ej) (ei - si) (ej - sj) (fun i j => dense_mat D (i + si) (j + sj)).
Proof.
  intros S D si sj ei ej OK H1 H2 H3 H4. unfold d_get_sub_new. destruct (d_zeros_ok (S := S) (ei - si) (ej - sj)) as (O & -> & _); [lia|lia|]. cbn [bind]. now apply d_get_sub_gives.
Qed.

Lemma block_get_lists_new :
  forall (S : scalar) (D : dense S) (rows cols : list Z), dense_ok D ->
  (forall r, In r rows -> 0 <= r < d_rows D) -> (forall c, In c cols -> 0 <= c < d_cols D) ->
  d_gives (d_get_sub_lists_new D rows cols) (zlen rows) (zlen cols) (fun i j => dense_mat D (zn 0 rows i) (zn 0 cols j)).
Proof. intros S D rows cols OK HR HC. now apply d_get_sub_lists_gives. Qed.

Lemma block_set_rows :
  forall (S : scalar) (D : dense S) (start : Z) (B : dense S), dense_ok D -> dense_ok B -> 0 <= start < d_rows D -> 0 < d_cols D ->
  start + d_rows B <= d_rows D -> d_cols B = d_cols D ->
  d_gives (d_set_rows D start B) (d_rows D) (d_cols D)
    (fun i j => if (start <=? i) && (i <? start + d_rows B) then dense_mat B (i - start) j else dense_mat D i j).
Proof.
  intros S D start B OK HB H1 H2 H3 H4. pose proof HB as (HB1 & HB2 & _). unfold d_set_rows.
  destruct (d_set_sub_gives D start 0 (start + d_rows B) (d_cols D) B OK HB) as (E & R & K1 & K2 & K3 & K4); try lia. exists E. do 4 (split; [assumption|]).
  intros i j Hi Hj. rewrite K4 by lia. unfold in_window. replace ((0 <=? j) && (j <? d_cols D)) with true by lia. rewrite andb_true_r. destruct (_ && _); [f_equal; lia|reflexivity].
Qed.

Lemma block_set_cols :
  forall (S : scalar) (D : dense S) (start : Z) (B : dense S), dense_ok D -> dense_ok B -> 0 <= start < d_cols D -> 0 < d_rows D ->
  start + d_cols B <= d_cols D -> d_rows B = d_rows D ->
  d_gives (d_set_cols D start B) (d_rows D) (d_cols D)
    (fun i j => if (start <=? j) && (j <? start + d_cols B) then dense_mat B i (j - start) else dense_mat D i j).
Proof.
  intros S D start B OK HB H1 H2 H3 H4. pose proof HB as (HB1 & HB2 & _). unfold d_set_cols.
  destruct (d_set_sub_gives D 0 start (d_rows D) (start + d_cols B) B OK HB) as (E & R & K1 & K2 & K3 & K4); try lia. exists E. do 4 (split; [assumption|]).
  intros i j Hi Hj. rewrite K4 by lia. unfold in_window. replace ((0 <=? i) && (i <? d_rows D)) with true by lia. rewrite andb_true_l. destruct (_ && _); [f_equal; lia|reflexivity].
Qed.

Lemma block_set_at :
  forall (S : scalar) (D : dense S) (si sj : Z) (B : dense S), dense_ok D -> dense_ok B ->
  0 <= si < d_rows D -> 0 <= sj < d_cols D -> si + d_rows B <= d_rows D -> sj + d_cols B <= d_cols D ->
  d_gives (d_set_sub_at D si sj B) (d_rows D) (d_cols D)
    (fun a b => if (si <=? a) && (a <? si + d_rows B) && ((sj <=? b) && (b <? sj + d_cols B)) then dense_mat B (a - si) (b - sj) else dense_mat D a b).
Proof. intros S D si sj B OK HB H1 H2 H3 H4. pose proof HB as (HB1 & HB2 & _). apply d_set_sub_gives; auto; lia. Qed.

Lemma block_set_transpose_at :
  forall (S : scalar) (D : dense S) (si sj : Z) (B : dense S), dense_ok D -> dense_ok B ->
  0 <= si < d_rows D -> 0 <= sj < d_cols D -> si + d_cols B <= d_rows D -> sj + d_rows B <= d_cols D ->
  d_gives (d_set_sub_T_at D si sj B) (d_rows D) (d_cols D)
    (fun a b => if (si <=? a) && (a <? si + d_cols B) && ((sj <=? b) && (b <? sj + d_rows B)) then dense_mat B (b - sj) (a - si) else dense_mat D a b).
Proof. intros S D si sj B OK HB H1 H2 H3 H4. pose proof HB as (HB1 & HB2 & _). apply d_set_sub_T_gives; auto; lia. Qed.

Lemma block_misfit :
  forall (S : scalar) (D : dense S) (si sj : Z) (B : dense S), dense_ok D -> dense_ok B ->
  si < 0 \/ sj < 0 \/ d_rows D < si + d_rows B \/ d_cols D < sj + d_cols B -> d_set_sub_at D si sj B = Fail FAssert.
Proof.
  intros S D si sj B OK HB H. pose proof HB as (HB1 & HB2 & _). unfold d_set_sub_at, d_set_sub.
  replace (window_ok D si sj (si + d_rows B) (sj + d_cols B)) with false; [reflexivity|]. symmetry. unfold window_ok. lia.
Qed.
