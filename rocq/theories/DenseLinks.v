(** Further facts about DenseMatrix used by the property files. *)

From Coq Require Import ZArith List Lia Bool.
From Verif Require Import Base Scalar Spec Dense Sparse LoopFacts SumFacts CsrFacts SparseProofs SparseMore DenseFacts DenseProofs.
Import ListNotations.
Open Scope Z_scope.

Section Links.
Context {S : scalar}.
Notation T := (car S).
Implicit Types (D E B : dense S).

Lemma d_get_spec D i j : dense_ok D ->
  (0 <= i < d_rows D -> 0 <= j < d_cols D -> d_get D i j = Ok (dense_mat D i j)) /\
  (~ (0 <= i < d_rows D /\ 0 <= j < d_cols D) -> d_get D i j = Fail FAssert).
Proof. intros H. split; [intros; now apply d_get_ok|apply d_get_out]. Qed.

Lemma d_set_get_col D D' col v out : dense_ok D -> 0 <= col < d_cols D -> zlen v = d_rows D -> zlen out = d_rows D ->
  d_set_col D col v = Ok D' -> d_get_col D' col out = Ok v.
Proof.
  intros H Hc Hv Ho E. destruct (d_set_col_gives D col v H Hc Hv) as (D2 & E2 & H1 & H2 & H3 & H4). rewrite E in E2. injection E2 as <-.
  rewrite d_get_col_exact by (auto; lia). f_equal. rewrite H2. pose proof H as (Hr & _).
  apply (list_ext s0); [rewrite zlen_map_zrange by lia; lia|]. rewrite zlen_map_zrange by lia. intros i Hi.
  rewrite zn_map_zrange by lia. rewrite H4 by lia. now rewrite Z.eqb_refl.
Qed.

Lemma d_set_get_row D D' row v out : dense_ok D -> 0 <= row < d_rows D -> zlen v = d_cols D -> zlen out = d_cols D ->
  d_set_row D row v = Ok D' -> d_get_row D' row out = Ok v.
Proof.
  intros H Hc Hv Ho E. destruct (d_set_row_gives D row v H Hc Hv) as (D2 & E2 & H1 & H2 & H3 & H4). rewrite E in E2. injection E2 as <-.
  rewrite d_get_row_exact by (auto; lia). f_equal. rewrite H3. pose proof H as (_ & Hr & _).
  apply (list_ext s0); [rewrite zlen_map_zrange by lia; lia|]. rewrite zlen_map_zrange by lia. intros i Hi.
  rewrite zn_map_zrange by lia. rewrite H4 by lia. now rewrite Z.eqb_refl.
Qed.

Lemma d_mult_new_spec (R : ring_laws S) D x : dense_ok D -> zlen x = d_cols D ->
  exists y, d_mult_new D x = Ok y /\ zlen y = d_rows D /\
    forall i, 0 <= i < d_rows D -> vec_of y i = mat_vec (dense_mat D) (d_cols D) (vec_of x) i.
Proof.
  intros H Hx. rewrite d_mult_new_eq by auto. apply (d_mult_spec R); auto. rewrite zlen_repeat. destruct H. lia.
Qed.

Lemma d_multAT_new_spec (R : ring_laws S) D x : dense_ok D -> zlen x = d_rows D ->
  exists y, d_multAT_new D x = Ok y /\ zlen y = d_cols D /\
    forall i, 0 <= i < d_cols D -> vec_of y i = mat_vec (mat_T (dense_mat D)) (d_rows D) (vec_of x) i.
Proof.
  intros H Hx. rewrite d_multAT_new_eq by auto. apply (d_multAT_spec R); auto. rewrite zlen_repeat. destruct H as (_ & H & _). lia.
Qed.

Lemma to_dense_mult (R : ring_laws S) (A : csr S) D x o1 o2 :
  csr_valid A -> no_dup_coords (entries A) -> sp_to_dense A = Ok D ->
  zlen x = c_cols A -> zlen o1 = c_rows A -> zlen o2 = c_rows A ->
  exists y, sp_mult A x o1 = Ok y /\ d_mult D x o2 = Ok y.
Proof.
  intros V ND E Hx H1 H2. destruct (sp_to_dense_spec R A V ND) as (D' & E' & HD & Hr & Hc & Hm). rewrite E in E'. injection E' as <-.
  destruct (sp_mult_spec R A x o1 V Hx H1) as (y & Ey & Hly & Hy). exists y. split; [exact Ey|].
  destruct (d_mult_spec R D x o2 HD) as (z & Ez & Hlz & Hz); try congruence. rewrite Ez. f_equal.
  apply (list_ext s0); [congruence|]. intros i Hi. rewrite Hlz, Hr in Hi.
  change (vec_of z i = vec_of y i). rewrite Hz, Hy by congruence. rewrite Hc. apply mat_vec_ext; auto.
Qed.

Lemma d_add_sub_gives (R : ring_laws S) D rows cols B :
  dense_ok D -> dense_ok B -> zlen rows = d_rows B -> zlen cols = d_cols B ->
  (forall r, In r rows -> 0 <= r < d_rows D) -> (forall c, In c cols -> 0 <= c < d_cols D) ->
  d_gives (d_add_sub D rows cols B) (d_rows D) (d_cols D)
    (fun a b => sadd (dense_mat D a b)
       (sum_range 0 (d_cols B) (fun j => sum_range 0 (d_rows B) (fun i =>
          if (zn 0 rows i =? a) && (zn 0 cols j =? b) then dense_mat B i j else s0)))).
Proof.
  intros H HB H1 H2 H3 H4. eapply d_gives_ext; [now apply d_add_sub_exact|]. intros a b Ha Hb. cbn beta.
  rewrite (fold_left_sum R). f_equal. rewrite (sum_filter R). unfold pairs. rewrite (sum_flat_map R).
  unfold sum_range. apply sum_map_ext. intros j _. rewrite map_map. reflexivity.
Qed.

Lemma d_add_sub_entry D E : dense_ok D -> dense_ok E -> d_rows D = d_rows E -> d_cols D = d_cols E ->
  d_gives (d_add D E) (d_rows D) (d_cols D) (fun i j => sadd (dense_mat D i j) (dense_mat E i j)) /\
  d_gives (d_sub D E) (d_rows D) (d_cols D) (fun i j => ssub (dense_mat D i j) (dense_mat E i j)).
Proof. intros. split; now apply d_zip_gives. Qed.

Lemma d_scale_div_entry D v : dense_ok D ->
  d_gives (Ok (d_scale D v)) (d_rows D) (d_cols D) (fun i j => smul (dense_mat D i j) v) /\
  d_gives (Ok (d_fill D v)) (d_rows D) (d_cols D) (fun i j => v) /\
  (seqb v s0 = false -> d_gives (d_div D v) (d_rows D) (d_cols D) (fun i j => sdiv (dense_mat D i j) v)) /\
  (seqb v s0 = true -> d_div D v = Fail FAssert).
Proof.
  intros H. split; [now apply (d_map_gives (fun a => smul a v))|]. split; [now apply (d_map_gives (fun _ => v))|].
  split; [now apply d_div_gives|]. intros E. unfold d_div. now rewrite E.
Qed.

Lemma d_products (A B : dense S) : dense_ok A -> dense_ok B -> 0 < d_rows A -> 0 < d_cols A -> 0 < d_rows B ->
  (d_cols A = d_rows B -> d_gives (d_matmul A B) (d_rows A) (d_cols B) (mat_mul (dense_mat A) (dense_mat B) (d_cols A))) /\
  (d_rows A = d_rows B -> d_gives (d_matmulAT A B) (d_cols A) (d_cols B) (mat_mul (mat_T (dense_mat A)) (dense_mat B) (d_rows A))) /\
  (d_cols A = d_cols B -> d_gives (d_matmulBT A B) (d_rows A) (d_rows B) (mat_mul (dense_mat A) (mat_T (dense_mat B)) (d_cols A))) /\
  (d_rows A = d_cols B -> d_gives (d_matmulABT A B) (d_cols A) (d_rows B) (mat_mul (mat_T (dense_mat A)) (mat_T (dense_mat B)) (d_rows A))).
Proof.
  intros HA HB H1 H2 H3. unfold d_matmul, d_matmulAT, d_matmulBT, d_matmulABT. repeat split; intros E; rewrite E, Z.eqb_refl; cbn [assert_ bind]; rewrite <- E.
  - now apply (d_dgemm_spec A B false false).
  - now apply (d_dgemm_spec A B true false).
  - now apply (d_dgemm_spec A B false true).
  - now apply (d_dgemm_spec A B true true).
Qed.

Lemma d_get_rows_new_gives D rows : dense_ok D -> (forall r, In r rows -> 0 <= r < d_rows D) ->
  d_gives (d_get_rows_new D rows) (zlen rows) (d_cols D) (fun i j => dense_mat D (zn 0 rows i) j).
Proof.
  intros H HR. unfold d_get_rows_new. pose proof H as (_ & Hc & _).
  destruct (@d_zeros_ok S (zlen rows) (d_cols D) (zlen_nonneg _) Hc) as (Z & -> & H1 & H2 & H3 & _). cbn [bind].
  now apply d_get_rows_gives.
Qed.

End Links.
