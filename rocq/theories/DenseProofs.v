(** Proofs about DenseMatrix. *)

From Coq Require Import ZArith List Lia Bool.
From Verif Require Import Base Scalar Spec Dense LoopFacts SumFacts CsrFacts DenseFacts.
Import ListNotations.
Open Scope Z_scope.

Section Dense.
Context {S : scalar}.
Notation T := (car S).
Implicit Types (D E B : dense S).

Lemma d_gives_intro (m : res (dense S)) r c f :
  (exists D, m = Ok D /\ dense_ok D /\ d_rows D = r /\ d_cols D = c /\
    forall i j, 0 <= i < r -> 0 <= j < c -> dense_mat D i j = f i j) -> d_gives m r c f.
Proof. auto. Qed.

Lemma d_gives_ext (m : res (dense S)) r c f g :
  d_gives m r c f -> (forall i j, 0 <= i < r -> 0 <= j < c -> f i j = g i j) -> d_gives m r c g.
Proof.
  intros (D & H1 & H2 & H3 & H4 & H5) H. exists D. repeat (split; [assumption|]). intros i j Hi Hj. now rewrite H5, H.
Qed.

Lemma rng_true a b : 0 <= a < b -> (0 <=? a) && (a <? b) = true.
Proof. rewrite andb_true_iff, Z.leb_le, Z.ltb_lt. tauto. Qed.

(** ** Element access *)

Lemma d_set_gives D i j v : dense_ok D -> 0 <= i < d_rows D -> 0 <= j < d_cols D ->
  d_gives (d_set D i j v) (d_rows D) (d_cols D) (fun a b => if (a =? i) && (b =? j) then v else dense_mat D a b).
Proof.
  intros H Hi Hj. exists (dset D i j v). split; [now apply d_set_ok|]. split; [now apply dset_ok|].
  split; [reflexivity|]. split; [reflexivity|]. intros a b Ha Hb. now apply dset_mat.
Qed.

Lemma d_set_col_gives D col v : dense_ok D -> 0 <= col < d_cols D -> zlen v = d_rows D ->
  d_gives (d_set_col D col v) (d_rows D) (d_cols D) (fun a b => if b =? col then zn s0 v a else dense_mat D a b).
Proof.
  intros H Hc Hv. unfold d_set_col. rewrite rng_true by lia. cbn [assert_ bind].
  rewrite Hv, Z.eqb_refl. cbn [assert_ bind].
  destruct (dense_scatter (fun i => i) (fun _ => col) (fun _ i => zn s0 v i)
    (fun D i => a <- get v i ;; d_set D i col a) (zrange 0 (d_rows D)) D H) as (D' & E & H1 & H2 & H3 & H4).
  - intros i Hi. apply In_zrange in Hi. lia.
  - intros i E Hi HE Hr Hcc. apply In_zrange in Hi. rewrite (get_ok s0) by lia. cbn [bind]. rewrite d_set_ok by (auto; lia). reflexivity.
  - exists D'. split; [exact E|]. repeat (split; [assumption|]). intros a b Ha Hb. rewrite H4 by auto.
    rewrite (Z.eqb_sym b col). destruct (col =? b).
    + erewrite filter_ext; [|intros; now rewrite andb_true_r]. rewrite filter_zrange_eq.
      now rewrite rng_true by lia.
    + rewrite filter_none; [reflexivity|]. intros. apply andb_false_r.
Qed.

Lemma d_set_row_gives D row v : dense_ok D -> 0 <= row < d_rows D -> zlen v = d_cols D ->
  d_gives (d_set_row D row v) (d_rows D) (d_cols D) (fun a b => if a =? row then zn s0 v b else dense_mat D a b).
Proof.
  intros H Hc Hv. unfold d_set_row. rewrite rng_true by lia. cbn [assert_ bind].
  rewrite Hv, Z.eqb_refl. cbn [assert_ bind].
  destruct (dense_scatter (fun _ => row) (fun i => i) (fun _ i => zn s0 v i)
    (fun D i => a <- get v i ;; d_set D row i a) (zrange 0 (d_cols D)) D H) as (D' & E & H1 & H2 & H3 & H4).
  - intros i Hi. apply In_zrange in Hi. lia.
  - intros i E Hi HE Hr Hcc. apply In_zrange in Hi. rewrite (get_ok s0) by lia. cbn [bind]. rewrite d_set_ok by (auto; lia). reflexivity.
  - exists D'. split; [exact E|]. repeat (split; [assumption|]). intros a b Ha Hb. rewrite H4 by auto.
    rewrite (Z.eqb_sym a row). destruct (row =? a); cbn [andb].
    + rewrite filter_zrange_eq. now rewrite rng_true by lia.
    + rewrite filter_none; [reflexivity|]. reflexivity.
Qed.

Lemma d_get_col_exact D col v : dense_ok D -> 0 <= col < d_cols D -> zlen v = d_rows D ->
  d_get_col D col v = Ok (map (fun i => dense_mat D i col) (zrange 0 (d_rows D))).
Proof.
  intros H Hc Hv. unfold d_get_col. rewrite rng_true by lia. cbn [assert_ bind].
  rewrite Hv, Z.eqb_refl. cbn [assert_ bind]. rewrite (for_fill s0 (fun i => dense_mat D i col)); auto.
  intros i o Hi. now apply d_get_ok.
Qed.

Lemma d_get_row_exact D row v : dense_ok D -> 0 <= row < d_rows D -> zlen v = d_cols D ->
  d_get_row D row v = Ok (map (fun j => dense_mat D row j) (zrange 0 (d_cols D))).
Proof.
  intros H Hc Hv. unfold d_get_row. rewrite rng_true by lia. cbn [assert_ bind].
  rewrite Hv, Z.eqb_refl. cbn [assert_ bind]. rewrite (for_fill s0 (fun i => dense_mat D row i)); auto.
  intros i o Hi. now apply d_get_ok.
Qed.

(** element i of the view of a column is the element (i, col) *)
Lemma d_col_view_spec D col : dense_ok D -> 0 <= col < d_cols D ->
  exists off, d_col_view D col = Ok (off, d_rows D) /\ 0 <= off /\ off + d_rows D <= zlen (d_data D) /\
    (forall i, 0 <= i < d_rows D -> get (d_data D) (off + i) = d_get D i col) /\
    (forall i v, 0 <= i < d_rows D ->
       (data <- set (d_data D) (off + i) v ;; Ok (Dense (d_rows D) (d_cols D) data)) = d_set D i col v).
Proof.
  intros H Hc. unfold d_col_view. rewrite rng_true by lia. cbn.
  destruct H as (H1 & H2 & H3). exists (col * d_rows D). split; [reflexivity|]. split; [nia|]. split; [rewrite H3; nia|].
  split; intros i; intros; unfold d_get, d_set; rewrite (proj2 (in_range_spec D i col)) by lia; cbn [assert_ bind];
    rewrite (Z.add_comm i); reflexivity.
Qed.

(** ** Products with vectors *)

Lemma filter_pairs_fst m n i : 0 <= i < m ->
  filter (fun p : Z * Z => fst p =? i) (pairs m n) = map (fun j => (i, j)) (zrange 0 n).
Proof.
  intros Hi. unfold pairs. rewrite filter_flat_map. rewrite (flat_map_ext_in _ (fun j => [(i, j)])).
  - induction (zrange 0 n) as [|j l IH]; cbn; [reflexivity|]. now rewrite IH.
  - intros j _. rewrite filter_map. cbn [fst]. rewrite filter_zrange_eq.
    now rewrite rng_true by lia.
Qed.

Lemma d_mult_exact D x out : dense_ok D -> zlen x = d_cols D -> zlen out = d_rows D ->
  d_mult D x out = Ok (map (fun i => fold_left (fun s j => sadd s (smul (dense_mat D i j) (zn s0 x j))) (zrange 0 (d_cols D)) s0)
                           (zrange 0 (d_rows D))).
Proof.
  intros H Hx Ho. unfold d_mult. rewrite Hx, Ho, !Z.eqb_refl. cbn [assert_ bind].
  rewrite (for_pairs (d_rows D) (d_cols D) (map (fun _ => s0) out) (fun i j out =>
     a <- d_get D i j ;; xj <- get x j ;; o <- get out i ;; set out i (sadd o (smul a xj)))).
  destruct (scatter s0 (fun p : Z * Z => fst p) (fun o p => sadd o (smul (dense_mat D (fst p) (snd p)) (zn s0 x (snd p))))
    (fun out p => a <- d_get D (fst p) (snd p) ;; xj <- get x (snd p) ;; o <- get out (fst p) ;; set out (fst p) (sadd o (smul a xj)))
    (pairs (d_rows D) (d_cols D)) (map (fun _ => s0) out)) as (y & E & Hl & Hy).
  - intros [i j] Hp. apply In_pairs in Hp. cbn. rewrite zlen_map. lia.
  - intros [i j] o Hp Hlo. apply In_pairs in Hp. rewrite zlen_map in Hlo. cbn [fst snd]. rewrite d_get_ok by tauto. cbn [bind].
    rewrite (get_ok s0) by lia. cbn [bind]. rewrite (get_ok s0) by lia. cbn [bind]. now rewrite set_ok by lia.
  - rewrite E. f_equal. rewrite zlen_map in Hl, Hy. destruct H as (Hr & _). apply (list_ext s0); [rewrite zlen_map_zrange by lia; lia|].
    intros i Hi. rewrite zn_map_zrange by lia. rewrite Hy by lia. rewrite zn_map_const by lia.
    rewrite filter_pairs_fst by lia. now rewrite fold_left_map.
Qed.

Lemma d_multAT_exact D x out : dense_ok D -> zlen x = d_rows D -> zlen out = d_cols D ->
  d_multAT D x out = Ok (map (fun j => fold_left (fun s i => sadd s (smul (dense_mat D i j) (zn s0 x i))) (zrange 0 (d_rows D)) s0)
                           (zrange 0 (d_cols D))).
Proof.
  intros H Hx Ho. unfold d_multAT. rewrite Hx, Ho, !Z.eqb_refl. cbn [assert_ bind].
  apply (for_fill s0 (fun j => fold_left (fun s i => sadd s (smul (dense_mat D i j) (zn s0 x i))) (zrange 0 (d_rows D)) s0)); [exact Ho|].
  intros j o Hj. unfold for_. apply foldM_pure_in. intros s i Hi. apply In_zrange in Hi. rewrite d_get_ok by auto. cbn [bind].
  rewrite (get_ok s0) by lia. reflexivity.
Qed.

Section Ring.
Hypothesis R : ring_laws S.

Lemma d_mult_spec D x out : dense_ok D -> zlen x = d_cols D -> zlen out = d_rows D ->
  exists y, d_mult D x out = Ok y /\ zlen y = d_rows D /\
    forall i, 0 <= i < d_rows D -> vec_of y i = mat_vec (dense_mat D) (d_cols D) (vec_of x) i.
Proof.
  intros H Hx Ho. eexists. split; [now apply d_mult_exact|]. pose proof H as (Hr & _). split; [apply zlen_map_zrange; lia|].
  intros i Hi. unfold vec_of. rewrite zn_map_zrange by lia. apply (fold_left_range R).
Qed.

Lemma d_multAT_spec D x out : dense_ok D -> zlen x = d_rows D -> zlen out = d_cols D ->
  exists y, d_multAT D x out = Ok y /\ zlen y = d_cols D /\
    forall i, 0 <= i < d_cols D -> vec_of y i = mat_vec (mat_T (dense_mat D)) (d_rows D) (vec_of x) i.
Proof.
  intros H Hx Ho. eexists. split; [now apply d_multAT_exact|]. pose proof H as (_ & Hr & _). split; [apply zlen_map_zrange; lia|].
  intros i Hi. unfold vec_of. rewrite zn_map_zrange by lia. apply (fold_left_range R).
Qed.

Lemma d_adjoint D x y u v o1 o2 : dense_ok D ->
  zlen x = d_cols D -> zlen y = d_rows D -> zlen o1 = d_rows D -> zlen o2 = d_cols D ->
  d_mult D x o1 = Ok u -> d_multAT D y o2 = Ok v ->
  inner (d_rows D) (vec_of u) (vec_of y) = inner (d_cols D) (vec_of x) (vec_of v).
Proof.
  intros H Hx Hy H1 H2 E1 E2.
  destruct (d_mult_spec D x o1 H Hx H1) as (u' & Eu & _ & Hu). rewrite E1 in Eu. injection Eu as <-.
  destruct (d_multAT_spec D y o2 H Hy H2) as (v' & Ev & _ & Hv). rewrite E2 in Ev. injection Ev as <-.
  unfold inner at 1. rewrite (sum_range_ext _ _ _ (fun i => smul (mat_vec (dense_mat D) (d_cols D) (vec_of x) i) (vec_of y i))).
  2:{ intros i Hi. now rewrite Hu. }
  etransitivity; [apply (inner_mat_vec_T R)|]. unfold inner. apply sum_range_ext. intros i Hi. now rewrite Hv.
Qed.

End Ring.

Lemma d_mult_new_eq D x : dense_ok D -> d_mult_new D x = d_mult D x (repeat s0 (Z.to_nat (d_rows D))).
Proof. intros (H & _). unfold d_mult_new. now rewrite vec_ok by lia. Qed.

Lemma d_multAT_new_eq D x : dense_ok D -> d_multAT_new D x = d_multAT D x (repeat s0 (Z.to_nat (d_cols D))).
Proof. intros (_ & H & _). unfold d_multAT_new. now rewrite vec_ok by lia. Qed.

(** ** Transpose *)

Lemma d_transpose_into_gives D out : dense_ok D ->
  d_gives (d_transpose_into D out) (d_cols D) (d_rows D) (fun i j => dense_mat D j i).
Proof.
  intros H. pose proof H as (Hr & Hc & _). unfold d_transpose_into.
  destruct (d_set_size_ok out (d_cols D) (d_rows D) Hc Hr) as (E & -> & HE & Hr' & Hc' & _). cbn [bind].
  destruct (dense_all (fun _ p => dense_mat D (snd p) (fst p)) (fun i j out => v <- d_get D j i ;; d_set out i j v) E HE) as (D' & E' & H1 & H2 & H3 & H4).
  - intros i j F Hi Hj HF HFr HFc. rewrite d_get_ok by (auto; lia). cbn [bind]. rewrite d_set_ok by (auto; lia). reflexivity.
  - rewrite Hr', Hc' in E'. exists D'. split; [exact E'|]. split; [exact H1|]. split; [congruence|]. split; [congruence|].
    intros i j Hi Hj. rewrite H4 by lia. reflexivity.
Qed.

Lemma d_transpose_gives D : dense_ok D ->
  d_gives (d_transpose D) (d_cols D) (d_rows D) (fun i j => dense_mat D j i).
Proof.
  intros H. pose proof H as (Hr & Hc & _). unfold d_transpose.
  destruct (@d_zeros_ok S (d_cols D) (d_rows D) Hc Hr) as (Z & -> & _). cbn [bind]. now apply d_transpose_into_gives.
Qed.

Lemma d_transpose_twice D B C : dense_ok D -> d_transpose D = Ok B -> d_transpose B = Ok C -> C = D.
Proof.
  intros H EB EC. destruct (d_transpose_gives D H) as (B' & E & HB & Hr & Hc & Hm). rewrite EB in E. injection E as <-.
  destruct (d_transpose_gives B HB) as (C' & E & HC & Hr' & Hc' & Hm'). rewrite EC in E. injection E as <-.
  apply d_ext; auto; try congruence. intros i j Hi Hj. rewrite Hm' by congruence. apply Hm; congruence.
Qed.

(** ** Windows *)

Lemma window_ok_true D si sj ei ej :
  0 <= si < d_rows D -> 0 <= sj < d_cols D -> si <= ei <= d_rows D -> sj <= ej <= d_cols D -> window_ok D si sj ei ej = true.
Proof.
  intros. unfold window_ok. rewrite !andb_true_iff, !Z.leb_le, !Z.ltb_lt. lia.
Qed.

Lemma window_ok_inv D si sj ei ej : window_ok D si sj ei ej = true ->
  0 <= si < d_rows D /\ 0 <= sj < d_cols D /\ si <= ei <= d_rows D /\ sj <= ej <= d_cols D.
Proof. unfold window_ok. rewrite !andb_true_iff, !Z.leb_le, !Z.ltb_lt. lia. Qed.

Lemma d_get_sub_gives D si sj ei ej out : dense_ok D ->
  0 <= si < d_rows D -> 0 <= sj < d_cols D -> si <= ei <= d_rows D -> sj <= ej <= d_cols D ->
  d_gives (d_get_sub D si sj ei ej out) (ei - si) (ej - sj) (fun i j => dense_mat D (i + si) (j + sj)).
Proof.
  intros H H1 H2 H3 H4. unfold d_get_sub. rewrite window_ok_true by auto. cbn [assert_ bind].
  destruct (d_set_size_ok out (ei - si) (ej - sj) ltac:(lia) ltac:(lia)) as (E & -> & HE & Hr & Hc & _). cbn [bind].
  destruct (dense_all (fun _ p => dense_mat D (fst p + si) (snd p + sj)) (fun i j out => a <- d_get D (i + si) (j + sj) ;; d_set out i j a) E HE)
    as (D' & E' & G1 & G2 & G3 & G4).
  - intros i j F Hi Hj HF HFr HFc. rewrite d_get_ok by (auto; lia). cbn [bind]. rewrite d_set_ok by (auto; lia). reflexivity.
  - rewrite Hr, Hc in E'. exists D'. split; [exact E'|]. split; [exact G1|]. split; [congruence|]. split; [congruence|].
    intros i j Hi Hj. now rewrite G4 by lia.
Qed.

Lemma d_get_sub_lists_gives D rows cols out : dense_ok D ->
  (forall r, In r rows -> 0 <= r < d_rows D) -> (forall c, In c cols -> 0 <= c < d_cols D) ->
  d_gives (d_get_sub_lists D rows cols out) (zlen rows) (zlen cols) (fun i j => dense_mat D (zn 0 rows i) (zn 0 cols j)).
Proof.
  intros H HR HC. unfold d_get_sub_lists.
  destruct (d_set_size_ok out (zlen rows) (zlen cols) (zlen_nonneg _) (zlen_nonneg _)) as (E & -> & HE & Hr & Hc & _). cbn [bind].
  pose proof (d_fill_ok E s0 HE) as HF.
  destruct (dense_all (fun _ p => dense_mat D (zn 0 rows (fst p)) (zn 0 cols (snd p)))
     (fun i j out => col <- get cols j ;; row <- get rows i ;; a <- d_get D row col ;; d_set out i j a) (d_fill E s0) HF)
    as (D' & E' & G1 & G2 & G3 & G4).
  - cbn [d_fill d_rows d_cols]. rewrite Hr, Hc. intros i j F Hi Hj HFF HFr HFc. rewrite !(get_ok 0) by lia. cbn [bind].
    pose proof (HR _ (zn_In 0 rows i ltac:(lia))). pose proof (HC _ (zn_In 0 cols j ltac:(lia))).
    rewrite d_get_ok by auto. cbn [bind]. rewrite d_set_ok by (auto; lia). reflexivity.
  - cbn [d_fill d_rows d_cols] in E', G2, G3, G4. rewrite Hr, Hc in *. exists D'. split; [|].
    + rewrite <- E'. apply for_ext. intros j s Hj. rewrite (get_ok 0) by lia. cbn [bind]. apply for_ext. intros i s' Hi. now rewrite (get_ok 0) by lia.
    + split; [exact G1|]. split; [congruence|]. split; [congruence|]. intros i j Hi Hj. now rewrite G4 by lia.
Qed.

Lemma d_get_rows_gives D rows out : dense_ok D -> dense_ok out -> d_rows out = zlen rows -> d_cols out = d_cols D ->
  (forall r, In r rows -> 0 <= r < d_rows D) ->
  d_gives (d_get_rows D rows out) (zlen rows) (d_cols D) (fun i j => dense_mat D (zn 0 rows i) j).
Proof.
  intros H Ho Hr Hc HR. unfold d_get_rows. rewrite Hr, Hc, !Z.eqb_refl. cbn [assert_ bind].
  set (L := flat_map (fun i => map (fun j => (i, j)) (zrange 0 (d_cols D))) (zrange 0 (zlen rows))).
  assert (HL : forall p, In p L -> 0 <= fst p < zlen rows /\ 0 <= snd p < d_cols D).
  { intros [i j] Hp. apply in_flat_map in Hp. destruct Hp as (i' & Hi & Hp). apply in_map_iff in Hp. destruct Hp as (j' & E & Hj).
    injection E as <- <-. apply In_zrange in Hi, Hj. auto. }
  destruct (dense_scatter (fun p : Z * Z => fst p) (fun p => snd p) (fun _ p => dense_mat D (zn 0 rows (fst p)) (snd p))
    (fun out p => row <- get rows (fst p) ;; a <- d_get D row (snd p) ;; d_set out (fst p) (snd p) a) L out Ho) as (D' & E & G1 & G2 & G3 & G4).
  - intros p Hp. apply HL in Hp. lia.
  - intros p E Hp HE Hrr Hcc. apply HL in Hp. rewrite (get_ok 0) by lia. cbn [bind].
    pose proof (HR _ (zn_In 0 rows (fst p) ltac:(lia))). rewrite d_get_ok by (auto; lia). cbn [bind]. rewrite d_set_ok by (auto; lia). reflexivity.
  - exists D'. split.
    + rewrite <- E. unfold L. unfold for_. rewrite foldM_flat_map. apply foldM_ext. intros s i Hi. apply In_zrange in Hi.
      rewrite (get_ok 0) by lia. cbn [bind]. rewrite foldM_map. apply foldM_ext. intros s' j Hj. cbn [fst snd]. now rewrite (get_ok 0) by lia.
    + split; [exact G1|]. split; [congruence|]. split; [congruence|]. intros i j Hi Hj. rewrite G4 by lia.
      assert (HF : forall p, In p (filter (fun p : Z * Z => (fst p =? i) && (snd p =? j)) L) -> p = (i, j)).
      { intros [a b] Hp. apply filter_In in Hp. destruct Hp as (_ & Hp). cbn in Hp. f_equal; lia. }
      assert (Hin : In (i, j) (filter (fun p : Z * Z => (fst p =? i) && (snd p =? j)) L)).
      { apply filter_In. cbn. rewrite !Z.eqb_refl. split; [|reflexivity]. apply in_flat_map. exists i. split; [now apply In_zrange|].
        apply in_map_iff. exists j. split; [reflexivity|now apply In_zrange]. }
      destruct (filter (fun p : Z * Z => (fst p =? i) && (snd p =? j)) L) as [|q l]; [destruct Hin|].
      cbn [fold_left]. rewrite (HF q) by (left; reflexivity). cbn [fst snd]. clear Hin. assert (HF' : forall p, In p l -> p = (i, j)) by (intros; apply HF; now right).
      clear HF. induction l as [|q' l IH]; [reflexivity|]. cbn [fold_left]. rewrite (HF' q') by (left; reflexivity). cbn [fst snd].
      apply IH. intros; apply HF'; now right.
Qed.

Definition in_window (si sj ei ej a b : Z) : bool := (si <=? a) && (a <? ei) && ((sj <=? b) && (b <? ej)).

Lemma d_set_sub_gives D si sj ei ej B : dense_ok D -> dense_ok B ->
  0 <= si < d_rows D -> 0 <= sj < d_cols D -> si <= ei <= d_rows D -> sj <= ej <= d_cols D ->
  ei - si <= d_rows B -> ej - sj <= d_cols B ->
  d_gives (d_set_sub D si sj ei ej B) (d_rows D) (d_cols D)
    (fun a b => if in_window si sj ei ej a b then dense_mat B (a - si) (b - sj) else dense_mat D a b).
Proof.
  intros H HB H1 H2 H3 H4 H5 H6. unfold d_set_sub. rewrite window_ok_true by auto. cbn [assert_ bind].
  destruct (dense_window (fun _ p => dense_mat B (fst p) (snd p)) (fun i j D => a <- d_get B i j ;; d_set D (i + si) (j + sj) a)
     (ei - si) (ej - sj) si sj D H) as (D' & E & G1 & G2 & G3 & G4); try lia.
  - intros i j F Hi Hj HF HFr HFc. rewrite d_get_ok by (auto; lia). cbn [bind]. rewrite d_set_ok by (auto; lia). reflexivity.
  - exists D'. split; [exact E|]. repeat (split; [assumption|]). intros a b Ha Hb. rewrite G4 by auto. unfold in_window.
    replace (si + (ei - si)) with ei by lia. replace (sj + (ej - sj)) with ej by lia. reflexivity.
Qed.

Lemma d_set_sub_T_gives D si sj ei ej B : dense_ok D -> dense_ok B ->
  0 <= si < d_rows D -> 0 <= sj < d_cols D -> si <= ei <= d_rows D -> sj <= ej <= d_cols D ->
  ei - si <= d_cols B -> ej - sj <= d_rows B ->
  d_gives (d_set_sub_T D si sj ei ej B) (d_rows D) (d_cols D)
    (fun a b => if in_window si sj ei ej a b then dense_mat B (b - sj) (a - si) else dense_mat D a b).
Proof.
  intros H HB H1 H2 H3 H4 H5 H6. unfold d_set_sub_T. rewrite window_ok_true by auto. cbn [assert_ bind].
  destruct (dense_window (fun _ p => dense_mat B (snd p) (fst p)) (fun i j D => a <- d_get B j i ;; d_set D (i + si) (j + sj) a)
     (ei - si) (ej - sj) si sj D H) as (D' & E & G1 & G2 & G3 & G4); try lia.
  - intros i j F Hi Hj HF HFr HFc. rewrite d_get_ok by (auto; lia). cbn [bind]. rewrite d_set_ok by (auto; lia). reflexivity.
  - exists D'. split; [exact E|]. repeat (split; [assumption|]). intros a b Ha Hb. rewrite G4 by auto. unfold in_window.
    replace (si + (ei - si)) with ei by lia. replace (sj + (ej - sj)) with ej by lia. reflexivity.
Qed.

Lemma d_set_get_sub D si sj ei ej B out D' : dense_ok D -> dense_ok B ->
  0 <= si < d_rows D -> 0 <= sj < d_cols D -> si <= ei <= d_rows D -> sj <= ej <= d_cols D ->
  ei - si = d_rows B -> ej - sj = d_cols B ->
  d_set_sub D si sj ei ej B = Ok D' -> d_get_sub D' si sj ei ej out = Ok B.
Proof.
  intros H HB H1 H2 H3 H4 H5 H6 E.
  destruct (d_set_sub_gives D si sj ei ej B H HB H1 H2 H3 H4 ltac:(lia) ltac:(lia)) as (D2 & E2 & G1 & G2 & G3 & G4).
  rewrite E in E2. injection E2 as <-.
  destruct (d_get_sub_gives D' si sj ei ej out G1) as (C & EC & K1 & K2 & K3 & K4); try lia.
  rewrite EC. f_equal. apply d_ext; auto; try lia. rewrite K2, K3. intros i j Hi Hj. rewrite K4 by lia. rewrite G4 by lia.
  unfold in_window. destruct (Z.leb_spec si (i + si)), (Z.ltb_spec (i + si) ei), (Z.leb_spec sj (j + sj)), (Z.ltb_spec (j + sj) ej); try lia.
  cbn. f_equal; lia.
Qed.

(** AddSubMatrix: every entry receives, in loop order, the values addressed to it. *)
Lemma d_add_sub_exact D rows cols B : dense_ok D -> dense_ok B -> zlen rows = d_rows B -> zlen cols = d_cols B ->
  (forall r, In r rows -> 0 <= r < d_rows D) -> (forall c, In c cols -> 0 <= c < d_cols D) ->
  d_gives (d_add_sub D rows cols B) (d_rows D) (d_cols D)
    (fun a b => fold_left sadd
       (map (fun p => dense_mat B (fst p) (snd p))
          (filter (fun p => (zn 0 rows (fst p) =? a) && (zn 0 cols (snd p) =? b)) (pairs (d_rows B) (d_cols B))))
       (dense_mat D a b)).
Proof.
  intros H HB Hr Hc HR HC. unfold d_add_sub. rewrite Hr, Hc, !Z.eqb_refl. cbn [assert_ bind].
  rewrite (for_pairs (d_rows B) (d_cols B) D (fun i j D => r <- get rows i ;; c <- get cols j ;; b <- d_get B i j ;; d_mod D r c (fun a => sadd a b))).
  destruct (dense_scatter (fun p : Z * Z => zn 0 rows (fst p)) (fun p => zn 0 cols (snd p)) (fun a p => sadd a (dense_mat B (fst p) (snd p)))
    (fun D p => r <- get rows (fst p) ;; c <- get cols (snd p) ;; b <- d_get B (fst p) (snd p) ;; d_mod D r c (fun a => sadd a b))
    (pairs (d_rows B) (d_cols B)) D H) as (D' & E & G1 & G2 & G3 & G4).
  - intros [i j] Hp. apply In_pairs in Hp. cbn. split; [apply HR, zn_In|apply HC, zn_In]; lia.
  - intros [i j] F Hp HF HFr HFc. apply In_pairs in Hp. cbn [fst snd]. rewrite !(get_ok 0) by lia. cbn [bind].
    rewrite d_get_ok by tauto. cbn [bind]. rewrite d_mod_ok; [reflexivity|exact HF| |].
    + rewrite HFr. apply HR, zn_In. lia.
    + rewrite HFc. apply HC, zn_In. lia.
  - exists D'. split; [exact E|]. repeat (split; [assumption|]). intros a b Ha Hb. rewrite G4 by auto. rewrite fold_left_map. reflexivity.
Qed.

(** ** Arithmetic *)

Lemma d_zip_gives op D E : dense_ok D -> dense_ok E -> d_rows D = d_rows E -> d_cols D = d_cols E ->
  d_gives (d_zip op D E) (d_rows D) (d_cols D) (fun i j => op (dense_mat D i j) (dense_mat E i j)).
Proof.
  intros H HE Hr Hc. pose proof H as (H1 & H2 & H3). pose proof HE as (H4 & H5 & H6).
  unfold d_zip. rewrite Hr, Hc, !Z.eqb_refl. cbn [assert_ bind]. rewrite <- Hr, <- Hc.
  destruct (scatter s0 (fun i : Z => i) (fun a i => op a (zn s0 (d_data E) i))
    (fun data i => a <- get data i ;; b <- get (d_data E) i ;; set data i (op a b)) (zrange 0 (d_rows D * d_cols D)) (d_data D)) as (y & Ey & Hl & Hy).
  - intros i Hi. apply In_zrange in Hi. lia.
  - intros i o Hi Hlo. apply In_zrange in Hi. rewrite (get_ok s0) by lia. cbn [bind]. rewrite (get_ok s0) by (rewrite H6, <- Hr, <- Hc; lia). cbn [bind].
    now rewrite set_ok by lia.
  - unfold for_. rewrite Ey. cbn [bind]. exists (Dense (d_rows D) (d_cols D) y). split; [reflexivity|].
    split; [repeat split; cbn; lia|]. split; [reflexivity|]. split; [reflexivity|]. intros i j Hi Hj.
    unfold dense_mat. cbn [d_rows d_data]. pose proof (flat_bound D i j H Hi Hj) as Hb. rewrite Hy by exact Hb.
    rewrite filter_zrange_eq. rewrite rng_true by lia.
    cbn. now rewrite Hr.
Qed.

Lemma d_map_gives (f : T -> T) D : dense_ok D ->
  d_gives (Ok (Dense (d_rows D) (d_cols D) (map f (d_data D)))) (d_rows D) (d_cols D) (fun i j => f (dense_mat D i j)).
Proof.
  intros H. pose proof H as (H1 & H2 & H3). eexists. split; [reflexivity|]. split; [repeat split; cbn; rewrite ?zlen_map; lia|].
  split; [reflexivity|]. split; [reflexivity|]. intros i j Hi Hj. unfold dense_mat. cbn [d_data d_rows].
  apply zn_map. now apply flat_bound.
Qed.

Lemma d_div_gives D v : dense_ok D -> seqb v s0 = false ->
  d_gives (d_div D v) (d_rows D) (d_cols D) (fun i j => sdiv (dense_mat D i j) v).
Proof. intros H Hv. unfold d_div. rewrite Hv. cbn. now apply (d_map_gives (fun a => sdiv a v)). Qed.

Lemma d_scale_rows_gives D w : dense_ok D -> zlen w = d_rows D ->
  d_gives (d_scale_rows D w) (d_rows D) (d_cols D) (fun i j => smul (dense_mat D i j) (zn s0 w i)).
Proof.
  intros H Hw. unfold d_scale_rows, d_for_all.
  destruct (dense_all (fun a p => smul a (zn s0 w (fst p))) (fun i j D => s <- get w i ;; d_mod D i j (fun a => smul a s)) D H) as (D' & E & G).
  - intros i j F Hi Hj HF HFr HFc. rewrite (get_ok s0) by lia. cbn [bind]. rewrite d_mod_ok by (auto; lia). reflexivity.
  - exists D'. split; [exact E|]. exact G.
Qed.

Lemma d_scale_cols_gives D w : dense_ok D -> zlen w = d_cols D ->
  d_gives (d_scale_cols D w) (d_rows D) (d_cols D) (fun i j => smul (dense_mat D i j) (zn s0 w j)).
Proof.
  intros H Hw. unfold d_scale_cols.
  destruct (dense_all (fun a p => smul a (zn s0 w (snd p))) (fun i j D => s <- get w j ;; d_mod D i j (fun a => smul a s)) D H) as (D' & E & G).
  - intros i j F Hi Hj HF HFr HFc. rewrite (get_ok s0) by lia. cbn [bind]. rewrite d_mod_ok by (auto; lia). reflexivity.
  - exists D'. split; [|exact G]. rewrite <- E. apply for_ext. intros j F Hj. rewrite (get_ok s0) by lia. reflexivity.
Qed.

Lemma d_inv_scale_rows_gives D w : dense_ok D -> zlen w = d_rows D ->
  (forall i, 0 <= i < d_rows D -> seqb (zn s0 w i) s0 = false) ->
  d_gives (d_inv_scale_rows D w) (d_rows D) (d_cols D) (fun i j => sdiv (dense_mat D i j) (zn s0 w i)).
Proof.
  intros H Hw Hz. unfold d_inv_scale_rows, d_for_all.
  destruct (dense_all (fun a p => sdiv a (zn s0 w (fst p)))
    (fun i j D => s <- get w i ;; assert_ (negb (seqb s s0)) ;;; d_mod D i j (fun a => sdiv a s)) D H) as (D' & E & G).
  - intros i j F Hi Hj HF HFr HFc. rewrite (get_ok s0) by lia. cbn [bind]. rewrite Hz by lia. cbn [negb assert_ bind]. rewrite d_mod_ok by (auto; lia). reflexivity.
  - exists D'. split; [exact E|]. exact G.
Qed.

Lemma d_inv_scale_cols_gives D w : dense_ok D -> zlen w = d_cols D ->
  (forall j, 0 <= j < d_cols D -> seqb (zn s0 w j) s0 = false) ->
  d_gives (d_inv_scale_cols D w) (d_rows D) (d_cols D) (fun i j => sdiv (dense_mat D i j) (zn s0 w j)).
Proof.
  intros H Hw Hz. unfold d_inv_scale_cols.
  destruct (dense_all (fun a p => sdiv a (zn s0 w (snd p)))
    (fun i j D => s <- get w j ;; assert_ (negb (seqb s s0)) ;;; d_mod D i j (fun a => sdiv a s)) D H) as (D' & E & G).
  - intros i j F Hi Hj HF HFr HFc. rewrite (get_ok s0) by lia. cbn [bind]. rewrite Hz by lia. cbn [negb assert_ bind]. rewrite d_mod_ok by (auto; lia). reflexivity.
  - exists D'. split; [|exact G]. rewrite <- E. apply for_ext. intros j F Hj. rewrite (get_ok s0) by lia. cbn [bind]. rewrite Hz by lia. reflexivity.
Qed.

(** A zero factor of an existing row or column stops InverseScale in a debug build. *)

(** ** GetDiag *)

Lemma d_get_diag_exact D : dense_ok D -> d_rows D = d_cols D ->
  d_get_diag D = Ok (map (fun i => dense_mat D i i) (zrange 0 (d_rows D))).
Proof.
  intros H E. pose proof H as (H1 & _). unfold d_get_diag. rewrite E, Z.eqb_refl. cbn [assert_ bind]. rewrite <- E.
  rewrite vec_ok by lia. cbn [bind]. apply (for_fill s0 (fun i => dense_mat D i i)); [rewrite zlen_repeat; lia|].
  intros i o Hi. apply d_get_ok; auto; lia.
Qed.

(** ** Sum, Max, Min *)

Lemma flat_elements D x : dense_ok D ->
  In x (d_data D) <-> exists i j, 0 <= i < d_rows D /\ 0 <= j < d_cols D /\ x = dense_mat D i j.
Proof.
  intros H. pose proof H as (H1 & H2 & H3). split.
  - intros Hx. destruct (In_zn s0 _ _ Hx) as (q & Hq & <-). rewrite H3 in Hq. assert (Hr : 0 < d_rows D) by nia.
    exists (q mod d_rows D), (q / d_rows D). pose proof (Z.mod_pos_bound q (d_rows D) Hr).
    pose proof (Z.div_mod q (d_rows D) ltac:(lia)) as Hdm.
    split; [lia|]. split; [split; [apply Z.div_pos; lia|apply Z.div_lt_upper_bound; lia]|].
    unfold dense_mat. f_equal. lia.
  - intros (i & j & Hi & Hj & ->). apply zn_In. now apply flat_bound.
Qed.

Section Order.
Hypothesis O : order_laws S.

Lemma sle_refl' (a : T) : sle a a.
Proof. apply (slt_irrefl _ O). Qed.

Lemma sle_trans' (u v w : T) : sle u v -> sle v w -> sle u w.
Proof.
  unfold sle. intros K1 K2. destruct (slt w u) eqn:K; [|reflexivity]. exfalso. destruct (slt v w) eqn:K3.
  - rewrite (slt_trans _ O v w u K3 K) in K1. discriminate.
  - rewrite <- (slt_total _ O v w K3 K2) in K. congruence.
Qed.

Lemma slt_sle (a b : T) : slt a b = true -> sle a b.
Proof.
  intros H. unfold sle. destruct (slt b a) eqn:K; [|reflexivity].
  pose proof (slt_trans _ O a b a H K) as K3. now rewrite (slt_irrefl _ O) in K3.
Qed.

Lemma max_element_spec (l : list T) : l <> [] ->
  exists m, max_element l = Ok m /\ In m l /\ forall x, In x l -> sle x m.
Proof.
  destruct l as [|a l]; [congruence|]. intros _. cbn. eexists. split; [reflexivity|].
  revert a. induction l as [|b l IH]; intros a; cbn [fold_left].
  - split; [now left|]. intros x [->|[]]. apply sle_refl'.
  - destruct (slt a b) eqn:K; [destruct (IH b) as (H1 & H2)|destruct (IH a) as (H1 & H2)].
    + split; [right; exact H1|]. intros x [->|Hx]; [|now apply H2]. apply (sle_trans' x b); [now apply slt_sle|apply H2; now left].
    + split; [destruct H1 as [H1|H1]; [left; exact H1|right; right; exact H1]|].
      intros x [->|[->|Hx]]; [apply H2; now left| |apply H2; now right]. apply (sle_trans' x a); [exact K|apply H2; now left].
Qed.

Lemma min_element_spec (l : list T) : l <> [] ->
  exists m, min_element l = Ok m /\ In m l /\ forall x, In x l -> sle m x.
Proof.
  destruct l as [|a l]; [congruence|]. intros _. cbn. eexists. split; [reflexivity|].
  revert a. induction l as [|b l IH]; intros a; cbn [fold_left].
  - split; [now left|]. intros x [->|[]]. apply sle_refl'.
  - destruct (slt b a) eqn:K; [destruct (IH b) as (H1 & H2)|destruct (IH a) as (H1 & H2)].
    + split; [right; exact H1|]. intros x [->|Hx]; [|now apply H2]. apply (sle_trans' _ b); [apply H2; now left|now apply slt_sle].
    + split; [destruct H1 as [H1|H1]; [left; exact H1|right; right; exact H1]|].
      intros x [->|[->|Hx]]; [apply H2; now left| |apply H2; now right]. apply (sle_trans' _ a); [apply H2; now left|exact K].
Qed.

Lemma d_max_spec D : dense_ok D -> 0 < d_rows D -> 0 < d_cols D ->
  exists m, d_max D = Ok m /\
    (exists i j, 0 <= i < d_rows D /\ 0 <= j < d_cols D /\ m = dense_mat D i j) /\
    forall i j, 0 <= i < d_rows D -> 0 <= j < d_cols D -> sle (dense_mat D i j) m.
Proof.
  intros H Hr Hc. pose proof H as (_ & _ & Hl). unfold d_max. destruct (Z.eqb_spec (zlen (d_data D)) 0); [nia|]. cbn [negb assert_ bind].
  destruct (max_element_spec (d_data D)) as (m & E & H1 & H2); [intros E; rewrite E, zlen_nil in *; lia|].
  exists m. split; [exact E|]. split; [now apply flat_elements|]. intros i j Hi Hj. apply H2, flat_elements; eauto.
Qed.

Lemma d_min_spec D : dense_ok D -> 0 < d_rows D -> 0 < d_cols D ->
  exists m, d_min D = Ok m /\
    (exists i j, 0 <= i < d_rows D /\ 0 <= j < d_cols D /\ m = dense_mat D i j) /\
    forall i j, 0 <= i < d_rows D -> 0 <= j < d_cols D -> sle m (dense_mat D i j).
Proof.
  intros H Hr Hc. pose proof H as (_ & _ & Hl). unfold d_min. destruct (Z.eqb_spec (zlen (d_data D)) 0); [nia|]. cbn [negb assert_ bind].
  destruct (min_element_spec (d_data D)) as (m & E & H1 & H2); [intros E; rewrite E, zlen_nil in *; lia|].
  exists m. split; [exact E|]. split; [now apply flat_elements|]. intros i j Hi Hj. apply H2, flat_elements; eauto.
Qed.

End Order.

Lemma d_sum_spec (R : ring_laws S) D : dense_ok D -> 0 < d_rows D -> 0 < d_cols D ->
  d_sum D = Ok (sum_range 0 (d_cols D) (fun j => sum_range 0 (d_rows D) (fun i => dense_mat D i j))).
Proof.
  intros H Hr Hc. pose proof H as (_ & _ & Hl). unfold d_sum. destruct (Z.eqb_spec (zlen (d_data D)) 0); [nia|]. cbn [negb assert_ bind].
  f_equal. rewrite (fold_left_sum R), (sadd_0_l R). rewrite <- (map_zn_zrange s0 (d_data D)) at 1. rewrite Hl. unfold dense_mat.
  generalize (zn s0 (d_data D)). intros f. assert (Hc' : 0 <= d_cols D) by lia. clear - R Hr Hc'. revert Hc'. generalize (d_cols D). intros n Hn.
  revert n Hn. apply (Zlt_lower_bound_ind (fun n => _) 0). intros n IH Hn. change (sum_list (map f (zrange 0 (d_rows D * n)))) with (sum_range 0 (d_rows D * n) f).
  destruct (Z.eq_dec n 0) as [->|]; [rewrite Z.mul_0_r, !(sum_range_empty) by lia; reflexivity|].
  replace n with (n - 1 + 1) at 2 by lia. rewrite (sum_range_last R) by lia. rewrite <- IH by lia.
  rewrite (sum_range_split R 0 (d_rows D * (n - 1)) (d_rows D * n)) by nia. unfold sum_range at 1. f_equal.
  replace (d_rows D * n) with (d_rows D + (n - 1) * d_rows D) by lia. replace (d_rows D * (n - 1)) with (0 + (n - 1) * d_rows D) by lia.
  now rewrite sum_range_shift.
Qed.

(** ** HStack *)

Lemma sum_cols_app (l1 l2 : list (dense S)) : sum_cols (l1 ++ l2) = sum_cols l1 + sum_cols l2.
Proof.
  assert (G : forall (l : list (dense S)) a, fold_left (fun s D => s + d_cols D) l a = a + sum_cols l).
  { unfold sum_cols. induction l as [|D l IH]; intros a; cbn; [lia|]. rewrite IH. rewrite (IH (d_cols D)). lia. }
  unfold sum_cols at 1. rewrite fold_left_app, G. reflexivity.
Qed.

Lemma sum_cols_cons (D : dense S) l : sum_cols (D :: l) = d_cols D + sum_cols l.
Proof. change (D :: l) with ([D] ++ l). rewrite sum_cols_app. reflexivity. Qed.

Lemma sum_cols_nonneg (l : list (dense S)) : Forall dense_ok l -> 0 <= sum_cols l.
Proof.
  induction 1 as [|D l (_ & H & _) _ IH]; [cbn; lia|]. rewrite sum_cols_cons. lia.
Qed.

Lemma d_hstack_spec l out rows : l <> [] -> Forall dense_ok l -> Forall (fun D => d_rows D = rows) l ->
  (0 < rows \/ sum_cols l = 0) ->
  exists R, d_hstack l out = Ok R /\ dense_ok R /\ d_rows R = rows /\ d_cols R = sum_cols l /\
    forall pre D post, l = pre ++ D :: post ->
    forall i j, 0 <= i < rows -> 0 <= j < d_cols D -> dense_mat R i (sum_cols pre + j) = dense_mat D i j.
Proof.
  intros Hne Hok Hrows Hpos. destruct l as [|D0 l0]; [congruence|]. cbn [d_hstack].
  remember (D0 :: l0) as l eqn:El.
  assert (HD0 : d_rows D0 = rows) by (rewrite El in Hrows; now apply Forall_inv in Hrows). rewrite HD0.
  assert (Hr0 : 0 <= rows). { rewrite El in Hok. apply Forall_inv in Hok. destruct Hok. lia. }
  assert (Easr : foldM (fun (_ : unit) D => assert_ (d_rows D =? rows)) l tt = Ok tt).
  { clear - Hrows. induction Hrows as [|D l H _ IH]; [reflexivity|]. cbn. rewrite H, Z.eqb_refl. cbn. exact IH. }
  rewrite Easr. cbn [bind].
  destruct (d_set_size_ok out rows (sum_cols l) Hr0 (sum_cols_nonneg l Hok)) as (E & -> & HE & HEr & HEc & _). cbn [bind].
  match goal with |- context [foldM ?f l (E, 0)] => set (stp := f) end.
  enough (HF : returns (foldM stp l (E, 0)) (fun st => dense_ok (fst st) /\ d_rows (fst st) = rows /\ d_cols (fst st) = sum_cols l /\
     forall pre D post, l = pre ++ D :: post -> forall i j, 0 <= i < rows -> 0 <= j < d_cols D -> dense_mat (fst st) i (sum_cols pre + j) = dense_mat D i j)).
  { destruct (foldM stp l (E, 0)) as [[R c]|] eqn:EF; [|destruct HF]. cbn [bind fst]. exists R. split; [reflexivity|]. exact HF. }
  apply (returns_foldM (fun done st => dense_ok (fst st) /\ d_rows (fst st) = rows /\ d_cols (fst st) = sum_cols l /\ snd st = sum_cols done /\
     forall pre D post, done = pre ++ D :: post -> forall i j, 0 <= i < rows -> 0 <= j < d_cols D -> dense_mat (fst st) i (sum_cols pre + j) = dense_mat D i j)).
  - cbn [fst snd]. repeat (split; [first [assumption|reflexivity]|]). intros pre D post Ep. destruct pre; discriminate.
  - intros done D post [F c] Esp (G1 & G2 & G3 & G4 & G5). cbn [fst snd] in *. subst c. unfold stp.
    assert (HDok : dense_ok D) by (rewrite Forall_forall in Hok; apply Hok; rewrite Esp; apply in_elt).
    assert (HDr : d_rows D = rows) by (rewrite Forall_forall in Hrows; apply Hrows; rewrite Esp; apply in_elt).
    assert (Hsum : sum_cols l = sum_cols done + d_cols D + sum_cols post) by (rewrite Esp, sum_cols_app, sum_cols_cons; lia).
    assert (Hpost : 0 <= sum_cols post) by (apply sum_cols_nonneg; rewrite Esp in Hok; apply Forall_app in Hok; destruct Hok as (_ & Hok); now inversion Hok).
    assert (Hdone : 0 <= sum_cols done) by (apply sum_cols_nonneg; rewrite Esp in Hok; apply Forall_app in Hok; tauto).
    destruct HDok as (K1 & K2 & K3). assert (HDok : dense_ok D) by (repeat split; assumption).
    assert (Hlt : forall pre D' post' j, done = pre ++ D' :: post' -> j < d_cols D' -> 0 <= sum_cols post' -> sum_cols pre + j < sum_cols done).
    { intros pre D' post' j Ed Hj Hp. rewrite Ed, sum_cols_app, sum_cols_cons. lia. }
    assert (Hpp : forall pre D' post', done = pre ++ D' :: post' -> 0 <= sum_cols post' /\ 0 <= sum_cols pre).
    { intros pre D' post' Ed. rewrite Esp, Ed in Hok. rewrite !Forall_app in Hok. destruct Hok as ((Q1 & Q2) & _).
      split; apply sum_cols_nonneg; [now inversion Q2|assumption]. }
    destruct (Z.ltb_spec 0 (d_cols D)) as [Hc|Hc].
    + assert (Hr : 0 < rows) by lia. unfold d_set_cols.
      destruct (d_set_sub_gives F 0 (sum_cols done) (d_rows F) (sum_cols done + d_cols D) D G1 HDok) as (F' & EF & L1 & L2 & L3 & L4); try lia.
      rewrite EF. cbn [bind returns fst snd]. split; [exact L1|]. split; [lia|]. split; [lia|].
      split; [rewrite sum_cols_app, sum_cols_cons; change (sum_cols (@nil (dense S))) with 0; lia|].
      intros pre D' post' Ed i j Hi Hj. destruct post' as [|P post' _] using rev_ind.
      * apply app_inj_tail in Ed. destruct Ed as (<- & <-). rewrite L4 by lia. unfold in_window.
        destruct (Z.leb_spec 0 i), (Z.ltb_spec i (d_rows F)), (Z.leb_spec (sum_cols done) (sum_cols done + j)), (Z.ltb_spec (sum_cols done + j) (sum_cols done + d_cols D)); try lia.
        cbn. f_equal; lia.
      * rewrite app_comm_cons, app_assoc in Ed. apply app_inj_tail in Ed. destruct Ed as (Ed & <-).
        pose proof (Hpp pre D' post' Ed) as (P1 & P2). pose proof (Hlt pre D' post' j Ed ltac:(lia) P1) as Hltj.
        rewrite L4 by lia. unfold in_window.
        destruct (Z.leb_spec (sum_cols done) (sum_cols pre + j)); [lia|]. cbn. rewrite andb_false_r. now apply (G5 pre D' post').
    + cbn [returns fst snd]. repeat (split; [assumption|]). split; [rewrite sum_cols_app, sum_cols_cons; change (sum_cols (@nil (dense S))) with 0; lia|].
      intros pre D' post' Ed i j Hi Hj. destruct post' as [|P post' _] using rev_ind.
      * apply app_inj_tail in Ed. destruct Ed as (<- & <-). lia.
      * rewrite app_comm_cons, app_assoc in Ed. apply app_inj_tail in Ed. destruct Ed as (Ed & <-). now apply (G5 pre D' post').
  - intros [F c]. cbn. tauto.
Qed.

(** ** Dense products (dgemm contract) *)

Lemma d_dgemm_spec (A B : dense S) (ta tb : bool) : dense_ok A -> dense_ok B -> 0 < d_rows A -> 0 < d_rows B ->
  (if ta then d_rows A else d_cols A) = (if tb then d_cols B else d_rows B) ->
  0 < (if ta then d_cols A else d_rows A) ->
  d_gives (d_dgemm A B ta tb) (if ta then d_cols A else d_rows A) (if tb then d_rows B else d_cols B)
    (mat_mul (if ta then mat_T (dense_mat A) else dense_mat A) (if tb then mat_T (dense_mat B) else dense_mat B)
       (if ta then d_rows A else d_cols A)).
Proof.
  intros (A1 & A2 & A3) (B1 & B2 & B3) HA HB Hk Hm. unfold d_dgemm, dgemm_.
  set (m := if ta then d_cols A else d_rows A) in *. set (n := if tb then d_rows B else d_cols B).
  set (k := if ta then d_rows A else d_cols A) in *.
  assert (Hn : 0 <= n) by (unfold n; destruct tb; lia).
  assert (E1 : (d_rows A <? Z.max 1 (if ta then k else m)) = false) by (apply Z.ltb_ge; unfold k, m; destruct ta; lia).
  assert (E2 : (d_rows B <? Z.max 1 (if tb then n else k)) = false).
  { apply Z.ltb_ge. unfold n. destruct tb; [lia|]. rewrite Hk. lia. }
  assert (E3 : (m <? Z.max 1 m) = false) by (apply Z.ltb_ge; lia).
  rewrite E1, E2, E3. cbn [orb bind]. eexists. split; [reflexivity|].
  split; [repeat split; cbn; [lia|lia|rewrite zlen_map_zrange; nia]|]. split; [reflexivity|]. split; [reflexivity|].
  intros i j Hi Hj. unfold dense_mat at 1. cbn [d_rows d_data]. rewrite zn_map_zrange by nia.
  replace ((i + j * m) mod m) with i by (rewrite Z.mod_add by lia; symmetry; apply Z.mod_small; lia).
  replace ((i + j * m) / m) with j by (rewrite Z.div_add by lia; rewrite Z.div_small by lia; lia).
  unfold mat_mul. apply sum_range_ext. intros l Hl. f_equal.
  - destruct ta; unfold mat_T, dense_mat; reflexivity.
  - destruct tb; unfold mat_T, dense_mat; reflexivity.
Qed.

End Dense.
