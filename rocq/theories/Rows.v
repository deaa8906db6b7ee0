(** The CSR arrays of a matrix given row by row.  Proof device only: theorem
    statements speak about [csr_valid], [entries] and [csr_mat]. *)

From Coq Require Import ZArith List Lia Bool Permutation.
From Verif Require Import Base Scalar Spec Dense Sparse LoopFacts CsrFacts.
Import ListNotations.
Open Scope Z_scope.

Section Segments.
Context {X : Type}.
Implicit Types (f : Z -> list X).

(** All rows below i, concatenated, and their total length. *)
Definition cat f (i : Z) : list X := flat_map f (zrange 0 i).
Definition off f (i : Z) : Z := zlen (cat f i).

Lemma cat_0 f : cat f 0 = [].
Proof. reflexivity. Qed.

Lemma cat_succ f i : 0 <= i -> cat f (i + 1) = cat f i ++ f i.
Proof.
  intros H. unfold cat. rewrite (zrange_snoc 0) by lia. replace (i + 1 - 1) with i by lia.
  rewrite flat_map_app. cbn. now rewrite app_nil_r.
Qed.

Lemma off_0 f : off f 0 = 0.
Proof. reflexivity. Qed.

Lemma off_succ f i : 0 <= i -> off f (i + 1) = off f i + zlen (f i).
Proof. intros H. unfold off. rewrite cat_succ by exact H. apply zlen_app. Qed.

Lemma off_nonneg f i : 0 <= off f i.
Proof. apply zlen_nonneg. Qed.

Lemma off_mono f i j : 0 <= i <= j -> off f i <= off f j.
Proof.
  intros H. assert (E : exists n, j = i + Z.of_nat n) by (exists (Z.to_nat (j - i)); lia).
  destruct E as (n & ->). induction n; [rewrite Z.add_0_r; lia|].
  replace (i + Z.of_nat (S n)) with (i + Z.of_nat n + 1) by lia.
  rewrite off_succ by lia. pose proof (zlen_nonneg (f (i + Z.of_nat n))). lia.
Qed.

Lemma cat_app f i j : 0 <= i <= j -> cat f j = cat f i ++ flat_map f (zrange i j).
Proof. intros H. unfold cat. rewrite (zrange_app 0 i j) by lia. apply flat_map_app. Qed.

(** Reading the concatenation inside row i. *)
Lemma zn_cat d f n i t : 0 <= i < n -> 0 <= t < zlen (f i) -> zn d (cat f n) (off f i + t) = zn d (f i) t.
Proof.
  intros Hi Ht. rewrite (cat_app f (i + 1) n), cat_succ by lia.
  pose proof (off_nonneg f i).
  rewrite zn_app_l by (rewrite zlen_app; fold (off f i); lia).
  rewrite zn_app_r by (fold (off f i); lia). fold (off f i). f_equal. lia.
Qed.

Lemma segment d f n i : 0 <= i < n -> map (zn d (cat f n)) (zrange (off f i) (off f (i + 1))) = f i.
Proof.
  intros Hi. rewrite off_succ by lia. apply (list_ext d).
  - pose proof (zlen_nonneg (f i)). rewrite zlen_map, zlen_zrange by lia. lia.
  - intros t Ht. pose proof (zlen_nonneg (f i)). rewrite zlen_map, zlen_zrange in Ht by lia.
    rewrite (zn_map 0) by (rewrite zlen_zrange by lia; lia). rewrite zn_zrange by lia.
    apply zn_cat; lia.
Qed.

(** Which row a position belongs to. *)
Lemma off_find f n k : 0 <= k < off f n -> 0 <= n ->
  exists i t, 0 <= i < n /\ 0 <= t < zlen (f i) /\ k = off f i + t.
Proof.
  intros Hk Hn. assert (E : exists m, n = Z.of_nat m) by (exists (Z.to_nat n); lia).
  destruct E as (m & ->). clear Hn. induction m.
  - change (off f (Z.of_nat 0)) with 0 in Hk. lia.
  - replace (Z.of_nat (S m)) with (Z.of_nat m + 1) in * by lia.
    destruct (Z_lt_le_dec k (off f (Z.of_nat m))).
    + destruct IHm as (i & t & Hi & Ht & E); [lia|]. exists i, t. repeat split; lia.
    + exists (Z.of_nat m), (k - off f (Z.of_nat m)). rewrite off_succ in Hk by lia.
      repeat split; lia.
Qed.

Lemma cat_ext_zn d f n L : 0 <= n -> zlen L = off f n ->
  (forall i t, 0 <= i < n -> 0 <= t < zlen (f i) -> zn d L (off f i + t) = zn d (f i) t) ->
  L = cat f n.
Proof.
  intros Hn Hl H. apply (list_ext d); [exact Hl|]. intros k Hk. rewrite Hl in Hk.
  destruct (off_find f n k Hk Hn) as (i & t & Hi & Ht & ->).
  rewrite H by auto. symmetry. now apply zn_cat.
Qed.

Lemma cat_ext f g n : (forall i, 0 <= i < n -> f i = g i) -> cat f n = cat g n.
Proof. intros H. apply flat_map_ext_in. intros i Hi. apply H, In_zrange, Hi. Qed.

Lemma off_ext f g n : (forall i, 0 <= i < n -> zlen (f i) = zlen (g i)) -> off f n = off g n.
Proof.
  intros H. destruct (Z_lt_le_dec n 0).
  - unfold off, cat. now rewrite zrange_empty by lia.
  - assert (E : exists m, n = Z.of_nat m) by (exists (Z.to_nat n); lia).
    destruct E as (m & ->). clear l. induction m; [reflexivity|].
    replace (Z.of_nat (S m)) with (Z.of_nat m + 1) in * by lia.
    rewrite !off_succ by lia. rewrite IHm by (intros; apply H; lia). rewrite H by lia. reflexivity.
Qed.

End Segments.

Lemma map_cat {X Y} (h : X -> Y) (f : Z -> list X) n : map h (cat f n) = cat (fun i => map h (f i)) n.
Proof. apply map_flat_map. Qed.

Lemma off_map {X Y} (h : X -> Y) (f : Z -> list X) n : off (fun i => map h (f i)) n = off f n.
Proof. unfold off. rewrite <- map_cat. apply zlen_map. Qed.

Section Rows.
Context {S : scalar}.
Notation T := (car S).

(** The CSR arrays whose row i holds the (column, value) pairs [f i]. *)
Definition csr_of_rows (rows cols : Z) (f : Z -> list (Z * T)) : csr S :=
  CSR rows cols (map (off f) (zrange 0 (rows + 1))) (map fst (cat f rows)) (map snd (cat f rows)).

Definition row_to_entries (i : Z) (l : list (Z * T)) : list (entry S) := map (fun p => (i, fst p, snd p)) l.

Lemma csr_of_rows_ptr rows cols f i : 0 <= i <= rows -> ptr (csr_of_rows rows cols f) i = off f i.
Proof. intros H. unfold ptr. cbn. rewrite zn_map_zrange by lia. reflexivity. Qed.

Lemma csr_of_rows_row rows cols f i :
  0 <= i < rows -> row_entries (csr_of_rows rows cols f) i = row_to_entries i (f i).
Proof.
  intros H. unfold row_entries, row_to_entries. rewrite !csr_of_rows_ptr by lia.
  rewrite <- (segment (0, s0) f rows i H). rewrite map_map. apply map_ext_in.
  intros k Hk. apply In_zrange in Hk.
  pose proof (off_nonneg f i). pose proof (off_mono f (i + 1) rows ltac:(lia)).
  unfold idx, val. cbn. rewrite !(zn_map (0, s0)) by (fold (off f rows); lia). reflexivity.
Qed.

Lemma csr_of_rows_entries rows cols f :
  entries (csr_of_rows rows cols f) = flat_map (fun i => row_to_entries i (f i)) (zrange 0 rows).
Proof.
  unfold entries. cbn [c_rows csr_of_rows]. apply flat_map_ext_in. intros i Hi.
  apply In_zrange in Hi. now apply csr_of_rows_row.
Qed.

Lemma csr_of_rows_valid rows cols f :
  0 <= rows -> 0 <= cols ->
  (forall i p, 0 <= i < rows -> In p (f i) -> 0 <= fst p < cols) ->
  csr_valid (csr_of_rows rows cols f).
Proof.
  intros Hr Hc Hi. constructor.
  - exact Hr.
  - exact Hc.
  - cbn. rewrite zlen_map_zrange by lia. reflexivity.
  - cbn. now rewrite !zlen_map.
  - rewrite csr_of_rows_ptr by lia. reflexivity.
  - intros i H. cbn in H. rewrite !csr_of_rows_ptr by lia. apply off_mono. lia.
  - cbn. rewrite csr_of_rows_ptr by lia. unfold nnz. cbn. rewrite zlen_map. reflexivity.
  - intros k Hk. cbn in Hk. rewrite zlen_map in Hk.
    unfold idx. cbn. rewrite (zn_map (0, s0)) by exact Hk.
    pose proof (zn_In (0, s0) _ _ Hk) as H. unfold cat in H. apply in_flat_map in H.
    destruct H as (i & H1 & H2). apply In_zrange in H1. eapply Hi; eauto.
Qed.

Lemma csr_of_rows_nnz rows cols f : nnz (csr_of_rows rows cols f) = off f rows.
Proof. unfold nnz. cbn. apply zlen_map. Qed.

Lemma csr_of_rows_ext rows cols f g :
  (forall i, 0 <= i < rows -> f i = g i) -> csr_of_rows rows cols f = csr_of_rows rows cols g.
Proof.
  intros H. unfold csr_of_rows. rewrite (cat_ext f g rows H). f_equal.
  apply map_ext_in. intros i Hi. apply In_zrange in Hi. apply off_ext.
  intros k Hk. rewrite H by lia. reflexivity.
Qed.

(** Every valid matrix is the CSR form of its own rows. *)
Definition row_of (A : csr S) (i : Z) : list (Z * T) :=
  map (fun k => (idx A k, val A k)) (zrange (ptr A i) (ptr A (i + 1))).

Lemma row_of_entries A i : row_to_entries i (row_of A i) = row_entries A i.
Proof. unfold row_to_entries, row_of, row_entries. now rewrite map_map. Qed.

Lemma row_of_off A i : csr_valid A -> 0 <= i <= c_rows A -> off (row_of A) i = ptr A i.
Proof.
  intros V Hi. unfold off, cat, row_of.
  rewrite <- (map_flat_map (fun k => (idx A k, val A k)) (fun i => zrange (ptr A i) (ptr A (i + 1)))).
  rewrite positions_snd_range by auto. rewrite zlen_map, zlen_zrange; [lia|].
  pose proof (ptr_bounds A i V ltac:(lia)). lia.
Qed.

Lemma csr_eta A : csr_valid A -> A = csr_of_rows (c_rows A) (c_cols A) (row_of A).
Proof.
  intros V. transitivity (CSR (c_rows A) (c_cols A) (c_ptr A) (c_idx A) (c_val A)); [destruct A; reflexivity|].
  assert (Hcat : cat (row_of A) (c_rows A) = map (fun k => (idx A k, val A k)) (zrange 0 (nnz A))).
  { unfold cat, row_of.
    rewrite <- (map_flat_map (fun k => (idx A k, val A k)) (fun i => zrange (ptr A i) (ptr A (i + 1)))).
    rewrite positions_snd_range by (auto; pose proof (cv_rows V); lia). now rewrite (cv_last V). }
  unfold csr_of_rows. f_equal.
  - rewrite <- (map_zn_zrange 0 (c_ptr A)) at 1. rewrite (cv_ptr_len V). apply map_ext_in.
    intros i Hi. apply In_zrange in Hi. symmetry. apply row_of_off; auto; lia.
  - rewrite Hcat, map_map. cbn. rewrite <- (map_zn_zrange 0 (c_idx A)) at 1. rewrite (cv_len V). reflexivity.
  - rewrite Hcat, map_map. cbn. rewrite <- (map_zn_zrange s0 (c_val A)) at 1. reflexivity.
Qed.

(** The checks of the constructor pass on such arrays. *)
Lemma max_elem_lt l c : l <> [] -> (forall x, In x l -> x < c) -> exists m, max_elem l = Ok m /\ m < c.
Proof.
  destruct l as [|a l]; [congruence|]. intros _ H. exists (fold_left Z.max l a). split; [reflexivity|].
  assert (Ha : a < c) by (apply H; left; reflexivity).
  assert (Hl : forall x, In x l -> x < c) by (intros; apply H; right; assumption). clear H.
  revert a Ha. induction l; intros b Hb; cbn; [exact Hb|].
  apply IHl; [intros; apply Hl; right; assumption|].
  pose proof (Hl a (or_introl eq_refl)). lia.
Qed.

Lemma min_elem_ge l c : l <> [] -> (forall x, In x l -> c <= x) -> exists m, min_elem l = Ok m /\ c <= m.
Proof.
  destruct l as [|a l]; [congruence|]. intros _ H. exists (fold_left Z.min l a). split; [reflexivity|].
  assert (Ha : c <= a) by (apply H; left; reflexivity).
  assert (Hl : forall x, In x l -> c <= x) by (intros; apply H; right; assumption). clear H.
  revert a Ha. induction l; intros b Hb; cbn; [exact Hb|].
  apply IHl; [intros; apply Hl; right; assumption|].
  pose proof (Hl a (or_introl eq_refl)). lia.
Qed.

Lemma sp_make_valid (A : csr S) :
  csr_valid A -> sp_make (c_ptr A) (c_idx A) (c_val A) (c_rows A) (c_cols A) = Ok A.
Proof.
  intros V. unfold sp_make. rewrite (proj2 (Z.leb_le _ _) (cv_rows V)), (proj2 (Z.leb_le _ _) (cv_cols V)). cbn [assert_ bind]. rewrite (cv_ptr_len V), (cv_len V), !Z.eqb_refl. cbn [assert_ bind].
  rewrite (get_ptr A 0 V) by (pose proof (cv_rows V); lia). cbn [bind]. rewrite (cv_first V), Z.eqb_refl. cbn [assert_ bind].
  rewrite <- (cv_len V).
  assert (E : CSR (c_rows A) (c_cols A) (c_ptr A) (c_idx A) (c_val A) = A) by (destruct A; reflexivity).
  destruct (Z.ltb_spec 0 (zlen (c_idx A))) as [Hp|Hp]; [|cbn [bind]; now rewrite E].
  assert (Hin : forall x, In x (c_idx A) -> 0 <= x < c_cols A).
  { intros x Hx. destruct (In_zn 0 _ _ Hx) as (k & Hk & <-). apply (cv_idx V k Hk). }
  assert (Hne : c_idx A <> []) by (intros H; rewrite H in Hp; unfold zlen in Hp; cbn in Hp; lia).
  destruct (max_elem_lt (c_idx A) (c_cols A) Hne) as (m & -> & Hm); [intros; apply Hin; assumption|].
  destruct (min_elem_ge (c_idx A) 0 Hne) as (m' & -> & Hm'); [intros; apply Hin; assumption|].
  cbn [bind]. destruct (Z.ltb_spec m (c_cols A)); [|lia]. cbn [assert_ bind].
  destruct (Z.leb_spec 0 m'); [|lia]. cbn [assert_ bind]. now rewrite E.
Qed.

Lemma sp_make_rows rows cols f :
  0 <= rows -> 0 <= cols ->
  (forall i p, 0 <= i < rows -> In p (f i) -> 0 <= fst p < cols) ->
  forall ip ix d,
  ip = map (off f) (zrange 0 (rows + 1)) -> ix = map fst (cat f rows) -> d = map snd (cat f rows) ->
  sp_make ip ix d rows cols = Ok (csr_of_rows rows cols f).
Proof.
  intros Hr Hc Hi ip ix d -> -> ->.
  exact (sp_make_valid (csr_of_rows rows cols f) (csr_of_rows_valid rows cols f Hr Hc Hi)).
Qed.

End Rows.

Section RowMembership.
Context {S : scalar}.
Notation T := (car S).

Lemma In_csr_of_rows rows cols (f : Z -> list (Z * T)) i c v :
  In (i, c, v) (entries (csr_of_rows rows cols f)) <-> 0 <= i < rows /\ In (c, v) (f i).
Proof.
  rewrite csr_of_rows_entries, in_flat_map. unfold row_to_entries. split.
  - intros (k & Hk & H). apply In_zrange in Hk. apply in_map_iff in H. destruct H as ([c' v'] & E & H).
    cbn in E. injection E as -> -> ->. auto.
  - intros (Hi & H). exists i. split; [apply In_zrange; exact Hi|]. apply in_map_iff. exists (c, v). auto.
Qed.

Lemma In_row_of (A : csr S) i c v : csr_valid A -> (In (i, c, v) (entries A) <-> 0 <= i < c_rows A /\ In (c, v) (row_of A i)).
Proof. intros V. rewrite (csr_eta A V) at 1. apply In_csr_of_rows. Qed.

Lemma In_row_entries (A : csr S) i e : csr_valid A -> (In e (row_entries A i) /\ 0 <= i < c_rows A <-> In e (entries A) /\ erow e = i).
Proof.
  intros V. split.
  - intros (H & Hi). rewrite <- filter_row_entries in H by auto. apply filter_In in H. rewrite Z.eqb_eq in H. exact H.
  - intros (H & <-). pose proof (entries_in_shape A V) as Sh. unfold in_shape in Sh. rewrite Forall_forall in Sh.
    pose proof (Sh e H) as Hs. split; [|tauto]. rewrite <- filter_row_entries by tauto. apply filter_In.
    split; [exact H|]. apply Z.eqb_refl.
Qed.

End RowMembership.
