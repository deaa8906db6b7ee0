(** Facts about dense storage and the loops over it. *)

From Coq Require Import ZArith List Lia Bool.
From Verif Require Import Base Scalar Spec Dense LoopFacts CsrFacts.
Import ListNotations.
Open Scope Z_scope.

(** All index pairs of an m x n matrix, column by column. *)
Definition pairs (m n : Z) : list (Z * Z) :=
  flat_map (fun j => map (fun i => (i, j)) (zrange 0 m)) (zrange 0 n).

Lemma In_pairs m n i j : In (i, j) (pairs m n) <-> 0 <= i < m /\ 0 <= j < n.
Proof.
  unfold pairs. rewrite in_flat_map. split.
  - intros (j' & Hj & H). apply in_map_iff in H. destruct H as (i' & E & Hi).
    injection E as <- <-. apply In_zrange in Hi, Hj. auto.
  - intros (Hi & Hj). exists j. split; [now apply In_zrange|]. apply in_map_iff. exists i.
    split; [reflexivity|now apply In_zrange].
Qed.

Lemma filter_zrange_eq lo hi a :
  filter (fun i => i =? a) (zrange lo hi) = if (lo <=? a) && (a <? hi) then [a] else [].
Proof.
  destruct (Z.leb_spec lo a), (Z.ltb_spec a hi); cbn.
  2,3,4: apply filter_none; intros i Hi; apply In_zrange in Hi; apply Z.eqb_neq; lia.
  rewrite (zrange_app lo a hi), (zrange_cons a hi) by lia. rewrite filter_app. cbn. rewrite Z.eqb_refl.
  rewrite !filter_none; [reflexivity| |]; intros i Hi; apply In_zrange in Hi; apply Z.eqb_neq; lia.
Qed.

Lemma filter_pairs m n a b :
  filter (fun p => (fst p =? a) && (snd p =? b)) (pairs m n)
  = if (0 <=? a) && (a <? m) && ((0 <=? b) && (b <? n)) then [(a, b)] else [].
Proof.
  unfold pairs. rewrite filter_flat_map.
  rewrite (flat_map_ext_in _ (fun j => if j =? b then (if (0 <=? a) && (a <? m) then [(a, b)] else []) else [])).
  - destruct (Z.leb_spec 0 b), (Z.ltb_spec b n); cbn [andb]; rewrite ?andb_true_r, ?andb_false_r.
    2,3,4: apply flat_map_nil; intros j Hj; apply In_zrange in Hj; destruct (Z.eqb_spec j b); [lia|reflexivity].
    rewrite (flat_map_single _ (fun x : Z * Z => x) 0 n b); [now rewrite Z.eqb_refl|lia|].
    intros k Hk Hne. destruct (Z.eqb_spec k b); [lia|reflexivity].
  - intros j Hj. rewrite filter_map. cbn. destruct (Z.eqb_spec j b) as [->|].
    + rewrite (filter_ext _ (fun i => i =? a)) by (intros; now rewrite andb_true_r).
      rewrite filter_zrange_eq. now destruct ((0 <=? a) && (a <? m)).
    + rewrite filter_none; [reflexivity|]. intros; apply andb_false_r.
Qed.

Lemma for_pairs {St} m n (s : St) body :
  for_ 0 n s (fun j s => for_ 0 m s (fun i s => body i j s))
  = foldM (fun s p => body (fst p) (snd p) s) (pairs m n) s.
Proof.
  unfold pairs, for_. rewrite foldM_flat_map. apply foldM_ext. intros s' j _. now rewrite foldM_map.
Qed.

Section Dense.
Context {S : scalar}.
Notation T := (car S).
Implicit Types (D E : dense S).

Lemma in_range_spec D i j : in_range D i j = true <-> 0 <= i < d_rows D /\ 0 <= j < d_cols D.
Proof.
  unfold in_range. rewrite !andb_true_iff, !Z.leb_le, !Z.ltb_lt. tauto.
Qed.

Lemma flat_bound D i j :
  dense_ok D -> 0 <= i < d_rows D -> 0 <= j < d_cols D -> 0 <= i + j * d_rows D < zlen (d_data D).
Proof. intros (_ & _ & ->) Hi Hj. nia. Qed.

Lemma flat_inj r i j i' j' :
  0 <= i < r -> 0 <= i' < r -> i + j * r = i' + j' * r -> i = i' /\ j = j'.
Proof.
  intros Hi Hi' E. assert (j = j') by nia. subst. split; [lia|reflexivity].
Qed.

Lemma d_get_ok D i j :
  dense_ok D -> 0 <= i < d_rows D -> 0 <= j < d_cols D -> d_get D i j = Ok (dense_mat D i j).
Proof.
  intros H Hi Hj. unfold d_get. rewrite (proj2 (in_range_spec D i j)) by auto. cbn.
  apply get_ok. now apply flat_bound.
Qed.

Lemma d_get_out D i j : ~ (0 <= i < d_rows D /\ 0 <= j < d_cols D) -> d_get D i j = Fail FAssert.
Proof.
  intros H. unfold d_get. destruct (in_range D i j) eqn:E; [|reflexivity].
  apply in_range_spec in E. tauto.
Qed.

Definition dset D (i j : Z) (v : T) : dense S :=
  Dense (d_rows D) (d_cols D) (upd (d_data D) (Z.to_nat (i + j * d_rows D)) v).

Lemma d_set_ok D i j v :
  dense_ok D -> 0 <= i < d_rows D -> 0 <= j < d_cols D -> d_set D i j v = Ok (dset D i j v).
Proof.
  intros H Hi Hj. unfold d_set. rewrite (proj2 (in_range_spec D i j)) by auto. cbn [assert_ bind].
  rewrite set_ok by now apply flat_bound. reflexivity.
Qed.

Lemma dset_ok D i j v : dense_ok D -> dense_ok (dset D i j v).
Proof. intros (H1 & H2 & H3). unfold dense_ok, dset. cbn. rewrite zlen_upd. auto. Qed.

Lemma dset_mat D i j v a b :
  dense_ok D -> 0 <= i < d_rows D -> 0 <= j < d_cols D -> 0 <= a < d_rows D -> 0 <= b < d_cols D ->
  dense_mat (dset D i j v) a b = if (a =? i) && (b =? j) then v else dense_mat D a b.
Proof.
  intros H Hi Hj Ha Hb. unfold dense_mat, dset. cbn [d_rows d_cols d_data].
  pose proof (flat_bound D i j H Hi Hj). pose proof (flat_bound D a b H Ha Hb).
  rewrite zn_upd by lia.
  destruct (Z.eqb_spec (a + b * d_rows D) (i + j * d_rows D)) as [E|E].
  - apply flat_inj in E; auto. destruct E as (-> & ->). now rewrite !Z.eqb_refl.
  - destruct (Z.eqb_spec a i), (Z.eqb_spec b j); cbn; try reflexivity. subst. tauto.
Qed.

Lemma d_mod_ok D i j f :
  dense_ok D -> 0 <= i < d_rows D -> 0 <= j < d_cols D -> d_mod D i j f = Ok (dset D i j (f (dense_mat D i j))).
Proof. intros H Hi Hj. unfold d_mod. rewrite d_get_ok by auto. cbn. now apply d_set_ok. Qed.

Lemma d_ext D E :
  dense_ok D -> dense_ok E -> d_rows D = d_rows E -> d_cols D = d_cols E ->
  (forall i j, 0 <= i < d_rows D -> 0 <= j < d_cols D -> dense_mat D i j = dense_mat E i j) -> D = E.
Proof.
  intros (Hr & Hc & Hl) (Hr' & Hc' & Hl') E1 E2 H. destruct D as [r c d], E as [r' c' d']. cbn in *. subst r' c'.
  f_equal. apply (list_ext s0); [lia|]. intros q Hq. rewrite Hl in Hq.
  assert (Hrp : 0 < r) by nia.
  specialize (H (q mod r) (q / r)). unfold dense_mat in H. cbn in H.
  pose proof (Z.mod_pos_bound q r Hrp). pose proof (Z.div_mod q r ltac:(lia)).
  assert (Hdiv : 0 <= q / r < c).
  { split; [apply Z.div_pos; lia|]. apply Z.div_lt_upper_bound; lia. }
  specialize (H ltac:(lia) Hdiv). replace (q mod r + q / r * r) with q in H by lia. exact H.
Qed.

(** for (p : L) D(r(p), c(p)) = f(D(r(p), c(p)), p) *)
Lemma dense_scatter {X} (r c : X -> Z) (f : T -> X -> T) (body : dense S -> X -> res (dense S)) L D :
  dense_ok D ->
  (forall p, In p L -> 0 <= r p < d_rows D /\ 0 <= c p < d_cols D) ->
  (forall p E, In p L -> dense_ok E -> d_rows E = d_rows D -> d_cols E = d_cols D ->
     body E p = Ok (dset E (r p) (c p) (f (dense_mat E (r p) (c p)) p))) ->
  exists D', foldM body L D = Ok D' /\ dense_ok D' /\ d_rows D' = d_rows D /\ d_cols D' = d_cols D /\
    forall a b, 0 <= a < d_rows D -> 0 <= b < d_cols D ->
      dense_mat D' a b = fold_left f (filter (fun p => (r p =? a) && (c p =? b)) L) (dense_mat D a b).
Proof.
  revert D. induction L as [|p L IH]; intros D HD Hr Hb.
  - exists D. cbn. auto.
  - cbn [foldM]. rewrite Hb by (auto; left; reflexivity). cbn [bind].
    destruct (Hr p (or_introl eq_refl)) as (Hrp & Hcp).
    destruct (IH (dset D (r p) (c p) (f (dense_mat D (r p) (c p)) p))) as (D' & E & HD' & Er & Ec & Hv).
    + now apply dset_ok.
    + intros q Hq. cbn. apply Hr. right; exact Hq.
    + intros q E Hq HE Er Ec. cbn in Er, Ec. apply Hb; auto. right; exact Hq.
    + exists D'. cbn in Er, Ec. do 4 (split; [assumption|]). intros a b Ha Hb'.
      rewrite Hv by assumption. rewrite dset_mat by auto. cbn [filter].
      rewrite (Z.eqb_sym (r p)), (Z.eqb_sym (c p)).
      destruct (Z.eqb_spec a (r p)), (Z.eqb_spec b (c p)); cbn; subst; reflexivity.
Qed.

(** A rectangular loop that assigns to distinct cells:
    for j < n, for i < m:  D(i + si, j + sj) = f(D(i + si, j + sj), i, j). *)
Lemma dense_window (f : T -> Z * Z -> T) body m n si sj D :
  dense_ok D -> 0 <= si -> si + m <= d_rows D -> 0 <= sj -> sj + n <= d_cols D ->
  (forall i j E, 0 <= i < m -> 0 <= j < n -> dense_ok E -> d_rows E = d_rows D -> d_cols E = d_cols D ->
     body i j E = Ok (dset E (i + si) (j + sj) (f (dense_mat E (i + si) (j + sj)) (i, j)))) ->
  exists D', for_ 0 n D (fun j D => for_ 0 m D (fun i D => body i j D)) = Ok D' /\
    dense_ok D' /\ d_rows D' = d_rows D /\ d_cols D' = d_cols D /\
    forall a b, 0 <= a < d_rows D -> 0 <= b < d_cols D ->
      dense_mat D' a b = if (si <=? a) && (a <? si + m) && ((sj <=? b) && (b <? sj + n))
                         then f (dense_mat D a b) (a - si, b - sj) else dense_mat D a b.
Proof.
  intros HD Hsi Hm Hsj Hn Hb. rewrite for_pairs.
  destruct (dense_scatter (fun p => fst p + si) (fun p => snd p + sj) f (fun s p => body (fst p) (snd p) s) (pairs m n) D HD)
    as (D' & E & HD' & Er & Ec & Hv).
  - intros [i j] Hp. apply In_pairs in Hp. cbn. lia.
  - intros [i j] E Hp HE Er Ec. apply In_pairs in Hp. cbn. apply Hb; tauto.
  - exists D'. do 4 (split; [assumption|]). intros a b Ha Hb'. rewrite Hv by assumption.
    rewrite (filter_ext _ (fun p => (fst p =? a - si) && (snd p =? b - sj))).
    2:{ intros [i j]. cbn. destruct (Z.eqb_spec (i + si) a), (Z.eqb_spec i (a - si)); try lia;
        destruct (Z.eqb_spec (j + sj) b), (Z.eqb_spec j (b - sj)); try lia; reflexivity. }
    rewrite filter_pairs.
    destruct (Z.leb_spec 0 (a - si)), (Z.leb_spec si a); try lia;
    destruct (Z.ltb_spec (a - si) m), (Z.ltb_spec a (si + m)); try lia; cbn [andb fold_left]; try reflexivity;
    destruct (Z.leb_spec 0 (b - sj)), (Z.leb_spec sj b); try lia;
    destruct (Z.ltb_spec (b - sj) n), (Z.ltb_spec b (sj + n)); try lia; cbn [andb fold_left]; reflexivity.
Qed.

(** The same for the whole matrix. *)
Lemma dense_all (f : T -> Z * Z -> T) body D :
  dense_ok D ->
  (forall i j E, 0 <= i < d_rows D -> 0 <= j < d_cols D -> dense_ok E -> d_rows E = d_rows D -> d_cols E = d_cols D ->
     body i j E = Ok (dset E i j (f (dense_mat E i j) (i, j)))) ->
  exists D', for_ 0 (d_cols D) D (fun j D0 => for_ 0 (d_rows D) D0 (fun i D0 => body i j D0)) = Ok D' /\
    dense_ok D' /\ d_rows D' = d_rows D /\ d_cols D' = d_cols D /\
    forall a b, 0 <= a < d_rows D -> 0 <= b < d_cols D -> dense_mat D' a b = f (dense_mat D a b) (a, b).
Proof.
  intros HD Hb. destruct (dense_window f body (d_rows D) (d_cols D) 0 0 D) as (D' & E & HD' & Er & Ec & Hv); auto; try lia.
  - intros i j E Hi Hj HE Er Ec. rewrite !Z.add_0_r. now apply Hb.
  - exists D'. do 4 (split; [assumption|]). intros a b Ha Hb'. rewrite Hv by assumption.
    rewrite !Z.sub_0_r. destruct (Z.leb_spec 0 a), (Z.ltb_spec a (0 + d_rows D)), (Z.leb_spec 0 b), (Z.ltb_spec b (0 + d_cols D)); cbn; try reflexivity; lia.
Qed.

(** Sizes *)
Lemma zlen_resize {A} (l : list A) n v : 0 <= n -> zlen (resize l n v) = n.
Proof.
  intros H. unfold resize. rewrite zlen_app, zlen_repeat. unfold zlen. rewrite firstn_length. lia.
Qed.

Lemma d_set_size_ok D r c :
  0 <= r -> 0 <= c -> exists E, d_set_size D r c = Ok E /\ dense_ok E /\ d_rows E = r /\ d_cols E = c /\
    d_data E = resize (d_data D) (r * c) s0.
Proof.
  intros Hr Hc. unfold d_set_size. destruct (Z.leb_spec 0 r), (Z.leb_spec 0 c); try lia. cbn.
  eexists. split; [reflexivity|]. cbn. repeat split; cbn; auto; try lia. apply zlen_resize. nia.
Qed.

Lemma d_fill_ok D v : dense_ok D -> dense_ok (d_fill D v).
Proof. intros (H1 & H2 & H3). unfold dense_ok, d_fill. cbn. now rewrite zlen_map. Qed.

Lemma d_fill_mat D v i j : dense_ok D -> 0 <= i < d_rows D -> 0 <= j < d_cols D -> dense_mat (d_fill D v) i j = v.
Proof. intros H Hi Hj. unfold dense_mat, d_fill. cbn. apply zn_map_const. now apply flat_bound. Qed.

Lemma d_zeros_ok r c : 0 <= r -> 0 <= c ->
  exists D, d_zeros r c = Ok D /\ dense_ok D /\ d_rows D = r /\ d_cols D = c /\
    forall i j, 0 <= i < r -> 0 <= j < c -> dense_mat D i j = s0.
Proof.
  intros Hr Hc. unfold d_zeros, d_make. rewrite vec_ok by nia. cbn [bind].
  destruct (Z.leb_spec 0 r), (Z.leb_spec 0 c); try lia. cbn [assert_ bind].
  rewrite zlen_repeat, Z2Nat.id by nia. rewrite Z.eqb_refl. cbn.
  eexists. split; [reflexivity|]. split; [|split; [reflexivity|split; [reflexivity|]]].
  - repeat split; cbn; auto. rewrite zlen_repeat. nia.
  - intros i j Hi Hj. unfold dense_mat. cbn. apply zn_repeat. nia.
Qed.

End Dense.
