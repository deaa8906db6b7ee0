(** Assembly histories, conversions and products of CooMatrix. *)

From Coq Require Import ZArith List Lia Bool Permutation.
From Verif Require Import Base Scalar Spec Dense Sparse LoopFacts SumFacts CsrFacts Rows Accum SparseProofs SparseMore DenseFacts DenseProofs Coo CooSpec CooProofs.
Import ListNotations.
Open Scope Z_scope.

Lemma filter_unique {X} (p : X -> bool) (l : list X) x : NoDup l -> In x l -> p x = true -> (forall y, In y l -> p y = true -> y = x) -> filter p l = [x].
Proof.
  intros ND Hx Px Hu. induction l as [|a l IH]; [destruct Hx|]. inversion_clear ND as [|? ? Ha ND'].
  cbn. destruct Hx as [->|Hx].
  - rewrite Px. f_equal. apply filter_none. intros y Hy. destruct (p y) eqn:E; [|reflexivity].
    exfalso. apply Ha. rewrite <- (Hu y); auto. now right.
  - destruct (p a) eqn:E.
    + exfalso. apply Ha. rewrite (Hu a (or_introl eq_refl) E). exact Hx.
    + apply IH; auto. intros y Hy. apply Hu. now right.
Qed.

Lemma NoDup_app2 {X} (l1 l2 : list X) : NoDup l1 -> NoDup l2 -> (forall x, In x l1 -> ~ In x l2) -> NoDup (l1 ++ l2).
Proof.
  intros H1 H2 H. induction l1 as [|a l1 IH]; [exact H2|]. inversion_clear H1 as [|? ? Ha H1']. cbn. constructor.
  - intros Hin. apply in_app_or in Hin. destruct Hin as [Hin|Hin]; [auto|]. apply (H a); [now left|exact Hin].
  - apply IH; auto. intros x Hx. apply H. now right.
Qed.

Section CooMore.
Context {S : scalar}.
Notation T := (car S).
Implicit Types (M : coo S) (l : list (entry S)) (o : coo_op S) (ops : list (coo_op S)).

(** The value at (i,j): all values added there, summed in order of addition. *)
Definition sum_at l (i j : Z) : T := fold_left sadd (map evalue (filter (at_pos i j) l)) s0.

Lemma sum_at_fold l i j : fold_left (fun s e => sadd s (evalue e)) (filter (at_pos i j) l) s0 = sum_at l i j.
Proof. unfold sum_at. now rewrite fold_left_map. Qed.

Lemma sum_at_mat (R : ring_laws S) l i j : sum_at l i j = mat_of l i j.
Proof. unfold sum_at, mat_of. rewrite (fold_left_sum R). now rewrite (sadd_0_l R). Qed.

Lemma In_crow l i c v : In (c, v) (crow l i) <-> (exists w, In (i, c, w) l) /\ v = sum_at l i c.
Proof.
  unfold crow. rewrite in_map_iff. split.
  - intros (c' & E & H). injection E as -> E. split; [|now rewrite <- E, sum_at_fold].
    apply In_ks in H. destruct H as ([[a b] w] & H & <- & <-). exists w. exact H.
  - intros ((w & Hw) & ->). exists c. rewrite sum_at_fold. split; [reflexivity|]. apply In_ks. exists (i, c, w). auto.
Qed.

Lemma crow_entries_nodup l rows cols : no_dup_coords (entries (csr_of_rows rows cols (crow l))).
Proof.
  unfold no_dup_coords. rewrite csr_of_rows_entries, map_flat_map.
  assert (H : forall i, NoDup (map fst (row_to_entries i (crow l i)))).
  { intros i. unfold row_to_entries, crow. rewrite !map_map. cbn.
    apply FinFun.Injective_map_NoDup; [|apply keys_NoDup]. intros a b E. now injection E. }
  pose proof (NoDup_zrange 0 rows) as ND. induction (zrange 0 rows) as [|i L IH]; [constructor|].
  inversion_clear ND as [|? ? Hi ND']. cbn [flat_map].
  apply NoDup_app2; auto. intros p Hp Hq. apply in_flat_map in Hq. destruct Hq as (k & Hk & Hq).
  unfold row_to_entries in Hp, Hq. rewrite map_map in Hp, Hq. apply in_map_iff in Hp, Hq.
  destruct Hp as (a & Ea & _), Hq as (b & Eb & _). cbn in Ea, Eb. subst p. injection Eb as E _. subst k. auto.
Qed.

Lemma coo_to_sparse_exact M : coo_ok M ->
  exists A, coo_to_sparse M = Ok A /\ csr_valid A /\ c_rows A = fst (coo_find_size M) /\ c_cols A = snd (coo_find_size M) /\
    no_dup_coords (entries A) /\
    forall i j v, In (i, j, v) (entries A) <-> (exists w, In (i, j, w) (o_entries M)) /\ v = sum_at (o_entries M) i j.
Proof.
  intros H. destruct (coo_size_shape M H) as (Hr & Hc & Hs).
  rewrite coo_to_sparse_rows by exact H. eexists. split; [reflexivity|].
  unfold in_shape in Hs. rewrite Forall_forall in Hs.
  split; [|split; [reflexivity|split; [reflexivity|split; [apply crow_entries_nodup|]]]].
  - apply csr_of_rows_valid; auto. intros i [c v] Hi Hp. apply In_crow in Hp. destruct Hp as ((w & Hw) & _). cbn.
    specialize (Hs _ Hw). cbn in Hs. lia.
  - intros i j v. rewrite In_csr_of_rows, In_crow. split; [tauto|]. intros ((w & Hw) & E).
    specialize (Hs _ Hw). cbn in Hs. split; [lia|]. eauto.
Qed.

Lemma mat_of_stored (R : ring_laws S) l l' i j :
  no_dup_coords l -> (forall v, In (i, j, v) l <-> (exists w, In (i, j, w) l') /\ v = mat_of l' i j) ->
  mat_of l i j = mat_of l' i j.
Proof.
  intros ND H. destruct (existsb (at_pos i j) l') eqn:E.
  - apply existsb_exists in E. destruct E as ([[a b] w] & Hw & E). unfold at_pos in E. apply andb_true_iff in E. cbn in E.
    destruct E as (E1 & E2). apply Z.eqb_eq in E1, E2. subst a b.
    assert (Hin : In (i, j, mat_of l' i j) l) by (apply H; eauto).
    unfold mat_of at 1. rewrite (filter_unique _ l (i, j, mat_of l' i j)).
    + cbn. now rewrite (sadd_0_r R).
    + unfold no_dup_coords in ND. now apply NoDup_map_inv in ND.
    + exact Hin.
    + unfold at_pos. cbn. now rewrite !Z.eqb_refl.
    + intros [[a b] v] Hy Hp. unfold at_pos in Hp. apply andb_true_iff in Hp. cbn in Hp. destruct Hp as (E1 & E2).
      apply Z.eqb_eq in E1, E2. subst a b. apply H in Hy. now rewrite (proj2 Hy).
  - assert (N : forall w, ~ In (i, j, w) l').
    { intros w Hw. rewrite (proj2 (existsb_exists _ _)) in E; [discriminate|]. exists (i, j, w). split; [exact Hw|]. unfold at_pos. cbn. now rewrite !Z.eqb_refl. }
    unfold mat_of. rewrite !filter_none; [reflexivity| |].
    + intros [[a b] w] Hw. unfold at_pos. cbn. destruct (Z.eqb_spec a i), (Z.eqb_spec b j); try reflexivity. subst. exfalso. eapply N; eauto.
    + intros [[a b] w] Hw. unfold at_pos. cbn. destruct (Z.eqb_spec a i), (Z.eqb_spec b j); try reflexivity. subst. exfalso.
      apply H in Hw. destruct Hw as ((w' & Hw') & _). eapply N; eauto.
Qed.

Lemma coo_to_sparse_spec (R : ring_laws S) M : coo_ok M ->
  exists A, coo_to_sparse M = Ok A /\ csr_valid A /\ c_rows A = fst (coo_find_size M) /\ c_cols A = snd (coo_find_size M) /\
    no_dup_coords (entries A) /\ forall i j, csr_mat A i j = mat_of (o_entries M) i j.
Proof.
  intros H. destruct (coo_to_sparse_exact M H) as (A & E & V & Er & Ec & ND & Hi). exists A.
  repeat (split; [assumption|]). intros i j. apply (mat_of_stored R); auto. intros v. rewrite Hi, (sum_at_mat R). tauto.
Qed.

Lemma coo_to_dense_gives M out : coo_ok M ->
  d_gives (coo_to_dense_into M out) (fst (coo_find_size M)) (snd (coo_find_size M)) (sum_at (o_entries M)).
Proof.
  intros H. eapply d_gives_ext; [now apply coo_to_dense_exact|]. intros i j _ _. apply sum_at_fold.
Qed.

Lemma coo_to_dense_spec (R : ring_laws S) M out : coo_ok M ->
  d_gives (coo_to_dense_into M out) (fst (coo_find_size M)) (snd (coo_find_size M)) (mat_of (o_entries M)).
Proof.
  intros H. eapply d_gives_ext; [now apply coo_to_dense_gives|]. intros i j _ _. now apply sum_at_mat.
Qed.

(** Bit for bit the same dense matrix, in any arithmetic. *)
Lemma coo_dense_sparse_agree M A out : coo_ok M -> coo_to_sparse M = Ok A ->
  coo_to_dense_into M out = sp_to_dense A.
Proof.
  intros H E. destruct (coo_to_sparse_exact M H) as (A' & E' & V & Er & Ec & ND & Hi). rewrite E in E'. injection E' as <-.
  destruct (coo_to_dense_gives M out H) as (D & -> & HD & D1 & D2 & Dv).
  destruct (sp_to_dense_exact A V) as (D' & -> & HD' & D1' & D2' & Dv'). f_equal.
  apply d_ext; auto; try congruence. intros i j Hi' Hj'. rewrite Dv, Dv' by congruence.
  destruct (existsb (at_pos i j) (o_entries M)) eqn:Ex.
  - apply existsb_exists in Ex. destruct Ex as ([[a b] w] & Hw & Ex). unfold at_pos in Ex. apply andb_true_iff in Ex. cbn in Ex.
    destruct Ex as (E1 & E2). apply Z.eqb_eq in E1, E2. subst a b.
    rewrite (filter_unique _ (entries A) (i, j, sum_at (o_entries M) i j)); [reflexivity| | | |].
    + unfold no_dup_coords in ND. now apply NoDup_map_inv in ND.
    + apply Hi. eauto.
    + unfold at_pos. cbn. now rewrite !Z.eqb_refl.
    + intros [[a b] v] Hy Hp. unfold at_pos in Hp. apply andb_true_iff in Hp. cbn in Hp. destruct Hp as (E1 & E2).
      apply Z.eqb_eq in E1, E2. subst a b. apply Hi in Hy. now rewrite (proj2 Hy).
  - assert (N : forall w, ~ In (i, j, w) (o_entries M)).
    { intros w Hw. rewrite (proj2 (existsb_exists _ _)) in Ex; [discriminate|]. exists (i, j, w). split; [exact Hw|]. unfold at_pos. cbn. now rewrite !Z.eqb_refl. }
    unfold sum_at. rewrite !filter_none; [reflexivity| |].
    + intros [[a b] w] Hw. unfold at_pos. cbn. destruct (Z.eqb_spec a i), (Z.eqb_spec b j); try reflexivity. subst. exfalso.
      apply Hi in Hw. destruct Hw as ((w' & Hw') & _). eapply N; eauto.
    + intros [[a b] w] Hw. unfold at_pos. cbn. destruct (Z.eqb_spec a i), (Z.eqb_spec b j); try reflexivity. subst. exfalso. eapply N; eauto.
Qed.

(* ---------------------------------------------------------------- histories *)

Definition coo_add_entry M (e : entry S) : res (coo S) := coo_add M (erow e) (ecol e) (evalue e).

Definition entry_ok M (e : entry S) : Prop :=
  0 <= erow e /\ 0 <= ecol e /\ seqb (evalue e) (evalue e) = true /\
  (o_set M = true -> erow e < o_rows M /\ ecol e < o_cols M).

Definition coo_app M l : coo S := Coo (o_rows M) (o_cols M) (o_set M) (o_entries M ++ l).

Lemma coo_add_entry_ok M e : entry_ok M e -> coo_add_entry M e = Ok (coo_app M [e]).
Proof.
  intros (H1 & H2 & H3 & H4). unfold coo_add_entry, coo_add. rewrite H3.
  destruct (Z.leb_spec 0 (erow e)); [|lia]. destruct (Z.leb_spec 0 (ecol e)); [|lia]. cbn [assert_ bind].
  destruct e as [[i j] v]. cbn in *. destruct (o_set M) eqn:E.
  - destruct (H4 eq_refl) as (H5 & H6). destruct (Z.ltb_spec i (o_rows M)); [|lia]. destruct (Z.ltb_spec j (o_cols M)); [|lia]. cbn. unfold coo_app. now rewrite E.
  - cbn. unfold coo_app. now rewrite E.
Qed.

Lemma coo_add_entry_inv M e M' : coo_add_entry M e = Ok M' -> entry_ok M e.
Proof.
  unfold coo_add_entry, coo_add, entry_ok. intros H.
  destruct (Z.leb_spec 0 (erow e)); cbn in H; [|discriminate]. destruct (Z.leb_spec 0 (ecol e)); cbn in H; [|discriminate].
  destruct (seqb (evalue e) (evalue e)); cbn in H; [|discriminate].
  split; [lia|]. split; [lia|]. split; [reflexivity|]. intros E. rewrite E in H.
  destruct (Z.ltb_spec (erow e) (o_rows M)); cbn in H; [|discriminate]. destruct (Z.ltb_spec (ecol e) (o_cols M)); cbn in H; [|discriminate]. lia.
Qed.

Lemma coo_app_app M l1 l2 : coo_app (coo_app M l1) l2 = coo_app M (l1 ++ l2).
Proof. unfold coo_app. cbn. now rewrite app_assoc. Qed.

Lemma coo_add_all_ok l : forall M, Forall (entry_ok M) l -> foldM coo_add_entry l M = Ok (coo_app M l).
Proof.
  induction l as [|e l IH]; intros M H.
  - cbn. unfold coo_app. rewrite app_nil_r. destruct M; reflexivity.
  - inversion_clear H as [|? ? He Hl]. cbn [foldM]. rewrite coo_add_entry_ok by exact He. cbn [bind]. rewrite IH by exact Hl. now rewrite coo_app_app.
Qed.

Lemma coo_add_all_inv l : forall M M', foldM coo_add_entry l M = Ok M' -> Forall (entry_ok M) l /\ M' = coo_app M l.
Proof.
  induction l as [|e l IH]; intros M M' H; cbn [foldM] in H.
  - injection H as <-. split; [constructor|]. unfold coo_app. rewrite app_nil_r. destruct M; reflexivity.
  - destruct (coo_add_entry M e) as [M1|] eqn:E; cbn [bind] in H; [|discriminate].
    pose proof (coo_add_entry_inv _ _ _ E) as He. rewrite coo_add_entry_ok in E by exact He. injection E as <-.
    destruct (IH _ _ H) as (Hl & ->). split; [constructor; assumption|]. now rewrite coo_app_app.
Qed.

Lemma coo_add_dense_all M rows cols f (V : dense S) : dense_ok V -> zlen rows = d_rows V -> zlen cols = d_cols V ->
  coo_add_dense M rows cols f V = foldM coo_add_entry (dense_added rows cols f V) M.
Proof.
  intros HV H1 H2. unfold coo_add_dense. rewrite H1, H2, !Z.eqb_refl. cbn [assert_ bind]. unfold dense_added, for_.
  apply foldM_flat_map2. intros M1 j Hj. apply In_zrange in Hj. rewrite (get_ok 0) by lia. cbn [bind].
  rewrite foldM_map. apply foldM_ext. intros M2 i Hi. apply In_zrange in Hi. rewrite (get_ok 0) by lia. cbn [bind].
  rewrite d_get_ok by (auto; lia). reflexivity.
Qed.

Lemma coo_add_list_all M rows cols f (v : list T) : zlen rows = zlen v -> zlen cols = zlen v ->
  coo_add_list M rows cols f v = foldM coo_add_entry (list_added (zn 0 rows) (zn 0 cols) f v) M.
Proof.
  intros H1 H2. unfold coo_add_list. rewrite H1, H2, !Z.eqb_refl. cbn [assert_ bind]. unfold list_added, for_.
  rewrite foldM_map. apply foldM_ext. intros M2 i Hi. apply In_zrange in Hi. rewrite !(get_ok 0) by lia. cbn [bind].
  rewrite (get_ok s0) by lia. reflexivity.
Qed.

Lemma coo_add_col_all M rows col f (v : list T) : zlen rows = zlen v ->
  coo_add_col M rows col f v = foldM coo_add_entry (list_added (zn 0 rows) (fun _ => col) f v) M.
Proof.
  intros H1. unfold coo_add_col. rewrite H1, !Z.eqb_refl. cbn [assert_ bind]. unfold list_added, for_.
  rewrite foldM_map. apply foldM_ext. intros M2 i Hi. apply In_zrange in Hi. rewrite !(get_ok 0) by lia. cbn [bind].
  rewrite (get_ok s0) by lia. reflexivity.
Qed.

Lemma coo_add_row_all M row cols f (v : list T) : zlen cols = zlen v ->
  coo_add_row M row cols f v = foldM coo_add_entry (list_added (fun _ => row) (zn 0 cols) f v) M.
Proof.
  intros H1. unfold coo_add_row. rewrite H1, !Z.eqb_refl. cbn [assert_ bind]. unfold list_added, for_.
  rewrite foldM_map. apply foldM_ext. intros M2 i Hi. apply In_zrange in Hi. rewrite !(get_ok 0) by lia. cbn [bind].
  rewrite (get_ok s0) by lia. reflexivity.
Qed.

Lemma coo_run_op_all M o : added_ok o -> is_add o = true -> coo_run_op M o = foldM coo_add_entry (added o) M.
Proof.
  intros H Ha. destruct o; cbn [coo_run_op added added_ok] in *; [| | | | | | | | | |discriminate].
  - cbn. unfold coo_add_entry. cbn. now destruct (coo_add M i j v).
  - unfold coo_add_sym. destruct (Z.eqb_spec i j); cbn; unfold coo_add_entry; cbn; destruct (coo_add M i j v) as [M1|]; cbn; try reflexivity.
    now destruct (coo_add M1 j i v).
  - destruct H as (H & H1 & H2). now apply coo_add_dense_all.
  - destruct H as (H & H1 & H2). now apply coo_add_dense_all.
  - now apply coo_add_col_all.
  - now apply coo_add_col_all.
  - now apply coo_add_row_all.
  - now apply coo_add_row_all.
  - destruct H as (H1 & H2). now apply coo_add_list_all.
  - destruct H as (H1 & H2). now apply coo_add_list_all.
Qed.

Lemma entry_fits_ok M e : entry_fits (o_size M) e <-> entry_ok M e.
Proof.
  unfold entry_fits, entry_ok, o_size. destruct (o_set M); split; intros (H1 & H2 & H3 & H4); repeat (split; [assumption|]); auto; discriminate.
Qed.

Lemma accepted_add d o ops : is_add o = true -> accepted d (o :: ops) <-> Forall (entry_fits d) (added o) /\ accepted (declare d o) ops.
Proof. destruct o; cbn [is_add accepted]; try discriminate; intros _; tauto. Qed.

Lemma o_size_app M l : o_size (coo_app M l) = o_size M.
Proof. reflexivity. Qed.

Lemma declare_add d o : is_add o = true -> declare d o = d.
Proof. destruct o; try discriminate; reflexivity. Qed.

Lemma Forall_fits M l : Forall (entry_fits (o_size M)) l <-> Forall (entry_ok M) l.
Proof. rewrite !Forall_forall. split; intros H e He; apply entry_fits_ok; auto. Qed.

Lemma coo_run_accepts ops : forall M, Forall added_ok ops -> accepted (o_size M) ops ->
  exists M', coo_run M ops = Ok M'.
Proof.
  induction ops as [|o ops IH]; intros M Ha Hc; [exists M; reflexivity|]. inversion_clear Ha as [|? ? Ho Hos].
  unfold coo_run. cbn [foldM]. destruct (is_add o) eqn:Eo.
  - apply accepted_add in Hc; [|exact Eo]. destruct Hc as (H1 & H2). rewrite coo_run_op_all by assumption.
    rewrite coo_add_all_ok by (now apply Forall_fits). cbn [bind]. rewrite declare_add in H2 by exact Eo.
    apply IH; [exact Hos|]. now rewrite o_size_app.
  - destruct o; try discriminate. cbn in Hc. destruct Hc as ((H1 & H2) & H3). cbn. unfold coo_set_size.
    destruct (Z.leb_spec 0 rows); [|lia]. destruct (Z.leb_spec 0 cols); [|lia]. cbn. apply IH; [exact Hos|]. exact H3.
Qed.

Lemma coo_run_inv ops : forall M M', Forall added_ok ops -> coo_run M ops = Ok M' ->
  accepted (o_size M) ops /\ o_size M' = declared (o_size M) ops /\ o_entries M' = o_entries M ++ flat_map added ops /\
  (0 <= o_rows M -> 0 <= o_cols M -> 0 <= o_rows M' /\ 0 <= o_cols M').
Proof.
  induction ops as [|o ops IH]; intros M M' Ha H.
  - injection H as <-. cbn. rewrite app_nil_r. tauto.
  - inversion_clear Ha as [|? ? Ho Hos]. unfold coo_run in H. cbn [foldM] in H. destruct (is_add o) eqn:Eo.
    + rewrite coo_run_op_all in H by assumption. destruct (foldM coo_add_entry (added o) M) as [M1|] eqn:E; cbn [bind] in H; [|discriminate].
      apply coo_add_all_inv in E. destruct E as (Hl & ->). apply IH in H; [|exact Hos]. destruct H as (H1 & H2 & H3 & H4).
      rewrite accepted_add by exact Eo. unfold declared in *. cbn [fold_left]. rewrite declare_add by exact Eo. rewrite o_size_app in H1, H2.
      split; [split; [now apply Forall_fits|exact H1]|]. split; [exact H2|]. split; [|exact H4].
      rewrite H3. cbn. now rewrite <- app_assoc.
    + destruct o; try discriminate. cbn [coo_run_op] in H. unfold coo_set_size in H.
      destruct (Z.leb_spec 0 rows) as [L1|]; cbn [assert_ bind] in H; [|discriminate]. destruct (Z.leb_spec 0 cols) as [L2|]; cbn [assert_ bind] in H; [|discriminate].
      apply IH in H; [|exact Hos]. destruct H as (H1 & H2 & H3 & H4). cbn in H1, H2, H3, H4 |- *.
      split; [tauto|]. split; [exact H2|]. split; [exact H3|]. intros _ _. apply H4; lia.
Qed.

Lemma coo_start_inv d M0 : coo_start d = Ok M0 -> o_size M0 = d /\ o_entries M0 = [] /\ 0 <= o_rows M0 /\ 0 <= o_cols M0.
Proof.
  destruct d as [[rows cols]|]; cbn.
  - unfold coo_new_size. destruct (Z.leb_spec 0 rows); cbn; [|discriminate]. destruct (Z.leb_spec 0 cols); cbn; [|discriminate].
    intros E. injection E as <-. cbn. auto.
  - intros E. injection E as <-. cbn. repeat split; lia.
Qed.

Lemma find_size_assembled M : coo_find_size M = assembled_size (o_size M) (o_entries M).
Proof.
  unfold coo_find_size, assembled_size, o_size. destruct (o_set M); [reflexivity|].
  rewrite find_size_fold, !fold_max_bound by lia. reflexivity.
Qed.

Lemma accepted_nonneg ops : forall d, Forall added_ok ops -> accepted d ops -> Forall (fun e : entry S => 0 <= erow e /\ 0 <= ecol e) (flat_map added ops).
Proof.
  induction ops as [|o ops IH]; intros d Ha H; [constructor|]. inversion_clear Ha as [|? ? Ho Hos]. cbn [flat_map]. apply Forall_app.
  destruct (is_add o) eqn:Eo.
  - apply accepted_add in H; [|exact Eo]. destruct H as (H1 & H2). split; [|eauto].
    eapply Forall_impl; [|exact H1]. intros e (A & B & _). auto.
  - destruct o; try discriminate. cbn in *. split; [constructor|]. destruct H as (_ & H). eauto.
Qed.

(** Everything assembly establishes about the object. *)
Lemma coo_assembled d M0 ops M : coo_start d = Ok M0 -> Forall added_ok ops -> coo_run M0 ops = Ok M ->
  o_entries M = flat_map added ops /\ o_size M = declared d ops /\
  coo_find_size M = assembled_size (declared d ops) (flat_map added ops) /\
  (in_shape (fst (coo_find_size M)) (snd (coo_find_size M)) (flat_map added ops) -> coo_ok M).
Proof.
  intros E Ha H. apply coo_start_inv in E. destruct E as (E1 & E2 & E3 & E4). apply coo_run_inv in H; [|exact Ha].
  destruct H as (H1 & H2 & H3 & H4). rewrite E2 in H3. cbn in H3. rewrite E1 in H1, H2. destruct (H4 E3 E4) as (H5 & H6).
  split; [exact H3|]. split; [exact H2|]. split; [now rewrite find_size_assembled, H2, H3|]. intros Hs.
  unfold coo_ok. split; [exact H5|]. split; [exact H6|]. destruct (o_set M) eqn:Es.
  - rewrite H3. unfold coo_find_size in Hs. rewrite Es in Hs. exact Hs.
  - rewrite H3. eapply accepted_nonneg; eauto.
Qed.

Lemma coo_to_sparse_assembled (R : ring_laws S) d M0 ops M rows cols :
  coo_start d = Ok M0 -> Forall added_ok ops -> coo_run M0 ops = Ok M ->
  assembled_size (declared d ops) (flat_map added ops) = (rows, cols) -> in_shape rows cols (flat_map added ops) ->
  exists A, coo_to_sparse M = Ok A /\ csr_valid A /\ c_rows A = rows /\ c_cols A = cols /\
    no_dup_coords (entries A) /\ forall i j, csr_mat A i j = mat_of (flat_map added ops) i j.
Proof.
  intros E Ha H Es Hs. destruct (coo_assembled d M0 ops M E Ha H) as (H1 & H2 & H3 & H4). rewrite Es in H3. rewrite H3 in H4. cbn in H4.
  destruct (coo_to_sparse_spec R M (H4 Hs)) as (A & K). exists A. rewrite H3, H1 in K. exact K.
Qed.

Lemma coo_to_sparse_assembled_exact d M0 ops M rows cols :
  coo_start d = Ok M0 -> Forall added_ok ops -> coo_run M0 ops = Ok M ->
  assembled_size (declared d ops) (flat_map added ops) = (rows, cols) -> in_shape rows cols (flat_map added ops) ->
  exists A, coo_to_sparse M = Ok A /\ csr_valid A /\ c_rows A = rows /\ c_cols A = cols /\
    no_dup_coords (entries A) /\
    forall i j v, In (i, j, v) (entries A) <-> (exists w, In (i, j, w) (flat_map added ops)) /\
      v = fold_left sadd (map evalue (filter (at_pos i j) (flat_map added ops))) s0.
Proof.
  intros E Ha H Es Hs. destruct (coo_assembled d M0 ops M E Ha H) as (H1 & H2 & H3 & H4). rewrite Es in H3. rewrite H3 in H4. cbn in H4.
  destruct (coo_to_sparse_exact M (H4 Hs)) as (A & K). exists A. rewrite H3, H1 in K. exact K.
Qed.

(** Without SetSize nothing can be outside. *)
Lemma In_bound (f : entry S -> Z) l e : In e l -> f e < bound f l.
Proof. unfold bound. induction l as [|a l IH]; [intros []|]. intros [->|H]; cbn [fold_right]; [lia|]. specialize (IH H). lia. Qed.

Lemma no_set_size_in_shape ops : forall d, forallb is_add ops = true -> accepted d ops ->
  declared d ops = d /\ Forall (entry_fits d) (flat_map added ops).
Proof.
  induction ops as [|o ops IH]; intros d Hb Hc; [split; [reflexivity|constructor]|]. cbn [forallb] in Hb. apply andb_true_iff in Hb. destruct Hb as (Eo & Hb).
  apply accepted_add in Hc; [|exact Eo]. destruct Hc as (H1 & H2). rewrite declare_add in H2 by exact Eo. destruct (IH d Hb H2) as (H3 & H4).
  unfold declared in *. cbn [fold_left flat_map]. rewrite declare_add by exact Eo. split; [exact H3|]. apply Forall_app. auto.
Qed.

Lemma coo_no_set_size_fits d M0 ops M : coo_start d = Ok M0 -> Forall added_ok ops -> forallb is_add ops = true -> coo_run M0 ops = Ok M ->
  let s := assembled_size (declared d ops) (flat_map added ops) in in_shape (fst s) (snd s) (flat_map added ops).
Proof.
  intros E Ha Hb H. apply coo_start_inv in E. destruct E as (E1 & E2 & E3 & E4). apply coo_run_inv in H; [|exact Ha].
  destruct H as (H1 & _). rewrite E1 in H1. apply no_set_size_in_shape in H1; [|exact Hb]. destruct H1 as (-> & H). cbn.
  unfold in_shape. apply Forall_forall. intros e He. rewrite Forall_forall in H. destruct (H e He) as (K1 & K2 & _ & K3).
  unfold assembled_size. destruct d as [[r c]|]; cbn.
  - lia.
  - pose proof (In_bound erow _ _ He). pose proof (In_bound ecol _ _ He). lia.
Qed.

Lemma coo_run_iff d M0 ops : coo_start d = Ok M0 -> Forall added_ok ops ->
  (exists M, coo_run M0 ops = Ok M) <-> accepted d ops.
Proof.
  intros E Ha. apply coo_start_inv in E. destruct E as (E1 & _). split.
  - intros (M & H). apply coo_run_inv in H; [|exact Ha]. rewrite E1 in H. tauto.
  - intros H. apply coo_run_accepts; [exact Ha|]. now rewrite E1.
Qed.

(* ---------------------------------------------------------------- products *)

Lemma coo_mult_exact M x out : coo_ok M -> o_set M = true -> zlen x = o_cols M -> zlen out = o_rows M ->
  exists y, coo_mult M x out = Ok y /\ zlen y = o_rows M /\
    forall i, 0 <= i < o_rows M ->
      zn s0 y i = fold_left (fun s e => sadd s (smul (evalue e) (vec_of x (ecol e)))) (filter (fun e => erow e =? i) (o_entries M)) s0.
Proof.
  intros (Hr & Hc & H) Es Hx Ho. rewrite Es in H. unfold in_shape in H. rewrite Forall_forall in H.
  unfold coo_mult. rewrite Hx, Ho, !Z.eqb_refl. cbn [assert_ bind].
  destruct (scatter s0 erow (fun (o : T) (e : entry S) => sadd o (smul (evalue e) (vec_of x (ecol e))))
     (fun out e => xj <- get x (ecol e) ;; o <- get out (erow e) ;; set out (erow e) (sadd o (smul (evalue e) xj)))
     (o_entries M) (map (fun _ => s0) out)) as (y & E & Hl & Hv).
  - intros e He. rewrite zlen_map. specialize (H e He). lia.
  - intros e w He Ho'. rewrite zlen_map in Ho'. specialize (H e He). rewrite (get_ok s0) by lia. cbn [bind].
    rewrite (get_ok s0) by lia. cbn [bind]. apply set_ok. lia.
  - exists y. rewrite zlen_map in *. split; [exact E|]. split; [lia|]. intros i Hi. rewrite Hv by lia. now rewrite zn_map_const by lia.
Qed.

Lemma coo_mult_spec (R : ring_laws S) M x out : coo_ok M -> o_set M = true -> zlen x = o_cols M -> zlen out = o_rows M ->
  exists y, coo_mult M x out = Ok y /\ zlen y = o_rows M /\
    forall i, 0 <= i < o_rows M -> vec_of y i = mat_vec (mat_of (o_entries M)) (o_cols M) (vec_of x) i.
Proof.
  intros H Es Hx Ho. destruct (coo_mult_exact M x out H Es Hx Ho) as (y & E & Hl & Hv). exists y.
  split; [exact E|]. split; [exact Hl|]. intros i Hi. unfold vec_of at 1. rewrite Hv by exact Hi.
  rewrite (fold_left_sum_map R), (sadd_0_l R).
  apply (sum_entries_row_filter R). destruct H as (_ & _ & H). rewrite Es in H. unfold in_shape in H. rewrite Forall_forall in H.
  intros e He _. now apply H.
Qed.

(** MultAT on a square matrix. *)
Lemma coo_multAT_spec (R : ring_laws S) M x out : coo_ok M -> o_set M = true -> o_rows M = o_cols M ->
  zlen x = o_rows M -> zlen out = o_cols M ->
  exists y, coo_multAT M x out = Ok y /\ zlen y = o_cols M /\
    forall j, 0 <= j < o_cols M -> vec_of y j = mat_vec (mat_T (mat_of (o_entries M))) (o_rows M) (vec_of x) j.
Proof.
  intros (Hr & Hc & H) Es Esq Hx Ho. rewrite Es in H. unfold in_shape in H. rewrite Forall_forall in H.
  unfold coo_multAT. rewrite Hx, Ho, Esq, !Z.eqb_refl. cbn [assert_ bind].
  destruct (scatter s0 ecol (fun (o : T) (e : entry S) => sadd o (smul (evalue e) (vec_of x (erow e))))
     (fun out e => xi <- get x (erow e) ;; o <- get out (ecol e) ;; set out (ecol e) (sadd o (smul (evalue e) xi)))
     (o_entries M) (map (fun _ => s0) out)) as (y & E & Hl & Hv).
  - intros e He. rewrite zlen_map. specialize (H e He). lia.
  - intros e w He Ho'. rewrite zlen_map in Ho'. specialize (H e He). rewrite (get_ok s0) by lia. cbn [bind].
    rewrite (get_ok s0) by lia. cbn [bind]. apply set_ok. lia.
  - exists y. rewrite zlen_map in *. split; [exact E|]. split; [lia|]. intros j Hj. unfold vec_of at 1. rewrite Hv by lia. rewrite zn_map_const by lia.
    rewrite (fold_left_sum_map R), (sadd_0_l R).
    transitivity (sum_list (map (fun e => smul (evalue e) (vec_of x (ecol e))) (filter (fun e => erow e =? j) (map swap_entry (o_entries M))))).
    + rewrite filter_map, map_map. reflexivity.
    + rewrite (sum_entries_row_filter R (o_cols M)).
      * apply mat_vec_ext; [|reflexivity]. intros k _. unfold mat_T. now rewrite mat_of_swap.
      * intros e He _. apply in_map_iff in He. destruct He as (e' & <- & He'). specialize (H e' He'). cbn. lia.
Qed.

(** MultAT on a rectangular matrix never returns. *)
Lemma coo_multAT_rejects M x out : o_rows M <> o_cols M -> zlen x = o_rows M -> zlen out = o_cols M ->
  coo_multAT M x out = Fail FAssert.
Proof. intros H Hx Ho. unfold coo_multAT. rewrite Ho. destruct (Z.eqb_spec (o_rows M) (o_cols M)); [lia|reflexivity]. Qed.

(* ---------------------------------------------------------------- EliminateZeros, permutations *)

Lemma coo_elim_zeros_default M : abs_laws S -> coo_elim_zeros M s0 = M.
Proof.
  intros A. unfold coo_elim_zeros. rewrite filter_all; [destruct M; reflexivity|]. intros e _. now rewrite (sabs_nonneg S A).
Qed.

Lemma coo_elim_zeros_spec M tol (e : entry S) :
  (In e (o_entries (coo_elim_zeros M tol)) <-> In e (o_entries M) /\ slt (sabs (evalue e)) tol = false) /\
  o_size (coo_elim_zeros M tol) = o_size M /\ (coo_ok M -> coo_ok (coo_elim_zeros M tol)).
Proof.
  unfold coo_elim_zeros, o_size, coo_ok. cbn. split; [|split; [reflexivity|]].
  - rewrite filter_In, negb_true_iff. tauto.
  - intros (H1 & H2 & H3). split; [exact H1|]. split; [exact H2|]. unfold in_shape in *.
    destruct (o_set M); rewrite Forall_forall in *; intros x Hx; apply filter_In in Hx; apply H3; tauto.
Qed.

Lemma foldM_snoc_map {X Y} (f : X -> res Y) (g : X -> Y) (l : list X) : forall acc : list Y, (forall x, In x l -> f x = Ok (g x)) ->
  foldM (fun acc x => y <- f x ;; Ok (acc ++ [y])) l acc = Ok (acc ++ map g l).
Proof.
  induction l as [|x l IH]; intros acc H; cbn; [now rewrite app_nil_r|].
  rewrite H by (left; reflexivity). cbn. rewrite IH by (intros; apply H; right; assumption). now rewrite <- app_assoc.
Qed.

Lemma coo_permute_spec M rp cp : coo_ok M -> zlen rp = fst (coo_find_size M) -> zlen cp = snd (coo_find_size M) ->
  coo_permute_rows_cols M rp cp =
    Ok (Coo (o_rows M) (o_cols M) (o_set M) (map (fun e => (zn 0 rp (erow e), zn 0 cp (ecol e), evalue e)) (o_entries M))).
Proof.
  intros H Hr Hc. destruct (coo_size_shape M H) as (_ & _ & Hs). unfold coo_permute_rows_cols.
  destruct (coo_find_size M) as [rows cols]. cbn [fst snd] in *. rewrite Hr, Hc, !Z.eqb_refl. cbn [assert_ bind].
  unfold in_shape in Hs. rewrite Forall_forall in Hs.
  rewrite (foldM_ext _ (fun es e => y <- Ok (zn 0 rp (erow e), zn 0 cp (ecol e), evalue e) ;; Ok (es ++ [y]))).
  - rewrite (foldM_snoc_map _ (fun e => (zn 0 rp (erow e), zn 0 cp (ecol e), evalue e))) by reflexivity. reflexivity.
  - intros es e He. specialize (Hs e He). rewrite (get_ok 0) by lia. cbn [bind]. rewrite (get_ok 0) by lia. reflexivity.
Qed.

Lemma coo_permute_rows_spec M rp : coo_ok M -> zlen rp = fst (coo_find_size M) ->
  coo_permute_rows M rp =
    Ok (Coo (o_rows M) (o_cols M) (o_set M) (map (fun e => (zn 0 rp (erow e), ecol e, evalue e)) (o_entries M))).
Proof.
  intros H Hr. destruct (coo_size_shape M H) as (_ & _ & Hs). unfold coo_permute_rows.
  destruct (coo_find_size M) as [rows cols]. cbn [fst snd] in *. rewrite Hr, !Z.eqb_refl. cbn [assert_ bind].
  unfold in_shape in Hs. rewrite Forall_forall in Hs.
  rewrite (foldM_ext _ (fun es e => y <- Ok (zn 0 rp (erow e), ecol e, evalue e) ;; Ok (es ++ [y]))).
  - rewrite (foldM_snoc_map _ (fun e => (zn 0 rp (erow e), ecol e, evalue e))) by reflexivity. reflexivity.
  - intros es e He. specialize (Hs e He). rewrite (get_ok 0) by lia. reflexivity.
Qed.

Lemma coo_permute_cols_spec M cp : coo_ok M -> zlen cp = snd (coo_find_size M) ->
  coo_permute_cols M cp =
    Ok (Coo (o_rows M) (o_cols M) (o_set M) (map (fun e => (erow e, zn 0 cp (ecol e), evalue e)) (o_entries M))).
Proof.
  intros H Hr. destruct (coo_size_shape M H) as (_ & _ & Hs). unfold coo_permute_cols.
  destruct (coo_find_size M) as [rows cols]. cbn [fst snd] in *. rewrite Hr, !Z.eqb_refl. cbn [assert_ bind].
  unfold in_shape in Hs. rewrite Forall_forall in Hs.
  rewrite (foldM_ext _ (fun es e => y <- Ok (erow e, zn 0 cp (ecol e), evalue e) ;; Ok (es ++ [y]))).
  - rewrite (foldM_snoc_map _ (fun e => (erow e, zn 0 cp (ecol e), evalue e))) by reflexivity. reflexivity.
  - intros es e He. specialize (Hs e He). rewrite (get_ok 0) by lia. reflexivity.
Qed.

Lemma vec_list_ext (y z : list T) n : zlen y = n -> zlen z = n -> (forall i, 0 <= i < n -> vec_of y i = vec_of z i) -> y = z.
Proof. intros Hy Hz H. apply (list_ext s0); [lia|]. intros i Hi. apply H. lia. Qed.

Lemma coo_mult_agrees (R : ring_laws S) M A (x o1 o2 : list T) : coo_ok M -> o_set M = true -> coo_to_sparse M = Ok A ->
  zlen x = o_cols M -> zlen o1 = o_rows M -> zlen o2 = o_rows M ->
  exists y, coo_mult M x o1 = Ok y /\ sp_mult A x o2 = Ok y.
Proof.
  intros H Es E Hx H1 H2. destruct (coo_to_sparse_spec R M H) as (A' & E' & V & Er & Ec & _ & Hm). rewrite E in E'. injection E' as <-.
  unfold coo_find_size in Er, Ec. rewrite Es in Er, Ec. cbn in Er, Ec.
  destruct (coo_mult_spec R M x o1 H Es Hx H1) as (y & -> & Hl & Hv).
  destruct (sp_mult_spec R A x o2) as (z & -> & Hl' & Hv'); [exact V|congruence|congruence|].
  exists y. split; [reflexivity|]. f_equal. apply (vec_list_ext _ _ (o_rows M)); [congruence|congruence|]. intros i Hi.
  rewrite Hv, Hv' by congruence. rewrite Ec. apply mat_vec_ext; [|reflexivity]. intros k _. apply Hm.
Qed.

Lemma coo_multAT_agrees (R : ring_laws S) M A (x o1 o2 : list T) : coo_ok M -> o_set M = true -> o_rows M = o_cols M -> coo_to_sparse M = Ok A ->
  zlen x = o_rows M -> zlen o1 = o_cols M -> zlen o2 = o_cols M ->
  exists y, coo_multAT M x o1 = Ok y /\ sp_multAT A x o2 = Ok y.
Proof.
  intros H Es Esq E Hx H1 H2. destruct (coo_to_sparse_spec R M H) as (A' & E' & V & Er & Ec & _ & Hm). rewrite E in E'. injection E' as <-.
  unfold coo_find_size in Er, Ec. rewrite Es in Er, Ec. cbn in Er, Ec.
  destruct (coo_multAT_spec R M x o1 H Es Esq Hx H1) as (y & -> & Hl & Hv).
  destruct (sp_multAT_spec R A x o2) as (z & -> & Hl' & Hv'); [exact V|congruence|congruence|].
  exists y. split; [reflexivity|]. f_equal. apply (vec_list_ext _ _ (o_cols M)); [congruence|congruence|]. intros i Hi.
  rewrite Hv, Hv' by congruence. rewrite Er. apply mat_vec_ext; [|reflexivity]. intros k _. unfold mat_T. apply Hm.
Qed.

Lemma coo_adjoint (R : ring_laws S) M (x y u v o1 o2 : list T) : coo_ok M -> o_set M = true -> o_rows M = o_cols M ->
  zlen x = o_cols M -> zlen y = o_rows M -> zlen o1 = o_rows M -> zlen o2 = o_cols M ->
  coo_mult M x o1 = Ok u -> coo_multAT M y o2 = Ok v ->
  inner (o_rows M) (vec_of u) (vec_of y) = inner (o_cols M) (vec_of x) (vec_of v).
Proof.
  intros H Es Esq Hx Hy H1 H2 E1 E2.
  destruct (coo_mult_spec R M x o1 H Es Hx H1) as (u' & F1 & _ & Hu).
  destruct (coo_multAT_spec R M y o2 H Es Esq Hy H2) as (v' & F2 & _ & Hv).
  rewrite E1 in F1. injection F1 as <-. rewrite E2 in F2. injection F2 as <-.
  transitivity (inner (o_rows M) (mat_vec (mat_of (o_entries M)) (o_cols M) (vec_of x)) (vec_of y)).
  { unfold inner. apply sum_range_ext. intros i Hi. now rewrite Hu. }
  rewrite inner_mat_vec_T by exact R. unfold inner. apply sum_range_ext. intros j Hj. now rewrite Hv.
Qed.

(** Permuting moves every entry of the represented matrix. *)
Lemma mat_of_permute l rows cols (p q : Z -> Z) i j :
  in_shape rows cols l -> 0 <= i < rows -> 0 <= j < cols ->
  (forall a b, 0 <= a < rows -> 0 <= b < rows -> p a = p b -> a = b) ->
  (forall a b, 0 <= a < cols -> 0 <= b < cols -> q a = q b -> a = b) ->
  mat_of (map (fun e => (p (erow e), q (ecol e), evalue e)) l) (p i) (q j) = mat_of l i j.
Proof.
  intros Hs Hi Hj Hp Hq. unfold mat_of. rewrite filter_map, map_map. f_equal.
  rewrite (filter_ext_in _ (at_pos i j)); [now apply map_ext|]. intros e He.
  unfold in_shape in Hs. rewrite Forall_forall in Hs. specialize (Hs e He). unfold at_pos. cbn.
  destruct (Z.eqb_spec (erow e) i) as [->|N1].
  - rewrite Z.eqb_refl. cbn. destruct (Z.eqb_spec (ecol e) j) as [->|N2]; [apply Z.eqb_refl|].
    apply Z.eqb_neq. intros K. apply N2. apply Hq; auto; lia.
  - cbn. replace (p (erow e) =? p i) with false; [reflexivity|]. symmetry. apply Z.eqb_neq. intros K. apply N1. apply Hp; auto; lia.
Qed.

Lemma is_perm_inj n p : is_perm n p -> forall a b, 0 <= a < n -> 0 <= b < n -> zn 0 p a = zn 0 p b -> a = b.
Proof.
  intros (Hl & ND & _) a b Ha Hb E. unfold zlen in Hl. unfold zn in E.
  rewrite NoDup_nth in ND. assert (Z.to_nat a = Z.to_nat b) by (apply (ND (Z.to_nat a) (Z.to_nat b)); [lia|lia|exact E]). lia.
Qed.

Lemma is_perm_range n p i : is_perm n p -> 0 <= i < n -> 0 <= zn 0 p i < n.
Proof. intros (Hl & _ & H) Hi. rewrite Forall_forall in H. apply H. apply zn_In. lia. Qed.

Lemma in_shape_size M rows cols : coo_ok M -> coo_find_size M = (rows, cols) -> in_shape rows cols (o_entries M).
Proof. intros H E. destruct (coo_size_shape M H) as (_ & _ & K). now rewrite E in K. Qed.

Lemma coo_ok_permuted M rows cols (f : entry S -> entry S) : coo_ok M -> o_set M = true -> coo_find_size M = (rows, cols) ->
  (forall e, In e (o_entries M) -> 0 <= erow (f e) < rows /\ 0 <= ecol (f e) < cols) ->
  coo_ok (Coo (o_rows M) (o_cols M) (o_set M) (map f (o_entries M))).
Proof.
  intros (Hr & Hc & _) Es Ef H. unfold coo_ok. cbn. rewrite Es. split; [exact Hr|]. split; [exact Hc|].
  unfold coo_find_size in Ef. rewrite Es in Ef. injection Ef as -> ->. apply Forall_forall. intros e He. apply in_map_iff in He.
  destruct He as (e' & <- & He'). now apply H.
Qed.

Lemma coo_permute_rows_cols_mat M rp cp rows cols : coo_ok M -> coo_find_size M = (rows, cols) -> is_perm rows rp -> is_perm cols cp ->
  exists M', coo_permute_rows_cols M rp cp = Ok M' /\ o_size M' = o_size M /\ (o_set M = true -> coo_ok M') /\
    forall i j, 0 <= i < rows -> 0 <= j < cols -> mat_of (o_entries M') (zn 0 rp i) (zn 0 cp j) = mat_of (o_entries M) i j.
Proof.
  intros H Ef Hr Hc. pose proof (in_shape_size M rows cols H Ef) as Hs.
  rewrite coo_permute_spec; [|exact H|rewrite Ef; apply Hr|rewrite Ef; apply Hc].
  eexists. split; [reflexivity|]. split; [reflexivity|]. split.
  - intros Es. eapply coo_ok_permuted; eauto. intros e He. unfold in_shape in Hs. rewrite Forall_forall in Hs. specialize (Hs e He). cbn.
    split; [apply is_perm_range; tauto|apply is_perm_range; tauto].
  - intros i j Hi Hj. cbn. apply (mat_of_permute _ rows cols (zn 0 rp) (zn 0 cp)); auto; now apply is_perm_inj.
Qed.

Lemma coo_permute_rows_mat M rp rows cols : coo_ok M -> coo_find_size M = (rows, cols) -> is_perm rows rp ->
  exists M', coo_permute_rows M rp = Ok M' /\ o_size M' = o_size M /\ (o_set M = true -> coo_ok M') /\
    forall i j, 0 <= i < rows -> 0 <= j < cols -> mat_of (o_entries M') (zn 0 rp i) j = mat_of (o_entries M) i j.
Proof.
  intros H Ef Hr. pose proof (in_shape_size M rows cols H Ef) as Hs.
  rewrite coo_permute_rows_spec; [|exact H|rewrite Ef; apply Hr].
  eexists. split; [reflexivity|]. split; [reflexivity|]. split.
  - intros Es. eapply coo_ok_permuted; eauto. intros e He. unfold in_shape in Hs. rewrite Forall_forall in Hs. specialize (Hs e He). cbn.
    split; [apply is_perm_range; tauto|tauto].
  - intros i j Hi Hj. cbn. apply (mat_of_permute _ rows cols (zn 0 rp) (fun c => c)); auto; now apply is_perm_inj.
Qed.

Lemma coo_permute_cols_mat M cp rows cols : coo_ok M -> coo_find_size M = (rows, cols) -> is_perm cols cp ->
  exists M', coo_permute_cols M cp = Ok M' /\ o_size M' = o_size M /\ (o_set M = true -> coo_ok M') /\
    forall i j, 0 <= i < rows -> 0 <= j < cols -> mat_of (o_entries M') i (zn 0 cp j) = mat_of (o_entries M) i j.
Proof.
  intros H Ef Hr. pose proof (in_shape_size M rows cols H Ef) as Hs.
  rewrite coo_permute_cols_spec; [|exact H|rewrite Ef; apply Hr].
  eexists. split; [reflexivity|]. split; [reflexivity|]. split.
  - intros Es. eapply coo_ok_permuted; eauto. intros e He. unfold in_shape in Hs. rewrite Forall_forall in Hs. specialize (Hs e He). cbn.
    split; [tauto|apply is_perm_range; tauto].
  - intros i j Hi Hj. cbn. apply (mat_of_permute _ rows cols (fun c => c) (zn 0 cp)); auto; now apply is_perm_inj.
Qed.

Lemma coo_size_reported d M0 ops M rows cols : coo_start d = Ok M0 -> Forall added_ok ops -> coo_run M0 ops = Ok M ->
  declared d ops = Some (rows, cols) -> o_rows M = rows /\ o_cols M = cols.
Proof.
  intros E Ha H Ed. destruct (coo_assembled d M0 ops M E Ha H) as (_ & H2 & _). rewrite Ed in H2. unfold o_size in H2.
  destruct (o_set M); [|discriminate]. now injection H2 as -> ->.
Qed.

Lemma coo_produced_size d M0 ops M A D : coo_start d = Ok M0 -> Forall added_ok ops -> forallb is_add ops = true -> coo_run M0 ops = Ok M ->
  coo_to_sparse M = Ok A -> coo_to_dense M = Ok D ->
  (c_rows A, c_cols A) = (d_rows D, d_cols D) /\
  (c_rows A, c_cols A) = match d with
     | Some s => s
     | None => (Z.max 1 (bound erow (flat_map added ops)), Z.max 1 (bound ecol (flat_map added ops))) end.
Proof.
  intros E Ha Hb H EA ED. pose proof (coo_no_set_size_fits d M0 ops M E Ha Hb H) as Hf. cbn in Hf.
  destruct (coo_assembled d M0 ops M E Ha H) as (H1 & H2 & H3 & H4). rewrite <- H3 in Hf. specialize (H4 Hf).
  destruct (coo_to_sparse_exact M H4) as (A' & EA' & _ & K1 & K2 & _). rewrite EA in EA'. injection EA' as <-.
  destruct (coo_to_dense_gives M d_empty H4) as (D' & ED' & _ & K3 & K4 & _). unfold coo_to_dense in ED. rewrite ED in ED'. injection ED' as <-.
  rewrite K1, K2, K3, K4. split; [reflexivity|]. rewrite <- surjective_pairing, H3.
  apply coo_start_inv in E. destruct E as (E1 & _). apply coo_run_inv in H; [|exact Ha]. destruct H as (Hacc & _). rewrite E1 in Hacc.
  apply no_set_size_in_shape in Hacc; [|exact Hb]. destruct Hacc as (-> & _). unfold assembled_size. now destruct d.
Qed.

End CooMore.
