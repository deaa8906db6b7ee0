(** SparseMatrix::Transpose is a stable counting sort by column. *)

From Coq Require Import ZArith List Lia Bool Permutation Sorted.
From Verif Require Import Base Scalar Spec Dense Sparse LoopFacts CsrFacts SumFacts Rows.
Import ListNotations.
Open Scope Z_scope.

Section Transpose.
Context {S : scalar}.
Notation T := (car S).
Implicit Types (A B : csr S).

Definition col_entries (A : csr S) (j : Z) : list (entry S) := filter (fun e => ecol e =? j) (entries A).
Definition col_row (A : csr S) (j : Z) : list (Z * T) := map (fun e => (erow e, evalue e)) (col_entries A j).

Lemma map_ecol_entries A : csr_valid A -> map ecol (entries A) = c_idx A.
Proof.
  intros V. rewrite entries_positions, map_map. unfold entry_at. cbn.
  rewrite <- (map_map snd (idx A)), positions_snd by exact V.
  unfold nnz. rewrite <- (cv_len V). apply map_zn_zrange.
Qed.

Lemma fold_left_count {X} (l : list X) a : fold_left (fun n _ => n + 1) l a = a + zlen l.
Proof.
  revert a; induction l; intros b; cbn; [rewrite zlen_nil; lia|]. rewrite IHl, zlen_cons. lia.
Qed.

Lemma sp_transpose_rows A :
  csr_valid A -> sp_transpose A = Ok (csr_of_rows (c_cols A) (c_rows A) (col_row A)).
Proof.
  intros V. unfold sp_transpose, sp_nnz. pose proof (cv_cols V) as Hc. pose proof (cv_rows V) as Hr.
  fold (nnz A). pose proof (zlen_nonneg (c_val A)) as Hn. fold (nnz A) in Hn.
  rewrite !vec_ok by lia. cbn [bind].
  set (rows := col_row A).
  assert (Hin : forall e, In e (entries A) -> 0 <= erow e < c_rows A /\ 0 <= ecol e < c_cols A).
  { pose proof (entries_in_shape A V) as Sh. unfold in_shape in Sh. now rewrite Forall_forall in Sh. }
  assert (Htot : off rows (c_cols A) = nnz A).
  { unfold rows, col_row. rewrite off_map. unfold off, cat, col_entries.
    rewrite <- entries_length by exact V. unfold zlen. f_equal. apply Permutation_length.
    apply Permutation_buckets. intros e He. apply Hin in He. tauto. }
  assert (Hrows : forall j, zlen (rows j) = zlen (filter (fun e => ecol e =? j) (entries A))).
  { intros j. unfold rows, col_row. apply zlen_map. }
  (* counting *)
  destruct (scatter 0 (fun c => c + 1) (fun n _ => n + 1)
    (fun ip col => n <- get ip (col + 1) ;; set ip (col + 1) (n + 1)) (c_idx A)
    (repeat 0 (Z.to_nat (c_cols A + 1)))) as (ip1 & E1 & L1 & V1).
  { intros c Hc'. rewrite zlen_repeat. destruct (In_zn 0 _ _ Hc') as (k & Hk & <-).
    pose proof (cv_idx V k Hk) as H. unfold idx in H. lia. }
  { intros c o Hc' Ho. rewrite zlen_repeat in Ho. destruct (In_zn 0 _ _ Hc') as (k & Hk & <-).
    pose proof (cv_idx V k Hk) as H. unfold idx in H.
    rewrite (get_ok 0) by lia. cbn [bind]. now rewrite set_ok by lia. }
  rewrite E1. clear E1. cbn [bind]. rewrite zlen_repeat in *.
  assert (C1 : forall j, 0 <= j < c_cols A -> zn 0 ip1 (j + 1) = zlen (rows j)).
  { intros j Hj. rewrite V1 by lia. rewrite zn_repeat by lia. rewrite fold_left_count.
    unfold rows, col_row, col_entries. rewrite zlen_map.
    rewrite <- (map_ecol_entries A V), filter_map, zlen_map. cbn. f_equal. apply filter_ext. intros e.
    destruct (Z.eqb_spec (ecol e + 1) (j + 1)), (Z.eqb_spec (ecol e) j); lia. }
  assert (C0 : zn 0 ip1 0 = 0).
  { rewrite V1 by lia. rewrite zn_repeat by lia. rewrite filter_none; [reflexivity|].
    intros c Hc'. destruct (In_zn 0 _ _ Hc') as (k & Hk & <-).
    pose proof (cv_idx V k Hk) as H. unfold idx in H. apply Z.eqb_neq. lia. }
  clear V1.
  (* prefix sums *)
  apply res_of_returns. apply returns_bind.
  apply (returns_for (fun i ip => zlen ip = c_cols A + 1 /\
     (forall j, 0 <= j <= i -> zn 0 ip j = off rows j) /\
     (forall j, i < j <= c_cols A -> zn 0 ip j = zlen (rows (j - 1))))).
  { exact Hc. }
  { split; [lia|]. split.
    - intros j Hj. replace j with 0 by lia. rewrite C0. reflexivity.
    - intros j Hj. rewrite <- C1 by lia. f_equal. lia. }
  { intros i ip Hi (Hl & Ha & Hb). rewrite (get_ok 0) by lia. cbn [bind].
    rewrite (get_ok 0) by lia. cbn [bind]. apply returns_set; [lia|]. rewrite zlen_upd.
    split; [exact Hl|]. split.
    - intros j Hj. rewrite zn_upd by lia. destruct (Z.eqb_spec j (i + 1)) as [->|].
      + rewrite (Hb (i + 1)) by lia. rewrite (Ha i) by lia. rewrite off_succ by lia.
        replace (i + 1 - 1) with i by lia. lia.
      + apply Ha. lia.
    - intros j Hj. rewrite zn_upd by lia. destruct (Z.eqb_spec j (i + 1)); [lia|]. apply Hb. lia. }
  intros ip2 (L2 & A2 & _). clear C1 C0 L1 ip1.
  (* placement *)
  apply returns_bind.
  rewrite (for_entries_entries A _ _ (fun st e => let '(ip, ix, d) := st in
     p <- get ip (ecol e) ;; ix <- set ix p (erow e) ;; d <- set d p (evalue e) ;;
     ip <- set ip (ecol e) (p + 1) ;; Ok (ip, ix, d))).
  2: exact V.
  2:{ intros i k [[ip ix] d] Hk. apply position_bounds in Hk; auto.
      rewrite get_idx, get_val by (auto; tauto). reflexivity. }
  pose (cnt := fun (l : list (entry S)) j => filter (fun e => ecol e =? j) l).
  apply (returns_foldM (fun pre st => let '(ip, ix, d) := st in
     zlen ip = c_cols A + 1 /\ zlen ix = nnz A /\ zlen d = nnz A /\
     (forall j, 0 <= j < c_cols A -> zn 0 ip j = off rows j + zlen (cnt pre j)) /\
     (forall j t, 0 <= j < c_cols A -> 0 <= t < zlen (cnt pre j) ->
        zn 0 ix (off rows j + t) = erow (zn (0, 0, s0) (cnt pre j) t) /\
        zn s0 d (off rows j + t) = evalue (zn (0, 0, s0) (cnt pre j) t)))).
  { split; [exact L2|]. split; [rewrite zlen_repeat; lia|]. split; [rewrite zlen_repeat; lia|]. split.
    - intros j Hj. rewrite A2 by lia. cbn. rewrite zlen_nil. lia.
    - intros j t Hj Ht. cbn in Ht. rewrite zlen_nil in Ht. lia. }
  { intros pre e post [[ip ix] d] E (Li & Lx & Ld & Hip & Hx).
    assert (He : 0 <= erow e < c_rows A /\ 0 <= ecol e < c_cols A) by (apply Hin; rewrite E; apply in_elt).
    destruct He as (_ & He).
    assert (Hlt : off rows (ecol e) + zlen (cnt pre (ecol e)) < off rows (ecol e + 1)).
    { rewrite off_succ by lia. rewrite Hrows, E.
      rewrite filter_app, zlen_app. cbn [filter]. rewrite Z.eqb_refl, zlen_cons.
      unfold cnt. pose proof (zlen_nonneg (filter (fun e0 => ecol e0 =? ecol e) post)). lia. }
    pose proof (off_mono rows (ecol e + 1) (c_cols A) ltac:(lia)).
    pose proof (off_nonneg rows (ecol e)). pose proof (zlen_nonneg (cnt pre (ecol e))).
    rewrite (get_ok 0) by lia. cbn [bind]. rewrite Hip by lia.
    do 3 (rewrite set_ok by lia; cbn [bind returns]).
    rewrite !zlen_upd. do 3 (split; [assumption|]).
    assert (Hcnt : forall j, cnt (pre ++ [e]) j = cnt pre j ++ if ecol e =? j then [e] else []).
    { intros j. unfold cnt. rewrite filter_app. reflexivity. }
    split.
    - intros j Hj. rewrite zn_upd by lia. rewrite Hcnt, zlen_app.
      rewrite (Z.eqb_sym (ecol e)). destruct (Z.eqb_spec j (ecol e)) as [->|].
      + rewrite zlen_cons, zlen_nil. lia.
      + rewrite zlen_nil. rewrite Hip by lia. lia.
    - intros j t Hj Ht. rewrite Hcnt in Ht |- *. rewrite zlen_app in Ht.
      pose proof (off_nonneg rows j).
      assert (Hp : 0 <= off rows (ecol e) + zlen (cnt pre (ecol e)) < nnz A) by lia.
      rewrite !zn_upd by lia.
      destruct (Z.eqb_spec (off rows j + t) (off rows (ecol e) + zlen (cnt pre (ecol e)))) as [Eq|Ne].
      + assert (Hje : j = ecol e).
        { destruct (Z.eqb_spec (ecol e) j) as [|Hne]; [auto|]. exfalso. rewrite zlen_nil in Ht.
          destruct (Z_lt_le_dec j (ecol e)).
          - pose proof (off_mono rows (j + 1) (ecol e) ltac:(lia)).
            assert (off rows j + zlen (cnt pre j) <= off rows (j + 1)).
            { rewrite off_succ by lia. rewrite Hrows, E.
              rewrite filter_app, zlen_app. unfold cnt.
              pose proof (zlen_nonneg (filter (fun e0 => ecol e0 =? j) (e :: post))). lia. }
            lia.
          - pose proof (off_mono rows (ecol e + 1) j ltac:(lia)). lia. }
        subst j. rewrite Z.eqb_refl in *. replace t with (zlen (cnt pre (ecol e))) by lia.
        rewrite (zn_app_r _ (cnt pre (ecol e)) [e]) by apply Z.le_refl. rewrite Z.sub_diag. auto.
      + assert (Ht' : t < zlen (cnt pre j)).
        { destruct (Z.eqb_spec (ecol e) j) as [Ej|]; rewrite ?zlen_cons, ?zlen_nil in Ht; [subst j|]; lia. }
        rewrite (zn_app_l _ (cnt pre j)) by lia. apply Hx; lia. }
  intros [[ip3 ix3] d3] (L3 & Lx3 & Ld3 & A3 & X3).
  (* shift back *)
  apply returns_bind.
  apply (returns_for_down (fun i ip => zlen ip = c_cols A + 1 /\
     (forall j, i < j <= c_cols A -> zn 0 ip j = off rows j) /\
     (forall j, 0 <= j < i -> zn 0 ip j = off rows (j + 1)))).
  { exact Hc. }
  { split; [exact L3|]. split; [intros; lia|]. intros j Hj. rewrite A3 by lia. rewrite off_succ by lia.
    rewrite Hrows. reflexivity. }
  { intros i ip Hi (Hl & Ha & Hb). rewrite (get_ok 0) by lia. cbn [bind]. apply returns_set; [lia|].
    rewrite zlen_upd. split; [exact Hl|]. split.
    - intros j Hj. rewrite zn_upd by lia. destruct (Z.eqb_spec j i) as [->|].
      + rewrite Hb by lia. f_equal. lia.
      + apply Ha. lia.
    - intros j Hj. rewrite zn_upd by lia. destruct (Z.eqb_spec j i); [lia|]. apply Hb. lia. }
  intros ip4 (L4 & A4 & _). rewrite set_ok by lia. cbn [bind].
  rewrite (sp_make_rows (c_cols A) (c_rows A) rows); [reflexivity|lia|lia| | | | ].
  - intros i p Hi Hp. unfold rows, col_row, col_entries in Hp. apply in_map_iff in Hp.
    destruct Hp as (e & <- & He). apply filter_In in He. cbn. apply Hin. tauto.
  - apply (list_ext 0).
    + rewrite zlen_upd, zlen_map_zrange by lia. exact L4.
    + intros i Hi. rewrite zlen_upd in Hi. rewrite zn_upd by lia. rewrite zn_map_zrange by lia.
      destruct (Z.eqb_spec i 0) as [->|]; [reflexivity|]. apply A4. lia.
  - rewrite map_cat. apply (cat_ext_zn 0); [lia|rewrite off_map; lia|].
    intros i t Hi Ht. rewrite off_map. rewrite zlen_map in Ht.
    unfold rows, col_row in Ht. rewrite zlen_map in Ht. destruct (X3 i t Hi Ht) as (Ha & _).
    rewrite Ha. unfold rows, col_row. rewrite map_map. cbn.
    symmetry. apply (zn_map (0, 0, s0) 0 erow). exact Ht.
  - rewrite map_cat. apply (cat_ext_zn s0); [lia|rewrite off_map; lia|].
    intros i t Hi Ht. rewrite off_map. rewrite zlen_map in Ht.
    unfold rows, col_row in Ht. rewrite zlen_map in Ht. destruct (X3 i t Hi Ht) as (_ & Ha).
    rewrite Ha. unfold rows, col_row. rewrite map_map. cbn.
    symmetry. apply (zn_map (0, 0, s0) s0 evalue). exact Ht.
Qed.

Lemma sp_transpose_spec A :
  csr_valid A ->
  exists B, sp_transpose A = Ok B /\ csr_valid B /\ c_rows B = c_cols A /\ c_cols B = c_rows A /\
    (forall j, 0 <= j < c_cols A -> row_entries B j = map swap_entry (col_entries A j)) /\
    Permutation (entries B) (map swap_entry (entries A)).
Proof.
  intros V. eexists. split; [now apply sp_transpose_rows|].
  assert (Hin : forall e, In e (entries A) -> 0 <= erow e < c_rows A /\ 0 <= ecol e < c_cols A).
  { pose proof (entries_in_shape A V) as Sh. unfold in_shape in Sh. now rewrite Forall_forall in Sh. }
  assert (Hrow : forall j, row_to_entries j (col_row A j) = map swap_entry (col_entries A j)).
  { intros j. unfold row_to_entries, col_row. rewrite map_map. apply map_ext_in. intros e He.
    unfold col_entries in He. apply filter_In in He. destruct He as (_ & He). apply Z.eqb_eq in He.
    unfold swap_entry. cbn. now rewrite He. }
  split; [|split; [reflexivity|split; [reflexivity|split]]].
  - apply csr_of_rows_valid; [apply (cv_cols V)|apply (cv_rows V)|].
    intros i p Hi Hp. unfold col_row, col_entries in Hp. apply in_map_iff in Hp.
    destruct Hp as (e & <- & He). apply filter_In in He. cbn. apply Hin. tauto.
  - intros j Hj. rewrite csr_of_rows_row by exact Hj. apply Hrow.
  - rewrite csr_of_rows_entries. rewrite (flat_map_ext_in _ (fun j => map swap_entry (col_entries A j))) by (intros; apply Hrow).
    rewrite <- map_flat_map. apply Permutation_map. apply Permutation_buckets.
    intros e He. apply Hin in He. tauto.
Qed.

End Transpose.

(** The rows of the transpose are sorted: the entries are stored row by row. *)
Section TransposeSorted.
Context {S : scalar}.
Notation T := (car S).
Implicit Types (A B : csr S).

Lemma Sorted_zrange_blocks (f : Z -> list Z) lo n :
  (forall i x, In x (f i) -> x = i) -> Sorted Z.le (flat_map f (zrange lo (lo + Z.of_nat n))).
Proof.
  intros H. apply StronglySorted_Sorted. revert lo. induction n; intros lo.
  - rewrite zrange_empty by lia. constructor.
  - rewrite zrange_cons by lia. cbn [flat_map].
    assert (Hl : forall l, (forall x, In x l -> x = lo) ->
      StronglySorted Z.le (l ++ flat_map f (zrange (lo + 1) (lo + Z.of_nat (Datatypes.S n))))).
    { induction l as [|a l IH]; intros Hx; cbn [app].
      - replace (lo + Z.of_nat (Datatypes.S n)) with (lo + 1 + Z.of_nat n) by lia. apply IHn.
      - constructor; [apply IH; intros; apply Hx; right; assumption|].
        rewrite Forall_app. split; apply Forall_forall; intros x Hi.
        + rewrite (Hx a) by (left; reflexivity). rewrite (Hx x) by (right; assumption). lia.
        + rewrite (Hx a) by (left; reflexivity). apply in_flat_map in Hi. destruct Hi as (k & Hk & Hi).
          apply In_zrange in Hk. apply H in Hi. lia. }
    apply Hl. apply H.
Qed.

Lemma entries_sorted_rows A : csr_valid A -> StronglySorted Z.le (map erow (entries A)).
Proof.
  intros V. unfold entries. rewrite map_flat_map. apply Sorted_StronglySorted; [intros a b c; lia|].
  pose proof (cv_rows V). replace (c_rows A) with (0 + Z.of_nat (Z.to_nat (c_rows A))) by lia.
  apply Sorted_zrange_blocks. intros i x Hx. unfold row_entries in Hx. rewrite map_map in Hx.
  apply in_map_iff in Hx. destruct Hx as (k & <- & _). reflexivity.
Qed.

Lemma StronglySorted_filter_map {X} (h : X -> Z) p (l : list X) :
  StronglySorted Z.le (map h l) -> StronglySorted Z.le (map h (filter p l)).
Proof.
  induction l as [|a l IH]; cbn; [auto|]. intros H. inversion H; subst. specialize (IH H2).
  destruct (p a); [|exact IH]. cbn. constructor; [exact IH|].
  rewrite Forall_forall in *. intros x Hx. apply H3. apply in_map_iff in Hx. destruct Hx as (y & <- & Hy).
  apply in_map. apply filter_In in Hy. tauto.
Qed.

Lemma StronglySorted_zn (l : list Z) i : StronglySorted Z.le l -> 0 <= i -> i + 1 < zlen l -> zn 0 l i <= zn 0 l (i + 1).
Proof.
  intros H. revert i. induction H as [|a l Hs IH Hf]; intros i Hi Hl; [rewrite zlen_nil in Hl; lia|].
  rewrite zlen_cons in Hl. destruct (Z.eq_dec i 0) as [->|].
  - rewrite zn_cons_0, zn_cons_pos by lia. rewrite Forall_forall in Hf. apply Hf. apply zn_In. lia.
  - rewrite !zn_cons_pos by lia. replace (i + 1 - 1) with (i - 1 + 1) by lia. apply IH; lia.
Qed.

Lemma rows_sorted_of_rows rows cols (f : Z -> list (Z * T)) :
  0 <= rows -> (forall i, 0 <= i < rows -> StronglySorted Z.le (map fst (f i))) ->
  rows_sorted (csr_of_rows rows cols f).
Proof.
  intros Hr H i k Hi Hk Hk'. cbn [c_rows csr_of_rows] in Hi.
  rewrite csr_of_rows_ptr in Hk, Hk' by lia. rewrite off_succ in Hk' by lia.
  unfold idx. cbn [c_idx csr_of_rows]. rewrite !map_cat.
  assert (E : forall t, 0 <= t < zlen (f i) ->
     zn 0 (cat (fun i => map fst (f i)) rows) (off f i + t) = zn 0 (map fst (f i)) t).
  { intros t Ht. rewrite <- (off_map fst f). apply (zn_cat 0 (fun i => map fst (f i))); [exact Hi|]. now rewrite zlen_map. }
  replace k with (off f i + (k - off f i)) by lia.
  replace (off f i + (k - off f i) + 1) with (off f i + (k - off f i + 1)) by lia.
  rewrite !E by lia. apply StronglySorted_zn; [now apply H|lia|]. rewrite zlen_map. lia.
Qed.

Lemma sp_transpose_sorted A B : csr_valid A -> sp_transpose A = Ok B -> rows_sorted B.
Proof.
  intros V E. rewrite sp_transpose_rows in E by exact V. injection E as <-.
  apply rows_sorted_of_rows; [apply (cv_cols V)|]. intros i _. unfold col_row, col_entries.
  rewrite map_map. cbn. apply StronglySorted_filter_map. now apply entries_sorted_rows.
Qed.

End TransposeSorted.

Section TransposeMat.
Context {S : scalar}.
Implicit Types (A B : csr S).

Lemma sp_transpose_full A :
  csr_valid A ->
  exists B, sp_transpose A = Ok B /\ csr_valid B /\ c_rows B = c_cols A /\ c_cols B = c_rows A /\
    nnz B = nnz A /\ rows_sorted B /\
    Permutation (entries B) (map (fun e => (ecol e, erow e, evalue e)) (entries A)).
Proof.
  intros V. destruct (sp_transpose_spec A V) as (B & E & VB & H1 & H2 & _ & HP).
  exists B. do 4 (split; [assumption|]). split; [|split; [now apply (sp_transpose_sorted A)|exact HP]].
  rewrite <- !entries_length by assumption. unfold zlen. f_equal.
  rewrite (Permutation_length HP). apply map_length.
Qed.

Hypothesis R : ring_laws S.

Lemma sp_transpose_mat A B : csr_valid A -> sp_transpose A = Ok B -> forall i j, csr_mat B i j = csr_mat A j i.
Proof.
  intros V E i j. destruct (sp_transpose_spec A V) as (B' & E' & _ & _ & _ & _ & HP).
  rewrite E in E'. injection E' as <-. unfold csr_mat. rewrite (mat_of_perm R _ _ i j HP). now apply mat_of_swap.
Qed.

Lemma sp_transpose_twice A :
  csr_valid A ->
  exists B C, sp_transpose A = Ok B /\ sp_transpose B = Ok C /\ csr_valid C /\
    c_rows C = c_rows A /\ c_cols C = c_cols A /\ nnz C = nnz A /\
    forall i j, csr_mat C i j = csr_mat A i j.
Proof.
  intros V. destruct (sp_transpose_full A V) as (B & E & VB & R1 & C1 & N1 & _).
  destruct (sp_transpose_full B VB) as (C & E2 & VC & R2 & C2 & N2 & _).
  exists B, C. do 3 (split; [assumption|]). split; [congruence|]. split; [congruence|]. split; [congruence|].
  intros i j. rewrite (sp_transpose_mat B C VB E2), (sp_transpose_mat A B V E). reflexivity.
Qed.

End TransposeMat.
