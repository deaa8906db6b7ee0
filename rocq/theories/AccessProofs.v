(** Writing into a SparseMatrix through the references and views it hands out: proofs. *)

From Coq Require Import ZArith List Lia Bool.
From Verif Require Import Base Scalar Spec Sparse CsrFacts HistoryProofs ShortSpec ShortProofs Access AccessSpec.
Import ListNotations.
Open Scope Z_scope.

Section AccessProofs.
Context {S : scalar}.
Implicit Types A : csr S.

Lemma change_nth_length {X} (l : list X) k f : length (change_nth l k f) = length l.
Proof. revert k. induction l; intros [|k]; cbn; auto. Qed.

Lemma zlen_change {X} (l : list X) k f : zlen (change_nth l k f) = zlen l.
Proof. unfold zlen. now rewrite change_nth_length. Qed.

Lemma zn_change {X} (d : X) l k f j : 0 <= k < zlen l -> 0 <= j ->
  zn d (change_nth l (Z.to_nat k) f) j = if j =? k then f (zn d l k) else zn d l j.
Proof.
  intros Hk Hj. unfold zn, zlen in *.
  replace (j =? k) with (Nat.eqb (Z.to_nat j) (Z.to_nat k))
    by (destruct (Z.eqb_spec j k); [subst; apply Nat.eqb_refl|apply Nat.eqb_neq; lia]).
  assert (H : (Z.to_nat k < length l)%nat) by lia. clear Hk Hj.
  generalize dependent (Z.to_nat k). generalize (Z.to_nat j). clear k j.
  induction l as [|x l IH]; intros j k H; cbn in H; [lia|].
  destruct k as [|k], j as [|j]; cbn; try reflexivity. apply IH. lia.
Qed.

Lemma before_ptr A row : csr_valid A -> 0 <= row <= c_rows A -> stored_before (entries A) row = ptr A row.
Proof.
  intros V H. unfold stored_before. rewrite entries_positions, filter_map, zlen_map.
  cbn. unfold positions. rewrite (zrange_app 0 row (c_rows A)) by lia.
  rewrite flat_map_app, filter_app, filter_all, filter_none, app_nil_r.
  - rewrite <- (zlen_map snd), map_flat_map.
    rewrite (flat_map_ext_in _ (fun i => zrange (ptr A i) (ptr A (i + 1))))
      by (intros i _; rewrite map_map; apply map_id).
    rewrite positions_snd_range by auto. rewrite zlen_zrange; pose proof (ptr_bounds A row V ltac:(lia)); lia.
  - intros [i k] Hi. apply in_flat_map in Hi. destruct Hi as (i' & Hi & Hk). apply In_zrange in Hi.
    apply in_map_iff in Hk. destruct Hk as (k' & E & _). injection E as <- <-. unfold erow; cbn. lia.
  - intros [i k] Hi. apply in_flat_map in Hi. destruct Hi as (i' & Hi & Hk). apply In_zrange in Hi.
    apply in_map_iff in Hk. destruct Hk as (k' & E & _). injection E as <- <-. unfold erow; cbn. lia.
Qed.

Lemma stored_length A row : csr_valid A -> 0 <= row < c_rows A ->
  zlen (stored_in_row A row) = ptr A (row + 1) - ptr A row.
Proof.
  intros V H. unfold stored_in_row. rewrite filter_row_entries by auto. unfold row_entries.
  pose proof (cv_mono V row H). rewrite zlen_map, zlen_zrange; lia.
Qed.

Lemma view_ok A row : csr_valid A -> 0 <= row < c_rows A ->
  sp_indices_view A row = Ok (ptr A row, ptr A (row + 1) - ptr A row).
Proof.
  intros V H. unfold sp_indices_view. replace ((0 <=? row) && (row <? c_rows A)) with true by lia.
  cbn [assert_ bind]. rewrite !get_ptr by (auto; lia). cbn [bind].
  pose proof (cv_mono V row H). replace (0 <=? ptr A (row + 1) - ptr A row) with true by lia. reflexivity.
Qed.

Lemma view_reads A row (d : entry S) : csr_valid A -> 0 <= row < c_rows A ->
  exists w, sp_indices_view A row = Ok w /\ iv_size w = zlen (stored_in_row A row) /\
  forall i, 0 <= i < iv_size w -> iv_read A w i = Ok (ecol (zn d (stored_in_row A row) i)).
Proof.
  intros V H. eexists. split; [apply view_ok; auto|]. unfold iv_size, iv_read. cbn [fst snd].
  split; [symmetry; apply stored_length; auto|]. intros i Hi.
  replace (i <? ptr A (row + 1) - ptr A row) with true by lia. cbn [assert_ bind].
  pose proof (ptr_bounds A row V ltac:(lia)). pose proof (ptr_bounds A (row + 1) V ltac:(lia)).
  rewrite get_idx by (auto; lia). unfold stored_in_row. rewrite filter_row_entries by auto.
  unfold row_entries. rewrite (zn_map 0) by (rewrite zlen_zrange; lia). rewrite zn_zrange by lia. reflexivity.
Qed.

(** The two elementary writes. *)
Lemma index_write A k c : csr_valid A -> 0 <= k < nnz A -> 0 <= c < c_cols A ->
  let B := CSR (c_rows A) (c_cols A) (c_ptr A) (upd (c_idx A) (Z.to_nat k) c) (c_val A) in
  csr_valid B /\ entries B = change_nth (entries A) (Z.to_nat k) (in_column c).
Proof.
  intros V Hk Hc B.
  assert (Hi : 0 <= k < zlen (c_idx A)) by (rewrite (cv_len V); exact Hk).
  assert (VB : csr_valid B).
  { destruct V. split; cbn; auto.
    - rewrite zlen_upd. assumption.
    - intros j Hj. rewrite zlen_upd in Hj. unfold idx in *. cbn. rewrite zn_upd by lia.
      destruct (j =? k); [lia|]. apply cv_idx. exact Hj. }
  split; [exact VB|].
  assert (N : zlen (entries A) = nnz A) by (apply entries_length; exact V).
  apply (list_ext (A := entry S) (0, 0, s0)).
  - transitivity (nnz B); [apply entries_length; exact VB|]. symmetry. etransitivity; [apply zlen_change|exact N].
  - intros j Hj. rewrite entries_length in Hj by exact VB. change (nnz B) with (nnz A) in Hj.
    rewrite (zn_change (X := entry S)) by (rewrite ?N; lia). rewrite !entries_positions.
    change (positions B) with (positions A).
    rewrite !(zn_map (B := entry S) (0, 0)) by (rewrite positions_length by exact V; lia).
    unfold entry_at. rewrite !zn_positions_snd by auto. unfold in_column, erow, evalue. cbn [fst snd].
    unfold idx, val. cbn [c_idx c_val B]. rewrite zn_upd by lia.
    destruct (Z.eqb_spec j k); [subst j|]; reflexivity.
Qed.

Lemma value_write A k v : csr_valid A -> 0 <= k < nnz A ->
  let B := CSR (c_rows A) (c_cols A) (c_ptr A) (c_idx A) (upd (c_val A) (Z.to_nat k) v) in
  csr_valid B /\ entries B = change_nth (entries A) (Z.to_nat k) (with_value v).
Proof.
  intros V Hk B.
  assert (M : nnz B = nnz A) by (unfold nnz; cbn; apply zlen_upd).
  assert (VB : csr_valid B).
  { destruct V. split; auto; try (rewrite M; assumption).
    cbn. rewrite zlen_upd. assumption. }
  split; [exact VB|].
  assert (N : zlen (entries A) = nnz A) by (apply entries_length; exact V).
  apply (list_ext (A := entry S) (0, 0, s0)).
  - transitivity (nnz A); [rewrite <- M; apply entries_length; exact VB|]. symmetry. etransitivity; [apply zlen_change|exact N].
  - intros j Hj. rewrite entries_length, M in Hj by exact VB.
    rewrite (zn_change (X := entry S)) by (rewrite ?N; lia). rewrite !entries_positions.
    change (positions B) with (positions A).
    rewrite !(zn_map (B := entry S) (0, 0)) by (rewrite positions_length by exact V; lia).
    unfold entry_at. rewrite !zn_positions_snd by auto. unfold with_value, erow, ecol. cbn [fst snd].
    unfold idx, val. cbn [c_idx c_val B]. rewrite zn_upd by (unfold nnz in *; lia).
    destruct (Z.eqb_spec j k); [subst j|]; reflexivity.
Qed.

Definition same_rows (A B : csr S) : Prop := c_rows B = c_rows A /\ c_cols B = c_cols A /\ c_ptr B = c_ptr A.

Lemma assign_ok A p : csr_valid A -> proper A p ->
  exists B, assign A p = Ok B /\ csr_valid B /\ same_rows A B /\ entries B = effect (entries A) p.
Proof.
  intros V H. destruct p as [row i c|k c|k v]; cbn [assign proper effect] in *.
  - destruct H as (Hr & Hi & Hc). rewrite stored_length in Hi by auto.
    rewrite view_ok by auto. cbn [bind]. unfold iv_write. cbn [fst snd].
    replace (i <? ptr A (row + 1) - ptr A row) with true by lia. cbn [assert_ bind].
    pose proof (ptr_bounds A row V ltac:(lia)). pose proof (ptr_bounds A (row + 1) V ltac:(lia)).
    rewrite set_ok by (rewrite (cv_len V); fold (nnz A); lia). cbn [bind].
    rewrite before_ptr by (auto; lia).
    destruct (index_write A (ptr A row + i) c V ltac:(lia) Hc) as (VB & E).
    eexists. split; [reflexivity|]. split; [exact VB|]. split; [repeat split|exact E].
  - destruct H as (Hk & Hc). rewrite entries_length in Hk by auto. unfold sp_set_index.
    rewrite set_ok by (rewrite (cv_len V); exact Hk). cbn [bind].
    destruct (index_write A k c V Hk Hc) as (VB & E).
    eexists. split; [reflexivity|]. split; [exact VB|]. split; [repeat split|exact E].
  - rewrite entries_length in H by auto. unfold sp_set_value. rewrite set_ok by exact H. cbn [bind].
    destruct (value_write A k v V H) as (VB & E).
    eexists. split; [reflexivity|]. split; [exact VB|]. split; [repeat split|exact E].
Qed.

Lemma effect_length (es : list (entry S)) p : length (effect es p) = length es.
Proof. destruct p; apply change_nth_length. Qed.

Lemma proper_same A B p : csr_valid A -> csr_valid B -> same_rows A B -> zlen (entries B) = zlen (entries A) ->
  proper A p -> proper B p.
Proof.
  intros V VB (R & C & P) N. destruct p; cbn; rewrite ?R, ?C, ?N; auto.
  intros (Hr & Hi & Hc). rewrite stored_length in * by (auto; lia). unfold ptr in *. rewrite P. auto.
Qed.

Lemma assign_all_ok (ps : list (assignment S)) : forall A, csr_valid A -> Forall (proper A) ps ->
  exists B, assign_all A ps = Ok B /\ csr_valid B /\ c_rows B = c_rows A /\ c_cols B = c_cols A /\
  entries B = fold_left effect ps (entries A).
Proof.
  unfold assign_all. induction ps as [|p ps IH]; intros A V H.
  - exists A. cbn. auto.
  - inversion H as [|? ? Hp Hps]; subst. destruct (assign_ok A p V Hp) as (B & E & VB & SR & EB).
    assert (N : zlen (entries B) = zlen (entries A)) by (rewrite EB; unfold zlen; now rewrite effect_length).
    destruct (IH B VB) as (C & EC & VC & RC & CC & HC).
    { eapply Forall_impl; [|exact Hps]. intros q. apply proper_same; auto. }
    exists C. cbn [foldM]. rewrite E. cbn [bind]. split; [exact EC|]. split; [exact VC|].
    destruct SR as (R1 & C1 & _). rewrite RC, CC, HC, EB. auto.
Qed.

Lemma view_rejected A row i c : csr_valid A ->
  (~ (0 <= row < c_rows A) -> sp_indices_view A row = Fail FAssert) /\
  (0 <= row < c_rows A -> zlen (stored_in_row A row) <= i ->
   (exists w, sp_indices_view A row = Ok w /\ iv_read A w i = Fail FAssert) /\ assign A (ThroughView row i c) = Fail FAssert).
Proof.
  intros V. split.
  - intros H. unfold sp_indices_view. replace ((0 <=? row) && (row <? c_rows A)) with false by lia. reflexivity.
  - intros H Hi. rewrite stored_length in Hi by auto. cbn [assign]. rewrite view_ok by auto. cbn [bind].
    unfold iv_read, iv_write. cbn [fst snd]. split; [eexists; split; [reflexivity|]; cbn [fst snd]|];
    replace (i <? ptr A (row + 1) - ptr A row) with false by lia; reflexivity.
Qed.

Lemma vector_rejected A k c v : csr_valid A -> ~ (0 <= k < zlen (entries A)) ->
  assign A (ToIndices k c) = Fail FUB /\ assign A (ToData k v) = Fail FUB.
Proof.
  intros V H. rewrite entries_length in H by auto. cbn [assign]. unfold sp_set_index, sp_set_value.
  rewrite !set_out; [split; reflexivity|exact H|rewrite (cv_len V); exact H].
Qed.

Lemma negative_index A row i c : csr_valid A -> 0 <= row < c_rows A -> 0 <= c < c_cols A -> i < 0 ->
  (stored_before (entries A) row + i < 0 -> assign A (ThroughView row i c) = Fail FUB) /\
  (0 <= stored_before (entries A) row + i ->
   exists B, assign A (ThroughView row i c) = Ok B /\ stored_in_row B row = stored_in_row A row /\
   exists e, nth_error (entries A) (Z.to_nat (stored_before (entries A) row + i)) = Some e /\ erow e < row /\
   entries B = change_nth (entries A) (Z.to_nat (stored_before (entries A) row + i)) (in_column c)).
Proof.
  intros V Hr Hc Hi. rewrite before_ptr by (auto; lia). cbn [assign]. rewrite view_ok by auto. cbn [bind].
  unfold iv_write. cbn [fst snd]. pose proof (cv_mono V row Hr).
  replace (i <? ptr A (row + 1) - ptr A row) with true by lia. cbn [assert_ bind].
  pose proof (ptr_bounds A row V ltac:(lia)) as Hp. pose proof (ptr_bounds A (row + 1) V ltac:(lia)).
  split; intros Hk.
  - rewrite set_out by lia. reflexivity.
  - rewrite set_ok by (rewrite (cv_len V); fold (nnz A); lia). cbn [bind].
    destruct (index_write A (ptr A row + i) c V ltac:(lia) Hc) as (VB & E).
    eexists. split; [reflexivity|]. split.
    + unfold stored_in_row. rewrite !filter_row_entries by auto. unfold row_entries, ptr, idx, val. cbn [c_ptr c_idx c_val].
      apply map_ext_in. intros k Hin. apply In_zrange in Hin. fold (ptr A row) (ptr A (row + 1)) in Hin.
      rewrite zn_upd by (rewrite ?(cv_len V); fold (nnz A); fold (ptr A row); lia).
      fold (ptr A row). replace (k =? ptr A row + i) with false by lia. reflexivity.
    + exists (zn ((0, 0, s0) : entry S) (entries A) (ptr A row + i)). repeat split.
      * apply nth_error_nth'. pose proof (entries_length A V) as N. unfold zlen in N. lia.
      * rewrite entries_positions, (zn_map (B := entry S) (0, 0)) by (rewrite positions_length by auto; lia).
        unfold entry_at, erow. cbn [fst snd].
        assert (P : In (zn (0, 0) (positions A) (ptr A row + i)) (positions A))
          by (apply zn_In; rewrite positions_length by auto; lia).
        pose proof (zn_positions_snd A (ptr A row + i) V ltac:(lia)) as Q.
        destruct (zn (0, 0) (positions A) (ptr A row + i)) as [r k]. cbn [fst snd] in *.
        apply In_positions in P. destruct P as (Pr & Pk).
        destruct (Z.lt_ge_cases r row); [assumption|].
        pose proof (ptr_mono A row r V ltac:(lia) ltac:(lia) ltac:(lia)). lia.
      * exact E.
Qed.

Lemma bad_column A k c : csr_valid A -> 0 <= k < zlen (entries A) -> ~ (0 <= c < c_cols A) ->
  exists B, assign A (ToIndices k c) = Ok B /\ ~ csr_valid B.
Proof.
  intros V Hk Hc. rewrite entries_length in Hk by auto. cbn [assign]. unfold sp_set_index.
  assert (Hi : 0 <= k < zlen (c_idx A)) by (rewrite (cv_len V); exact Hk).
  rewrite set_ok by exact Hi. cbn [bind]. eexists. split; [reflexivity|]. intros VB.
  pose proof (cv_idx VB k) as H. cbn in H. rewrite zlen_upd in H. specialize (H Hi).
  unfold idx in H. cbn in H. rewrite zn_upd, Z.eqb_refl in H by lia. contradiction.
Qed.

End AccessProofs.
