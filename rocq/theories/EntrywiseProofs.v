(** Members of SparseMatrix that keep the pattern and change values only. *)

From Coq Require Import ZArith List Lia Bool Permutation.
From Verif Require Import Base Scalar Spec Dense Sparse LoopFacts CsrFacts SumFacts Rows.
Import ListNotations.
Open Scope Z_scope.

Section Entrywise.
Context {S : scalar}.
Notation T := (car S).
Implicit Types (A B : csr S).

(** The outcome of such a member: values replaced by [h row col old]. *)
Lemma updates_upd A h body :
  csr_valid A ->
  (forall i k d, 0 <= i < c_rows A -> 0 <= k < nnz A -> 0 <= idx A k < c_cols A -> zlen d = nnz A -> zn s0 d k = val A k ->
     body i k d = Ok (upd d (Z.to_nat k) (h i (idx A k) (val A k)))) ->
  updates (sp_upd_data A body) A h.
Proof.
  intros V H. destruct (sp_upd_data_spec A h body V) as (B & E & VB & H1 & H2 & H3 & H4 & H5).
  { intros i k d Hi Hk Hl Hz. apply H; auto. now apply idx_bounds. }
  exists B. split; [exact E|]. split; [exact VB|]. split; [|exact H5]. unfold same_pattern. auto.
Qed.

Lemma entries_map_val A (g : T -> T) :
  csr_valid A -> entries (with_val A (map g (c_val A))) = map_values (fun _ _ v => g v) (entries A).
Proof.
  intros V. rewrite !entries_positions, with_val_positions. unfold map_values. rewrite map_map.
  apply map_ext_in. intros [i k] Hp. apply position_bounds in Hp; auto.
  unfold entry_at, val. cbn. f_equal. apply (zn_map s0). tauto.
Qed.

Lemma updates_map A (g : T -> T) :
  csr_valid A -> updates (Ok (with_val A (map g (c_val A)))) A (fun _ _ v => g v).
Proof.
  intros V. eexists; split; [reflexivity|]. split; [apply with_val_valid; auto; apply zlen_map|].
  split; [repeat split|]. now apply entries_map_val.
Qed.

(** ** Scaling *)

Lemma sp_scale_updates A v : csr_valid A -> updates (Ok (sp_scale A v)) A (fun _ _ a => smul a v).
Proof. intros V. apply (updates_map A (fun a => smul a v) V). Qed.

Lemma sp_div_updates A v :
  csr_valid A -> seqb v s0 = false -> updates (sp_div A v) A (fun _ _ a => sdiv a v).
Proof. intros V H. unfold sp_div. rewrite H. cbn. apply (updates_map A (fun a => sdiv a v) V). Qed.

Lemma sp_fill_updates A v :
  csr_valid A -> seqb v s0 = false -> updates (sp_fill A v) A (fun _ _ _ => v).
Proof. intros V H. unfold sp_fill. rewrite H. cbn. apply (updates_map A (fun _ => v) V). Qed.

(** Row loops that read something once per row. *)
Lemma row_read_loop A (f : Z -> res T) (g : Z -> T) (b : T -> Z -> list T -> res (list T)) :
  csr_valid A -> (forall i, 0 <= i < c_rows A -> f i = Ok (g i)) ->
  (d <- for_ 0 (c_rows A) (c_val A) (fun i d =>
     s <- f i ;; lo <- get (c_ptr A) i ;; hi <- get (c_ptr A) (i + 1) ;;
     for_ lo hi d (fun j d => b s j d)) ;;
   Ok (CSR (c_rows A) (c_cols A) (c_ptr A) (c_idx A) d))
  = sp_upd_data A (fun i j d => b (g i) j d).
Proof.
  intros V H. unfold sp_upd_data, for_entries. f_equal. apply for_ext. intros i d Hi.
  rewrite H by exact Hi. reflexivity.
Qed.

Lemma sp_scale_rows_updates A values :
  csr_valid A -> zlen values = c_rows A ->
  updates (sp_scale_rows A values) A (fun i _ a => smul a (vec_of values i)).
Proof.
  intros V Hl. unfold sp_scale_rows. rewrite Hl, Z.eqb_refl. cbn [assert_ bind].
  rewrite (row_read_loop A _ (vec_of values) (fun s j d => a <- get d j ;; set d j (smul a s)) V).
  - apply updates_upd; auto. intros i k d Hi Hk _ Hd Hz.
    rewrite (get_ok s0) by lia. cbn [bind]. rewrite set_ok by lia. now rewrite Hz.
  - intros i Hi. apply get_ok. lia.
Qed.

Lemma sp_scale_cols_updates A values :
  csr_valid A -> zlen values = c_cols A ->
  updates (sp_scale_cols A values) A (fun _ j a => smul a (vec_of values j)).
Proof.
  intros V Hl. unfold sp_scale_cols. rewrite Hl, Z.eqb_refl. cbn [assert_ bind].
  apply updates_upd; auto. intros i k d Hi Hk Hc Hd Hz.
  rewrite get_idx by auto. cbn [bind]. rewrite (get_ok s0 values) by lia. cbn [bind].
  rewrite (get_ok s0) by lia. cbn [bind]. rewrite set_ok by lia. now rewrite Hz.
Qed.

Lemma sp_inv_scale_rows_updates A values :
  csr_valid A -> zlen values = c_rows A -> (forall i, 0 <= i < c_rows A -> seqb (vec_of values i) s0 = false) ->
  updates (sp_inv_scale_rows A values) A (fun i _ a => sdiv a (vec_of values i)).
Proof.
  intros V Hl Hn. unfold sp_inv_scale_rows. rewrite Hl, Z.eqb_refl. cbn [assert_ bind].
  assert (E : for_ 0 (c_rows A) (c_val A) (fun i d => s <- get values i ;; assert_ (negb (seqb s s0)) ;;;
         lo <- get (c_ptr A) i ;; hi <- get (c_ptr A) (i + 1) ;;
         for_ lo hi d (fun j d => a <- get d j ;; set d j (sdiv a s)))
     = for_ 0 (c_rows A) (c_val A) (fun i d => s <- get values i ;; 
         lo <- get (c_ptr A) i ;; hi <- get (c_ptr A) (i + 1) ;;
         for_ lo hi d (fun j d => a <- get d j ;; set d j (sdiv a s)))).
  { apply for_ext. intros i d Hi. rewrite (get_ok s0) by lia. cbn [bind].
    specialize (Hn i Hi). unfold vec_of in Hn. rewrite Hn. reflexivity. }
  rewrite E. clear E.
  rewrite (row_read_loop A _ (vec_of values) (fun s j d => a <- get d j ;; set d j (sdiv a s)) V).
  - apply updates_upd; auto. intros i k d Hi Hk _ Hd Hz.
    rewrite (get_ok s0) by lia. cbn [bind]. rewrite set_ok by lia. now rewrite Hz.
  - intros i Hi. apply get_ok. lia.
Qed.

Lemma sp_inv_scale_cols_updates A values :
  csr_valid A -> zlen values = c_cols A -> (forall j, 0 <= j < c_cols A -> seqb (vec_of values j) s0 = false) ->
  updates (sp_inv_scale_cols A values) A (fun _ j a => sdiv a (vec_of values j)).
Proof.
  intros V Hl Hn. unfold sp_inv_scale_cols. rewrite Hl, Z.eqb_refl. cbn [assert_ bind].
  apply updates_upd; auto. intros i k d Hi Hk Hc Hd Hz.
  rewrite get_idx by auto. cbn [bind]. rewrite (get_ok s0 values) by lia. cbn [bind].
  specialize (Hn _ Hc). unfold vec_of in Hn. rewrite Hn. cbn [negb assert_ bind].
  rewrite (get_ok s0) by lia. cbn [bind]. rewrite set_ok by lia. now rewrite Hz.
Qed.

(** ** Elimination *)

Lemma sp_elim_row_col_updates A index :
  csr_valid A -> 0 <= index < c_rows A -> index < c_cols A ->
  updates (sp_elim_row_col A index) A
    (fun i j a => if (i =? index) || (j =? index) then (if i =? j then s1 else s0) else a).
Proof.
  intros V Hi Hc. unfold sp_elim_row_col.
  destruct (Z.leb_spec 0 index); [|lia]. destruct (Z.ltb_spec index (c_rows A)); [|lia].
  destruct (Z.ltb_spec index (c_cols A)); [|lia]. cbn [assert_ bind].
  apply updates_upd; auto. intros i k d Hi' Hk Hx Hd Hz.
  rewrite get_idx by auto. cbn [bind]. rewrite (Z.eqb_sym (idx A k) i).
  destruct ((i =? index) || (idx A k =? index)).
  - apply set_ok. lia.
  - rewrite <- Hz. now rewrite upd_zn_same.
Qed.

Lemma sp_elim_row_col_marker_updates A marker :
  csr_valid A -> c_rows A = c_cols A -> c_cols A <= zlen marker ->
  updates (sp_elim_row_col_marker A marker) A
    (fun i j a => if zn false marker i || zn false marker j then (if i =? j then s1 else s0) else a).
Proof.
  intros V Hs Hm. unfold sp_elim_row_col_marker. rewrite Hs, Z.eqb_refl.
  destruct (Z.leb_spec (c_cols A) (zlen marker)); [|lia]. cbn [assert_ bind].
  apply updates_upd; auto. intros i k d Hi' Hk Hx Hd Hz.
  rewrite get_idx by auto. cbn [bind]. rewrite (get_ok false) by lia. cbn [bind].
  destruct (zn false marker i) eqn:Ei; cbn [bind orb].
  - apply set_ok. lia.
  - rewrite (get_ok false) by lia. cbn [bind]. destruct (zn false marker (idx A k)).
    + apply set_ok. lia.
    + rewrite <- Hz. now rewrite upd_zn_same.
Qed.

Lemma sp_elim_col_updates A index :
  csr_valid A -> 0 <= index < c_cols A \/ (0 <= index /\ c_cols A = 0) ->
  updates (sp_elim_col A index) A (fun _ j a => if j =? index then s0 else a).
Proof.
  intros V Hi. unfold sp_elim_col.
  destruct (Z.leb_spec 0 index); [|lia].
  replace ((index <? c_cols A) || (c_cols A =? 0)) with true by lia. cbn [assert_ bind].
  apply updates_upd; auto. intros i k d Hi' Hk Hx Hd Hz.
  rewrite get_idx by auto. cbn [bind]. destruct (idx A k =? index).
  - apply set_ok. lia.
  - rewrite <- Hz. now rewrite upd_zn_same.
Qed.

Lemma sp_elim_col_marker_updates A marker :
  csr_valid A -> c_cols A <= zlen marker ->
  updates (sp_elim_col_marker A marker) A (fun _ j a => if zn false marker j then s0 else a).
Proof.
  intros V Hm. unfold sp_elim_col_marker.
  destruct (Z.leb_spec (c_cols A) (zlen marker)); [|lia]. cbn [assert_ bind].
  apply updates_upd; auto. intros i k d Hi' Hk Hx Hd Hz.
  rewrite get_idx by auto. cbn [bind]. rewrite (get_ok false) by lia. cbn [bind].
  destruct (zn false marker (idx A k)).
  - apply set_ok. lia.
  - rewrite <- Hz. now rewrite upd_zn_same.
Qed.

Lemma sp_elim_row_as_upd A index :
  csr_valid A -> 0 <= index < c_rows A ->
  sp_elim_row A index = sp_upd_data A (fun i j d => if i =? index then set d j s0 else Ok d).
Proof.
  intros V Hi. unfold sp_elim_row, sp_upd_data.
  destruct (Z.leb_spec 0 index); [|lia]. destruct (Z.ltb_spec index (c_rows A)); [|lia]. cbn [assert_ bind].
  rewrite !get_ptr by (auto; lia). cbn [bind]. f_equal. unfold for_entries.
  rewrite (for_split 0 index (c_rows A)) by lia.
  assert (Hid : forall lo hi (d : list T), index < lo \/ hi <= index -> 0 <= lo -> hi <= c_rows A ->
    for_ lo hi d (fun i s => lo <- get (c_ptr A) i ;; hi <- get (c_ptr A) (i + 1) ;;
      for_ lo hi s (fun j s => if i =? index then set s j s0 else Ok s)) = Ok d).
  { intros lo hi d H1 H2 H3. rewrite (for_ext _ _ _ _ (fun _ s => Ok s)).
    - unfold for_. induction (zrange lo hi); cbn; auto.
    - intros i s Hi'. rewrite !get_ptr by (auto; lia). cbn [bind].
      destruct (Z.eqb_spec i index); [lia|]. unfold for_. induction (zrange (ptr A i) (ptr A (i + 1))); cbn; auto. }
  rewrite Hid by lia. cbn [bind]. rewrite (for_split index (index + 1) (c_rows A)) by lia.
  unfold for_ at 2. rewrite zrange_cons, zrange_empty by lia. cbn [foldM bind].
  rewrite !get_ptr by (auto; lia). cbn [bind]. rewrite Z.eqb_refl.
  destruct (for_ (ptr A index) (ptr A (index + 1)) (c_val A) _) eqn:E; cbn [bind]; [|reflexivity].
  symmetry. apply Hid; lia.
Qed.

Lemma sp_elim_row_updates A index :
  csr_valid A -> 0 <= index < c_rows A ->
  updates (sp_elim_row A index) A (fun i _ a => if i =? index then s0 else a).
Proof.
  intros V Hi. rewrite sp_elim_row_as_upd by auto. apply updates_upd; auto.
  intros i k d Hi' Hk Hx Hd Hz. destruct (i =? index).
  - apply set_ok. lia.
  - rewrite <- Hz. now rewrite upd_zn_same.
Qed.

(** ** Diagonal *)

Lemma sp_add_diag_updates A diag :
  csr_valid A -> c_rows A = c_cols A -> zlen diag = c_rows A ->
  updates (sp_add_diag A diag) A (fun i j a => if j =? i then sadd a (vec_of diag i) else a).
Proof.
  intros V Hs Hl. unfold sp_add_diag. rewrite Hs, Z.eqb_refl. cbn [assert_ bind].
  apply updates_upd; auto. intros i k d Hi' Hk Hx Hd Hz.
  rewrite get_idx by auto. cbn [bind]. destruct (idx A k =? i).
  - rewrite (get_ok s0) by lia. cbn [bind]. rewrite (get_ok s0 diag) by lia. cbn [bind].
    rewrite set_ok by lia. now rewrite Hz.
  - rewrite <- Hz. now rewrite upd_zn_same.
Qed.

Lemma sp_add_diag_val_updates A v :
  csr_valid A -> c_rows A = c_cols A ->
  updates (sp_add_diag_val A v) A (fun i j a => if j =? i then sadd a v else a).
Proof.
  intros V Hs. unfold sp_add_diag_val. rewrite Hs, Z.eqb_refl. cbn [assert_ bind].
  apply updates_upd; auto. intros i k d Hi' Hk Hx Hd Hz.
  rewrite get_idx by auto. cbn [bind]. destruct (idx A k =? i).
  - rewrite (get_ok s0) by lia. cbn [bind]. rewrite set_ok by lia. now rewrite Hz.
  - rewrite <- Hz. now rewrite upd_zn_same.
Qed.

End Entrywise.
