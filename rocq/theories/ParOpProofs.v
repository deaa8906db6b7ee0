(** Proofs about the in place operations of ParMatrix. *)

From Coq Require Import ZArith List Bool Lia Permutation Ring.
From Verif Require Import Base Scalar Spec Dense Sparse SumFacts LoopFacts CsrFacts Rows SparseProofs EntrywiseProofs SparseMore SortProofs HistoryProofs
  Coo CooSpec Vec VecSpec Par ParSpec ParProofs ParAddProofs.
Import ListNotations.
Open Scope Z_scope.

Section ParOp.
Context {S : scalar}.
Notation T := (car S).

Lemma pm_with_valid (A : parmat S) D O : pm_valid A -> csr_valid D -> csr_valid O -> same_pattern (pm_diag A) D -> same_pattern (pm_offd A) O -> pm_valid (pm_with A D O).
Proof.
  intros V VD VO (D1 & D2 & _) (O1 & O2 & _). destruct V. constructor; cbn [pm_with pm_rs pm_cs pm_diag pm_offd pm_map]; auto; congruence.
Qed.

(** Both blocks change by functions that agree with one function of the global position. *)
Lemma pm_with_updates (A : parmat S) rD rO hD hO h : pm_valid A ->
  updates rD (pm_diag A) hD -> updates rO (pm_offd A) hO ->
  (forall e, In e (entries (pm_diag A)) -> hD (erow e) (ecol e) (evalue e) = h (row0 A + erow e) (col0 A + ecol e) (evalue e)) ->
  (forall e, In e (entries (pm_offd A)) -> hO (erow e) (ecol e) (evalue e) = h (row0 A + erow e) (zn 0 (pm_map A) (ecol e)) (evalue e)) ->
  pm_updates (D <- rD ;; O <- rO ;; Ok (pm_with A D O)) A h.
Proof.
  intros V (D & -> & VD & PD & ED) (O & -> & VO & PO & EO) HD HO. exists (pm_with A D O). cbn [bind]. split; [reflexivity|]. split; [now apply pm_with_valid|].
  split; [split; reflexivity|]. split; [reflexivity|]. unfold pm_entries. cbn [pm_with pm_rs pm_cs pm_diag pm_offd pm_map]. rewrite ED, EO. unfold map_values. rewrite map_app, !map_map.
  f_equal; apply map_ext_in; intros e He; cbn [erow ecol evalue fst snd]; f_equal; [apply (HD e He)|apply (HO e He)].
Qed.

Lemma updates_id (A : csr S) : csr_valid A -> updates (Ok A) A (fun _ _ a => a).
Proof.
  intros V. exists A. split; [reflexivity|]. split; [exact V|]. split; [repeat split|]. unfold map_values. symmetry. rewrite <- map_id. apply map_ext. intros [[i j] v]. reflexivity.
Qed.

Lemma pm_scale_updates (A : parmat S) t : pm_valid A -> pm_updates (Ok (pm_scale A t)) A (fun _ _ a => smul a t).
Proof.
  intros V. apply (pm_with_updates A (Ok (sp_scale (pm_diag A) t)) (Ok (sp_scale (pm_offd A) t)) (fun _ _ a => smul a t) (fun _ _ a => smul a t)); auto.
  - apply sp_scale_updates, (pv_diag A V).
  - apply sp_scale_updates, (pv_offd A V).
Qed.

Lemma pm_fill_updates (A : parmat S) t : pm_valid A -> seqb t s0 = false -> pm_updates (pm_fill A t) A (fun _ _ _ => t).
Proof.
  intros V N. apply (pm_with_updates A _ _ (fun _ _ _ => t) (fun _ _ _ => t)); auto.
  - apply sp_fill_updates; [apply (pv_diag A V)|exact N].
  - apply sp_fill_updates; [apply (pv_offd A V)|exact N].
Qed.

Lemma row_sub (A : parmat S) i : row0 A + i - row0 A = i.
Proof. lia. Qed.

Lemma pm_scale_rows_updates (A : parmat S) w : pm_valid A -> zlen w = pm_rows A -> pm_updates (pm_scale_rows A w) A (fun i _ a => smul a (vec_of w (i - row0 A))).
Proof.
  intros V L. apply (pm_with_updates A _ _ (fun i _ a => smul a (vec_of w i)) (fun i _ a => smul a (vec_of w i))); auto.
  - apply sp_scale_rows_updates; [apply (pv_diag A V)|exact L].
  - apply sp_scale_rows_updates; [apply (pv_offd A V)|]. rewrite (pv_orows A V), <- (pv_drows A V). exact L.
  - intros e _. now rewrite row_sub.
  - intros e _. now rewrite row_sub.
Qed.

Lemma pm_inv_scale_rows_updates (A : parmat S) w : pm_valid A -> zlen w = pm_rows A -> (forall i, 0 <= i < pm_rows A -> seqb (vec_of w i) s0 = false) ->
  pm_updates (pm_inv_scale_rows A w) A (fun i _ a => sdiv a (vec_of w (i - row0 A))).
Proof.
  intros V L N. assert (Eo : c_rows (pm_offd A) = pm_rows A) by (unfold pm_rows; rewrite (pv_orows A V), (pv_drows A V); reflexivity).
  apply (pm_with_updates A _ _ (fun i _ a => sdiv a (vec_of w i)) (fun i _ a => sdiv a (vec_of w i))); auto.
  - apply sp_inv_scale_rows_updates; [apply (pv_diag A V)|exact L|exact N].
  - apply sp_inv_scale_rows_updates; [apply (pv_offd A V)|congruence|]. rewrite Eo. exact N.
  - intros e _. now rewrite row_sub.
  - intros e _. now rewrite row_sub.
Qed.

Lemma pm_elim_row_updates (A : parmat S) k : pm_valid A -> 0 <= k < pm_rows A -> pm_updates (pm_elim_row A k) A (fun i _ a => if i =? row0 A + k then s0 else a).
Proof.
  intros V Hk. assert (Eo : c_rows (pm_offd A) = pm_rows A) by (unfold pm_rows; rewrite (pv_orows A V), (pv_drows A V); reflexivity).
  assert (G : forall (e : entry S), (if erow e =? k then s0 else evalue e) = (if row0 A + erow e =? row0 A + k then s0 else evalue e)).
  { intros e. destruct (Z.eqb_spec (erow e) k); destruct (Z.eqb_spec (row0 A + erow e) (row0 A + k)); lia || reflexivity. }
  apply (pm_with_updates A _ _ (fun i _ a => if i =? k then s0 else a) (fun i _ a => if i =? k then s0 else a)); auto.
  - apply sp_elim_row_updates; [apply (pv_diag A V)|exact Hk].
  - apply sp_elim_row_updates; [apply (pv_offd A V)|lia].
Qed.

(** AddDiag touches the stored entries on the diagonal of the diagonal block. *)
Lemma pm_add_diag_gen (A : parmat S) r w : pm_valid A -> pm_rows A = pm_cols A ->
  updates r (pm_diag A) (fun i j a => if j =? i then sadd a (w i) else a) ->
  pm_updates (D <- r ;; Ok (pm_with A D (pm_offd A))) A (fun i j a => if j - col0 A =? i - row0 A then sadd a (w (i - row0 A)) else a).
Proof.
  intros V Sq U. apply (pm_with_updates A r (Ok (pm_offd A)) (fun i j a => if j =? i then sadd a (w i) else a) (fun _ _ a => a)); auto.
  - apply updates_id, (pv_offd A V).
  - intros e _. rewrite row_sub. replace (col0 A + ecol e - col0 A) with (ecol e) by lia. reflexivity.
  - intros e He. pose proof (entries_in_shape _ (pv_offd A V)) as Hs. unfold in_shape in Hs. rewrite Forall_forall in Hs. specialize (Hs e He). rewrite row_sub.
    rewrite (pv_ocols A V), (pv_orows A V) in Hs. destruct (pv_map A V (ecol e) ltac:(lia)) as (_ & H). unfold col0.
    unfold pm_rows, pm_cols in Sq. rewrite (pv_drows A V), (pv_dcols A V) in Sq.
    destruct (Z.eqb_spec (zn 0 (pm_map A) (ecol e) - zn 0 (pm_cs A) 0) (erow e)); [exfalso; lia|reflexivity].
Qed.

Lemma pm_add_diag_updates (A : parmat S) w : pm_valid A -> pm_rows A = pm_cols A -> zlen w = pm_rows A ->
  pm_updates (pm_add_diag A w) A (fun i j a => if j - col0 A =? i - row0 A then sadd a (vec_of w (i - row0 A)) else a).
Proof. intros V Sq L. apply (pm_add_diag_gen A _ (vec_of w) V Sq). apply sp_add_diag_updates; [apply (pv_diag A V)|exact Sq|exact L]. Qed.

Lemma pm_add_diag_val_updates (A : parmat S) t : pm_valid A -> pm_rows A = pm_cols A ->
  pm_updates (pm_add_diag_val A t) A (fun i j a => if j - col0 A =? i - row0 A then sadd a t else a).
Proof. intros V Sq. apply (pm_add_diag_gen A _ (fun _ => t) V Sq). apply sp_add_diag_val_updates; [apply (pv_diag A V)|exact Sq]. Qed.

Lemma zero_mul (R : ring_laws S) (a : T) : smul s0 a = s0.
Proof.
  transitivity (sadd (sadd (smul s0 a) (smul s0 a)) (sopp (smul s0 a))).
  - rewrite <- (Radd_assoc R), (Ropp_def R), (Radd_comm R). symmetry. apply (Radd_0_l R).
  - rewrite <- (Rdistr_l R), (Radd_0_l R). apply (Ropp_def R).
Qed.

(** A copy has the same entries, those of a row in another order at most. *)
Lemma pm_copy_ok (reorder : csr S -> csr S) (A : parmat S) : reorders reorder -> pm_valid A ->
  pm_valid (pm_copy reorder A) /\ same_layout A (pm_copy reorder A) /\ pm_map (pm_copy reorder A) = pm_map A /\ Permutation (pm_entries A) (pm_entries (pm_copy reorder A)).
Proof.
  intros Hre V. destruct (Hre _ (pv_diag A V)) as (VD & SE). pose proof SE as (E1 & E2 & _). split; [|split; [split; reflexivity|split; [reflexivity|]]].
  - destruct V. constructor; cbn [pm_copy pm_with pm_rs pm_cs pm_diag pm_offd pm_map]; auto; congruence.
  - unfold pm_entries. cbn [pm_copy pm_with pm_rs pm_cs pm_diag pm_offd pm_map]. apply Permutation_app_tail. apply Permutation_map, same_entries_perm, SE.
Qed.

Lemma opp_one (R : ring_laws S) (a : T) : smul a (sopp s1) = sopp a.
Proof.

  transitivity (sadd (smul a (sopp s1)) (sadd a (sopp a))); [rewrite (Ropp_def R), (Radd_comm R); symmetry; apply (Radd_0_l R)|].
  rewrite (Radd_assoc R). rewrite <- (Rmul_1_l R a) at 2. rewrite (Rmul_comm R s1 a), (Rmul_comm R a (sopp s1)), (Rmul_comm R a s1), <- (Rdistr_l R).
  rewrite (Radd_comm R (sopp s1)), (Ropp_def R). rewrite (zero_mul R). apply (Radd_0_l R).
Qed.

Lemma pm_neg_ok (R : ring_laws S) (reorder : csr S -> csr S) (A : parmat S) : reorders reorder -> pm_valid A ->
  pm_valid (pm_neg reorder A) /\ same_layout A (pm_neg reorder A) /\ forall i j, pm_mat (pm_neg reorder A) i j = sopp (pm_mat A i j).
Proof.
  intros Hre V. destruct (pm_copy_ok reorder A Hre V) as (V1 & (L1 & L2) & _ & P). destruct (pm_scale_updates (pm_copy reorder A) (sopp s1) V1) as (B & Q & VB & (L3 & L4) & _ & EB). injection Q as <-.
  change (pm_scale (pm_copy reorder A) (sopp s1)) with (pm_neg reorder A) in *. split; [exact VB|]. split; [split; congruence|].
  pose proof (opp_one R) as Hm.
  intros i j. unfold pm_mat. rewrite EB. unfold map_values. rewrite (mat_of_map_value R (fun _ _ a => smul a (sopp s1))).
  - rewrite Hm. f_equal. symmetry. apply (mat_of_perm R), P.
  - rewrite Hm. rewrite <- (Radd_0_l R (sopp s0)). apply (Ropp_def R).
  - intros a b. apply (Rdistr_l R).
Qed.

End ParOp.

Section ParNorm.
Context {S : scalar}.
Notation T := (car S).

Lemma smax2_le (O : order_laws S) (a b : T) : sle a (smax2 a b) /\ sle b (smax2 a b).
Proof.
  unfold smax2. destruct (slt a b) eqn:E.
  - split; [|now apply sle_refl]. unfold sle. destruct (slt b a) eqn:E'; [|reflexivity]. rewrite <- (slt_irrefl _ O a). symmetry. now apply (slt_trans _ O a b a).
  - split; [now apply sle_refl|exact E].
Qed.

Lemma fold_smax2 (O : order_laws S) (l : list T) : forall a, sle a (fold_left smax2 l a) /\ forall x, In x l -> sle x (fold_left smax2 l a).
Proof.
  induction l as [|b l IH]; intros a; cbn [fold_left]; [split; [now apply sle_refl|intros x []]|].
  destruct (IH (smax2 a b)) as (H1 & H2). destruct (smax2_le O a b) as (Ha & Hb). split; [now apply (sle_trans O _ _ _ Ha)|].
  intros x [<-|Hx]; [now apply (sle_trans O _ _ _ Hb)|now apply H2].
Qed.

(** One position of the global matrix is in one of the two blocks. *)
Lemma pm_mat_bound (R : ring_laws S) (O : order_laws S) (AL : abs_laws S) (L : sum_order_laws S) (A : parmat S) i j : pm_valid A ->
  sle (sabs (pm_mat A i j)) (smax2 (sp_max_norm (pm_diag A)) (sp_max_norm (pm_offd A))).
Proof.
  intros V. destruct (smax2_le O (sp_max_norm (pm_diag A)) (sp_max_norm (pm_offd A))) as (Hd & Ho).
  rewrite (pm_mat_split R). set (a := i - zn 0 (pm_rs A) 0).
  assert (Z : forall x, sadd x s0 = x) by (intros x; rewrite (Radd_comm R); apply (Radd_0_l R)).
  pose proof (entries_in_shape _ (pv_offd A V)) as Hs. rewrite (pv_ocols A V) in Hs.
  assert (Hout : (forall k, 0 <= k < zlen (pm_map A) -> zn 0 (pm_map A) k <> j) -> mat_of (offd_entries A) a j = s0) by (apply (mat_of_through_out (zn 0 (pm_map A)) _ _ _ _ _ Hs)).
  assert (H1 : (zn 0 (pm_cs A) 0 <= j < zn 0 (pm_cs A) 1) \/ ~ (zn 0 (pm_cs A) 0 <= j < zn 0 (pm_cs A) 1)) by lia. destruct H1 as [H1|H1].
  - rewrite Hout by (intros k Hk <-; destruct (pv_map A V k Hk) as (_ & H); lia).
    rewrite Z. apply (sle_trans O _ _ _ (sp_max_norm_bound R O AL L _ _ _ (pv_diag A V)) Hd).
  - assert (E0 : csr_mat (pm_diag A) a (j - zn 0 (pm_cs A) 0) = s0) by (apply (mat_of_out R _ _ _ _ _ (entries_in_shape _ (pv_diag A V))); rewrite (pv_dcols A V); lia).
    rewrite E0, (Radd_0_l R). refine (sle_trans O _ _ _ _ Ho). destruct (in_dec Z.eq_dec j (pm_map A)) as [I|N].
    + destruct (In_zn 0 _ _ I) as (k & Hk & <-). unfold offd_entries. rewrite (mat_of_through (zn 0 (pm_map A)) _ _ _ _ k Hs Hk).
      * exact (sp_max_norm_bound R O AL L _ _ _ (pv_offd A V)).
      * intros x y Hx Hy E. destruct (Z.lt_trichotomy x y) as [Q|[Q|Q]]; [|exact Q|].
        -- pose proof (pv_sorted A V x y ltac:(lia) ltac:(lia)). lia.
        -- pose proof (pv_sorted A V y x ltac:(lia) ltac:(lia)). lia.
    + rewrite Hout by (intros k Hk <-; apply N, zn_In, Hk).
      assert (E1 : csr_mat (pm_offd A) a (-1) = s0) by (apply (mat_of_out R _ _ _ _ _ (entries_in_shape _ (pv_offd A V))); lia).
      rewrite <- E1. exact (sp_max_norm_bound R O AL L _ _ _ (pv_offd A V)).
Qed.

(** MaxNorm() is the same on every rank and bounds every entry that some rank holds. *)
Lemma par_max_norm_bound (R : ring_laws S) (O : order_laws S) (AL : abs_laws S) (L : sum_order_laws S) (As : list (parmat S)) : As <> [] -> Forall pm_valid As ->
  exists m, par_max_norm As = Ok (map (fun _ => m) As) /\ forall A i j, In A As -> sle (sabs (pm_mat A i j)) m.
Proof.
  intros N V. rewrite Forall_forall in V. unfold par_max_norm. destruct As as [|A0 As]; [congruence|]. cbn [map].
  eexists. split; [reflexivity|]. set (f := fun A : parmat S => smax2 (sp_max_norm (pm_diag A)) (sp_max_norm (pm_offd A))).
  intros A i j I. apply (sle_trans O _ _ _ (pm_mat_bound R O AL L A i j (V A I))). change (sle (f A) (fold_left smax2 (map f As) (f A0))).
  destruct (fold_smax2 O (map f As) (f A0)) as (H1 & H2). destruct I as [<-|I]; [exact H1|]. apply H2. now apply in_map.
Qed.

End ParNorm.
