(** The product of two distributed matrices: the same for every number of threads and every
    schedule. *)

From Coq Require Import ZArith List Bool Lia.
From Verif Require Import Base Scalar Spec Dense Sparse SumFacts LoopFacts CsrFacts Rows SortProofs Accum ProductProofs Par ParSpec ParProofs ParAddProofs ParSplitProofs
  Threads ThreadProofs HypreOps HypreSpec HypreThreads HypreExt HypreSplit HypreRows.
Import ListNotations.
Open Scope Z_scope.

Section Mult.
Context {S : scalar}.
Notation T := (car S).
Variables (srt : sorter) (bsearch : list Z -> Z -> Z -> Z) (reorder : csr S -> csr S).
Hypothesis Hsrt : sorts srt.
Hypothesis Hbs : finds bsearch.
Hypothesis Hre : reorders reorder.

Definition ext_of (ext : option (csr S)) : csr S := match ext with Some e => e | None => CSR 0 0 [] [] [] end.

Lemma bsearch_ok cmC g : increasing cmC -> In g cmC -> 0 <= bsearch cmC g (zlen cmC) < zlen cmC /\ zn 0 cmC (bsearch cmC g (zlen cmC)) = g.
Proof. intros Inc Hin. apply (In_zn 0) in Hin. destruct Hin as (k & Hk & <-). now rewrite (Hbs cmC k Inc Hk). Qed.

Lemma row_of_rows rows cols (f : Z -> list (Z * T)) i : 0 <= i < rows -> row_of (csr_of_rows rows cols f) i = f i.
Proof.
  intros Hi. pose proof (csr_of_rows_row rows cols f i Hi) as E. rewrite <- row_of_entries in E. unfold row_to_entries in E.
  apply (f_equal (map (fun e => (ecol e, evalue e)))) in E. rewrite !map_map in E. cbn [ecol evalue fst snd] in E.
  rewrite (map_ext (fun x : Z * T => (fst x, snd x)) (fun x => x)) in E by now intros []. rewrite (map_ext (fun x : Z * T => (fst x, snd x)) (fun x => x)) in E by now intros []. now rewrite !map_id in E.
Qed.

Lemma pick_In b l (p : Z * T) : In p (pick b l) -> In (b, p) l.
Proof.
  unfold pick. rewrite in_map_iff. intros ([b' q] & <- & Hq). apply filter_In in Hq. destruct Hq as (Hq & E). cbn [fst] in E. apply eqb_prop in E. subst. exact Hq.
Qed.

Section OneRank.
Variables (G : mat S) (A B : parmat S) (ext : option (csr S)).
Hypothesis PA : pm_valid A.
Hypothesis PB : pm_valid B.
Hypothesis HAB : pm_cs A = pm_rs B.
Hypothesis HX : extracted G A B ext.

Let e := ext_of ext.
Let fc := zn 0 (pm_cs B) 0.
Let lc := fc + c_cols (pm_diag B) - 1.
Let asq := c_rows (pm_diag A) =? c_cols (pm_diag B).
Let ncoA := c_cols (pm_offd A).

Lemma ext_rows i : 0 <= i < ncoA -> csr_valid e /\ i < c_rows e.
Proof.
  unfold ncoA, e, ext_of. rewrite (pv_ocols A PA). unfold extracted in HX. destruct ext as [x|]; [destruct HX as (V & E & _); rewrite E; intros Hi; split; [exact V|lia]|].
  rewrite HX. intros Hi. change (zlen (@nil Z)) with 0 in Hi. lia.
Qed.

Lemma ext_cols i p : 0 <= i < ncoA -> In p (row_of e i) -> 0 <= fst p < pm_gcols B.
Proof.
  intros Hi Hp. destruct (ext_rows i Hi) as (V & Hr). apply row_of_cols in Hp; [|exact V|lia]. revert Hi Hp. unfold ncoA, e, ext_of. rewrite (pv_ocols A PA). unfold extracted in HX. destruct ext as [x|].
  - destruct HX as (_ & _ & E & _). now rewrite E.
  - rewrite HX. intros Hi. change (zlen (@nil Z)) with 0 in Hi. lia.
Qed.

Definition Dx : csr S := csr_of_rows ncoA (c_cols (pm_diag B)) (edrow e fc lc).
Definition Ox (cmC : list Z) : csr S := csr_of_rows ncoA (zlen cmC) (fun i => map (fun p => (bsearch cmC (fst p) (zlen cmC), snd p)) (eorow e fc lc i)).

(** What the column map of the product is. *)
Definition columns (cmC : list Z) : Prop := increasing cmC /\ forall g, In g cmC <-> In g (map fst (cat (eorow e fc lc) ncoA)) \/ In g (pm_map B).

Lemma par_mult_exact : exists cmC mBC C, columns cmC /\
  (zlen mBC = zlen (pm_map B) /\ forall k, 0 <= k < zlen (pm_map B) -> 0 <= zn 0 mBC k < zlen cmC /\ zn 0 cmC (zn 0 mBC k) = zn 0 (pm_map B) k) /\
  (forall n sched, 0 < n -> par_mult n sched srt bsearch reorder ext A B = Ok C) /\
  pm_valid C /\ pm_rs C = pm_rs A /\ pm_cs C = pm_cs B /\ pm_map C = cmC /\
  pm_diag C = reorder (csr_of_rows (c_rows (pm_diag A)) (c_cols (pm_diag B)) (drow A B Dx (Ox cmC) mBC asq)) /\
  entries (pm_offd C) = entries (csr_of_rows (c_rows (pm_diag A)) (zlen cmC) (orow A B Dx (Ox cmC) mBC)) /\
  csr_valid (csr_of_rows (c_rows (pm_diag A)) (c_cols (pm_diag B)) (drow A B Dx (Ox cmC) mBC asq)) /\
  csr_valid (csr_of_rows (c_rows (pm_diag A)) (zlen cmC) (orow A B Dx (Ox cmC) mBC)).
Proof.
  pose proof (cv_cols (pv_offd A PA)) as HA0. fold ncoA in HA0. pose proof (pv_cs B PB) as L3. destruct (get3 _ L3) as (C0 & C1 & _).
  destruct (split_ext_ok srt bsearch Hsrt ext B fc ncoA HA0 C0 ext_rows) as (cmC & Inc & Hin & Hsplit). fold (ext_of ext) in Hin, Hsplit. fold e in Hin, Hsplit. fold lc in Hin, Hsplit. fold Dx in Hsplit. fold (Ox cmC) in Hsplit.
  assert (IncB : increasing (pm_map B)) by exact (pv_sorted B PB).
  destruct (map_columns_ok cmC (pm_map B) Inc IncB) as (mBC & Em & Lm & Hm); [intros g Hg; apply Hin; now right|].
  set (nco := zlen cmC) in *. assert (Hnco : 0 <= nco) by apply zlen_nonneg. set (D := drow A B Dx (Ox cmC) mBC asq). set (O := orow A B Dx (Ox cmC) mBC).
  set (rows := c_rows (pm_diag A)) in *. set (ncd := c_cols (pm_diag B)) in *. assert (Hrows : 0 <= rows) by exact (cv_rows (pv_diag A PA)). assert (Hncd : 0 <= ncd) by exact (cv_cols (pv_diag B PB)).
  (* the outside rows *)
  assert (VD : csr_valid Dx).
  { apply csr_of_rows_valid; [exact HA0|exact Hncd|]. intros i p Hi Hp. unfold edrow in Hp. apply in_map_iff in Hp. destruct Hp as (q & <- & Hq). apply filter_In in Hq. destruct Hq as (_ & Ho).
    cbn [fst]. unfold outside in Ho. unfold lc in Ho. fold ncd in Ho |- *. lia. }
  assert (Hg : forall i p, 0 <= i < ncoA -> In p (eorow e fc lc i) -> In (fst p) cmC).
  { intros i p Hi Hp. apply Hin. left. apply in_map. unfold cat. apply in_flat_map. exists i. split; [now apply In_zrange|exact Hp]. }
  assert (VO : csr_valid (Ox cmC)).
  { apply csr_of_rows_valid; [exact HA0|exact Hnco|]. intros i p Hi Hp. apply in_map_iff in Hp. destruct Hp as (q & <- & Hq). cbn [fst]. apply (bsearch_ok cmC (fst q) Inc). now apply (Hg i). }
  assert (RAo : c_rows (pm_offd A) = rows) by (unfold rows; rewrite (pv_orows A PA), (pv_drows A PA); reflexivity).
  assert (RBd : c_rows (pm_diag B) = c_cols (pm_diag A)) by (rewrite (pv_drows B PB), (pv_dcols A PA), HAB; reflexivity).
  assert (RBo : c_rows (pm_offd B) = c_cols (pm_diag A)) by (rewrite (pv_orows B PB), (pv_dcols A PA), HAB; reflexivity).
  assert (LmB : zlen mBC = c_cols (pm_offd B)) by (rewrite (pv_ocols B PB); exact Lm).
  assert (Hmb : forall j, 0 <= j < zlen mBC -> 0 <= zn 0 mBC j < nco) by (intros j Hj; apply Hm; lia).
  assert (Hsq : asq = true -> rows = ncd) by (intros Ea; now apply Z.eqb_eq in Ea).
  (* the columns of the rows *)
  assert (KD : forall i p, 0 <= i < rows -> In p (D i) -> 0 <= fst p < ncd).
  { intros i p Hi Hp. assert (Hk : In (fst p) (map fst (D i))) by now apply in_map. unfold D, drow in Hk. apply acc_from_In_keys in Hk. destruct Hk as [Hk|Hk].
    - unfold dinit in Hk. destruct asq eqn:Ea; [|contradiction]. destruct Hk as [Hk|[]]. cbn [fst] in Hk. pose proof (Hsq eq_refl). lia.
    - apply in_map_iff in Hk. destruct Hk as ([k v] & <- & Hq). apply pick_In in Hq. apply (ops_cols A B Dx (Ox cmC) mBC nco) in Hq; auto; [exact (pv_diag A PA)|exact (pv_offd A PA)|exact (pv_diag B PB)|exact (pv_offd B PB)]. }
  assert (KO : forall i p, 0 <= i < rows -> In p (O i) -> 0 <= fst p < nco).
  { intros i p Hi Hp. assert (Hk : In (fst p) (map fst (O i))) by now apply in_map. unfold O, orow in Hk. apply acc_from_In_keys in Hk. destruct Hk as [[]|Hk].
    apply in_map_iff in Hk. destruct Hk as ([k v] & <- & Hq). apply pick_In in Hq. apply (ops_cols A B Dx (Ox cmC) mBC nco) in Hq; auto; [exact (pv_diag A PA)|exact (pv_offd A PA)|exact (pv_diag B PB)|exact (pv_offd B PB)]. }
  assert (VDC : csr_valid (csr_of_rows rows ncd D)) by now apply csr_of_rows_valid. assert (VOC : csr_valid (csr_of_rows rows nco O)) by now apply csr_of_rows_valid.
  (* the constructor *)
  assert (Hcm : forall i, 0 <= i < zlen cmC -> 0 <= zn 0 cmC i < zn 0 (pm_cs B) 2 /\ ~ (zn 0 (pm_cs B) 0 <= zn 0 cmC i < zn 0 (pm_cs B) 1)).
  { intros i Hi. assert (Hi' : In (zn 0 cmC i) cmC) by now apply zn_In. apply Hin in Hi'. destruct Hi' as [Hg'|Hb].
    - apply in_map_iff in Hg'. destruct Hg' as (p & <- & Hp). unfold cat in Hp. apply in_flat_map in Hp. destruct Hp as (r & Hr & Hp). apply In_zrange in Hr. unfold eorow in Hp. apply filter_In in Hp. destruct Hp as (Hp & Ho).
      pose proof (ext_cols r p Hr Hp) as Hc. split; [exact Hc|]. pose proof (pv_dcols B PB) as Ed. fold ncd in Ed. unfold outside, lc in Ho. fold ncd in Ho. unfold fc in Ho. lia.
    - apply (In_zn 0) in Hb. destruct Hb as (k & Hk & <-). now apply (pv_map B PB). }
  destruct (pm_make_ok reorder Hre (pm_rs A) (pm_cs B) (csr_of_rows rows ncd D) (csr_of_rows rows nco O) cmC VDC VOC) as (C & EC & VC & C1' & C2' & C3' & C4' & C5').
  { split; [exact (pv_rs A PA)|]. split; [exact L3|]. split; [exact (pv_rrange A PA)|]. split; [exact (pv_crange B PB)|]. cbn [c_rows c_cols csr_of_rows].
    split; [exact (pv_drows A PA)|]. split; [exact (pv_dcols B PB)|]. split; [left; exact (pv_drows A PA)|]. split; [reflexivity|]. split; [exact Hcm|]. intros i Hi. apply Inc; lia. }
  exists cmC, mBC, C. split; [split; [exact Inc|exact Hin]|]. split; [split; [exact Lm|exact Hm]|]. split.
  - intros n sched Hn. unfold par_mult. fold rows. fold ncd.
    assert (Eas : (pm_gcols A =? pm_grows B) && (c_cols (pm_diag A) =? c_rows (pm_diag B)) = true).
    { unfold pm_gcols, pm_grows. rewrite HAB, RBd, !Z.eqb_refl. reflexivity. }
    rewrite Eas. cbn [assert_ bind]. fold ncoA. rewrite (Hsplit n sched Hn). cbn [bind]. rewrite Em. cbn [bind]. fold nco. fold asq.
    rewrite (row_sizes_ok A B Dx (Ox cmC) mBC asq nco (pv_diag A PA) (pv_offd A PA) (pv_diag B PB) (pv_offd B PB) VD VO RAo eq_refl eq_refl eq_refl eq_refl RBd RBo LmB Hmb Hnco Hsq n Hn sched). cbn [bind].
    fold rows. fold D O. pose proof (off_nonneg D rows). pose proof (off_nonneg O rows).
    rewrite !(get_ok 0) by (rewrite zlen_map_zrange; lia). cbn [bind]. rewrite !zn_map_zrange by lia. unfold zeros, dzeros. rewrite !vec_ok by lia. cbn [bind].
    match goal with |- context [region n (sched 7) _ ?m] => set (m0 := m) end.
    destruct (fill_ok A B Dx (Ox cmC) mBC asq nco (pv_diag A PA) (pv_offd A PA) (pv_diag B PB) (pv_offd B PB) VD VO RAo eq_refl eq_refl eq_refl eq_refl RBd RBo LmB Hmb Hnco Hsq n Hn m0 (sched 7)) as (m & Er & I0 & I1 & I2 & I3).
    { unfold m0, shape, pshape. cbn [map]. rewrite !zlen_repeat. fold rows. fold D O. repeat f_equal; lia. }
    fold rows in Er, I0, I1, I2, I3. fold D in Er, I0, I1. fold O in Er, I2, I3.
    rewrite Er. cbn [bind]. rewrite I0. cbn [bind]. rewrite I1. cbn [bind]. rewrite I2. cbn [bind]. rewrite I3. cbn [bind]. rewrite C0. cbn [bind]. rewrite C1. cbn [bind].
    rewrite <- (pv_dcols B PB). fold ncd.
    rewrite (sp_make_rows rows ncd D Hrows Hncd KD _ _ _ eq_refl eq_refl eq_refl). cbn [bind].
    rewrite (sp_make_rows rows nco O Hrows Hnco KO _ _ _ eq_refl eq_refl eq_refl). cbn [bind]. exact EC.
  - split; [exact VC|]. split; [exact C1'|]. split; [exact C2'|]. split; [exact C3'|]. split; [exact C4'|]. split; [exact C5'|]. split; [exact VDC|exact VOC].
Qed.

End OneRank.
End Mult.
