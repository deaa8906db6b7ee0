(** LilMatrix: statements about assembled matrices. *)

From Coq Require Import ZArith List Lia Bool Permutation Sorting.Sorted.
From Verif Require Import Base Scalar Spec Dense Sparse LoopFacts SumFacts CsrFacts Rows Accum SparseProofs SparseMore DenseFacts DenseProofs Coo CooSpec CooProofs CooMore Lil LilSpec LilProofs.
Import ListNotations.
Open Scope Z_scope.

Section LilMore.
Context {S : scalar}.
Notation T := (car S).
Notation node := (Z * T)%type.
Implicit Types (M : lil S) (l : list (entry S)) (o : lil_op S) (ops : list (lil_op S)).

Lemma lil_ok_inv M : lil_ok M -> lil_inv M.
Proof. intros (W & _ & H). split; auto. Qed.

Lemma row_ecols i (row : list node) : map ecol (row_to_entries i row) = map fst row.
Proof. unfold row_to_entries. rewrite map_map. reflexivity. Qed.

Lemma sorted_rows_nodup (f : Z -> list node) n : (forall i, StronglySorted Z.lt (map fst (f i))) ->
  no_dup_coords (flat_map (fun i => row_to_entries i (f i)) (zrange 0 n)).
Proof.
  intros H. unfold no_dup_coords. rewrite map_flat_map.
  assert (G : forall i, NoDup (map fst (row_to_entries i (f i)))).
  { intros i. unfold row_to_entries. rewrite map_map. cbn. rewrite <- (map_map fst (fun c => (i, c))).
    apply FinFun.Injective_map_NoDup; [intros a b E; now injection E|]. specialize (H i). induction H as [|a k H1 IH H2]; constructor; auto.
    intros Hin. rewrite Forall_forall in H2. specialize (H2 _ Hin). lia. }
  pose proof (NoDup_zrange 0 n) as ND. induction (zrange 0 n) as [|i L IH]; [constructor|].
  inversion_clear ND as [|? ? Hi ND']. cbn [flat_map]. apply NoDup_app2; auto. intros p Hp Hq. apply in_flat_map in Hq. destruct Hq as (k & Hk & Hq).
  unfold row_to_entries in Hp, Hq. rewrite map_map in Hp, Hq. apply in_map_iff in Hp, Hq.
  destruct Hp as (a & Ea & _), Hq as (b & Eb & _). cbn in Ea, Eb. subst p. injection Eb as E _. subst k. auto.
Qed.

Lemma lil_sorted_ok srt M : list_sorts srt -> lil_ok M -> lil_ok (lil_sorted srt M).
Proof.
  intros Hs (W & Es & Hl). destruct (lil_sorted_spec srt Hs M) as ((W' & _) & _ & _ & E); [split; auto|]. split; [exact W'|]. split; [exact Es|].
  rewrite E. exact Hl.
Qed.

Lemma lil_to_sparse_spec (R : ring_laws S) srt M : list_sorts srt -> lil_ok M ->
  exists A M', lil_to_sparse srt M = Ok (A, M') /\ csr_valid A /\ c_rows A = l_rows M /\ c_cols A = l_cols M /\
    no_dup_coords (entries A) /\ (forall i, 0 <= i < c_rows A -> StronglySorted Z.lt (map ecol (row_entries A i))) /\
    (forall i j, csr_mat A i j = mat_of (lil_entries M) i j) /\
    lil_ok M' /\ l_size M' = l_size M /\ Permutation (lil_entries M') (lil_entries M).
Proof.
  intros Hs HM. pose proof HM as (W & Es & Hl). destruct (lil_shape M W) as (A & B & C & D).
  pose proof (lil_to_sparse_arrays srt Hs M W) as E.
  assert (Ef : lil_find_size M = (l_rows M, l_cols M)) by (unfold lil_find_size; now rewrite Es). rewrite Ef in E, A, B, C, D. cbn [fst snd] in *.
  assert (Hsort : forall i, StronglySorted Z.lt (map fst (mrow srt (l_lists M) i))) by (intros i; apply merge_sorted; now apply srt_sorted).
  assert (Hcols : forall i p, In p (mrow srt (l_lists M) i) -> 0 <= fst p < l_cols M).
  { intros i p Hp. assert (K : In (fst p) (map fst (srt (zn [] (l_lists M) i)))) by (apply merge_cols; now apply in_map).
    apply in_map_iff in K. destruct K as (q & <- & Hq). apply (Permutation_in _ (Permutation_sym (srt_perm srt Hs M i W))) in Hq. now apply (D i). }
  exists (lil_csr (l_rows M) (l_cols M) (zlen (l_lists M)) (mrow srt (l_lists M))), (lil_sorted srt M).
  split; [exact E|]. split; [rewrite Hl, lil_csr_full; apply csr_of_rows_valid; auto; intros i p _; apply Hcols|].
  split; [reflexivity|]. split; [reflexivity|].
  split; [rewrite lil_csr_entries by (pose proof (zlen_nonneg (l_lists M)); lia); now apply sorted_rows_nodup|].
  split.
  { intros i Hi. cbn in Hi. rewrite lil_csr_row by lia. destruct (Z.ltb_spec i (zlen (l_lists M))); [|lia]. rewrite row_ecols. apply Hsort. }
  split; [intros i j; now apply lil_csr_mat|].
  destruct (lil_sorted_spec srt Hs M (conj W (fun _ => Hl))) as (_ & P & Q & _).
  split; [now apply lil_sorted_ok|]. split; [exact Q|exact P].
Qed.

(** Without a size, or with more rows than lists: the values are right, the storage is not. *)
Lemma lil_to_sparse_short srt M : list_sorts srt -> lil_wf M -> zlen (l_lists M) < fst (lil_find_size M) -> lil_entries M <> [] ->
  exists A M', lil_to_sparse srt M = Ok (A, M') /\ c_rows A = fst (lil_find_size M) /\ c_cols A = snd (lil_find_size M) /\
    ptr A (c_rows A) = 0 /\ 0 < nnz A /\ ~ csr_valid A /\
    (ring_laws S -> forall i j, csr_mat A i j = mat_of (lil_entries M) i j).
Proof.
  intros Hs W Hn Hne. destruct (lil_shape M W) as (A & B & C & D).
  exists (lil_csr (fst (lil_find_size M)) (snd (lil_find_size M)) (zlen (l_lists M)) (mrow srt (l_lists M))), (lil_sorted srt M).
  split; [now apply lil_to_sparse_arrays|]. split; [reflexivity|]. split; [reflexivity|].
  match goal with |- ptr ?X _ = 0 /\ _ => set (A0 := X) end.
  assert (E1 : ptr A0 (c_rows A0) = 0).
  { unfold A0. cbn [c_rows lil_csr]. rewrite lil_csr_ptr by lia. destruct (Z.leb_spec (fst (lil_find_size M)) (zlen (l_lists M))); [lia|reflexivity]. }
  assert (E2 : 0 < nnz A0).
  { destruct (lil_entries M) as [|[[i j] v] l0] eqn:El; [congruence|].
    assert (Hin : In (i, j, v) (lil_entries M)) by (rewrite El; now left). apply (In_lil_entries M i j v W) in Hin. destruct Hin as (Hi & Hin).
    unfold nnz, A0. cbn [c_val lil_csr]. rewrite zlen_map. change (0 < off (mrow srt (l_lists M)) (zlen (l_lists M))).
    pose proof (off_mono (mrow srt (l_lists M)) (i + 1) (zlen (l_lists M)) ltac:(lia)) as K1. rewrite off_succ in K1 by lia.
    pose proof (off_nonneg (mrow srt (l_lists M)) i) as K2.
    assert (K3 : In j (map fst (mrow srt (l_lists M) i))).
    { apply merge_cols. apply (Permutation_in (l := map fst (zn [] (l_lists M) i))); [apply Permutation_map; now apply srt_perm|]. apply in_map_iff. exists (j, v). auto. }
    destruct (mrow srt (l_lists M) i) as [|p r]; [destruct K3|]. rewrite zlen_cons in K1. pose proof (zlen_nonneg r). lia. }
  split; [exact E1|]. split; [exact E2|]. split.
  - intros V. pose proof (cv_last V) as K. unfold A0 in *. lia.
  - intros R i j. unfold A0. apply (lil_csr_mat srt Hs R); auto; lia.
Qed.

(* ---------------------------------------------------------------- histories *)

Definition lil_accepted (d : option (Z * Z)) ops : Prop := Forall (entry_fits d) (flat_map ladded ops).

Lemma lil_run_op_all srt M o : ladded_ok o -> o <> LToSparse -> lil_run_op srt M o = foldM lil_add_entry (ladded o) M.
Proof.
  intros H Hn. destruct o; cbn [lil_run_op ladded ladded_ok] in *; [| | |congruence].
  - cbn. unfold lil_add_entry. cbn. now destruct (lil_add M i j v).
  - unfold lil_add_sym. destruct (Z.eqb_spec i j); cbn; unfold lil_add_entry; cbn; destruct (lil_add M i j v) as [M1|]; cbn; try reflexivity.
    now destruct (lil_add M1 j i v).
  - destruct H as (H & H1 & H2). now apply lil_add_dense_all.
Qed.

Lemma lil_op_dec o : o = LToSparse \/ o <> LToSparse.
Proof. destruct o; [right; discriminate|right; discriminate|right; discriminate|now left]. Qed.

Lemma lil_run_op_spec srt M o : list_sorts srt -> lil_inv M -> ladded_ok o ->
  match lil_run_op srt M o with
  | Ok M' => Forall (entry_fits (l_size M)) (ladded o) /\ lil_inv M' /\ l_size M' = l_size M /\
      Permutation (lil_entries M') (lil_entries M ++ ladded o) /\
      (l_set M = false -> zlen (l_lists M') = Z.max (zlen (l_lists M)) (bound erow (ladded o)))
  | Fail _ => ~ Forall (entry_fits (l_size M)) (ladded o)
  end.
Proof.
  intros Hs HM Ho. destruct (lil_op_dec o) as [->|N].
  - cbn [lil_run_op ladded]. rewrite lil_to_sparse_arrays by (auto; apply HM). cbn [bind].
    destruct (lil_sorted_spec srt Hs M HM) as (A & B & C & D). rewrite app_nil_r. repeat (split; [first [exact A|exact B|exact C|constructor]|]).
    intros _. rewrite D. unfold bound. cbn. pose proof (zlen_nonneg (l_lists M)). lia.
  - rewrite lil_run_op_all by assumption. destruct (foldM lil_add_entry (ladded o) M) as [M'|] eqn:E.
    + apply lil_add_all_inv in E; [|exact HM]. destruct E as (H & ->). destruct (lil_after_all_spec (ladded o) M HM H) as (A & B & C & D). auto.
    + intros H. rewrite lil_add_all_ok in E by assumption. discriminate.
Qed.

Lemma bound_app (f : entry S -> Z) l1 l2 : bound f (l1 ++ l2) = Z.max (bound f l1) (bound f l2).
Proof.
  assert (G : forall l, 0 <= bound f l) by (induction l; unfold bound in *; cbn; lia).
  induction l1 as [|a l1 IH]; [specialize (G l2); change (bound f []) with 0; cbn [app]; lia|]. unfold bound in *. cbn [app fold_right]. rewrite IH. lia.
Qed.

Lemma lil_run_spec srt ops : forall M M', list_sorts srt -> lil_inv M -> Forall ladded_ok ops -> lil_run srt M ops = Ok M' ->
  lil_accepted (l_size M) ops /\ lil_inv M' /\ l_size M' = l_size M /\
  Permutation (lil_entries M') (lil_entries M ++ flat_map ladded ops) /\
  (l_set M = false -> zlen (l_lists M') = Z.max (zlen (l_lists M)) (bound erow (flat_map ladded ops))).
Proof.
  induction ops as [|o ops IH]; intros M M' Hs HM Ha H.
  - injection H as <-. cbn. rewrite app_nil_r. repeat (split; [first [exact HM|reflexivity|constructor]|]). intros _.
    unfold bound. cbn. pose proof (zlen_nonneg (l_lists M)). lia.
  - inversion_clear Ha as [|? ? Ho Hos]. unfold lil_run in H. cbn [foldM] in H. pose proof (lil_run_op_spec srt M o Hs HM Ho) as K.
    destruct (lil_run_op srt M o) as [M1|]; cbn [bind] in H; [|discriminate]. destruct K as (K1 & K2 & K3 & K4 & K5).
    apply IH in H; auto. destruct H as (H1 & H2 & H3 & H4 & H5). unfold lil_accepted in *. cbn [flat_map].
    rewrite K3 in H1, H3. split; [apply Forall_app; auto|]. split; [exact H2|]. split; [exact H3|]. split.
    + rewrite H4, K4, app_assoc. reflexivity.
    + intros Es. assert (Es1 : l_set M1 = false) by (unfold l_size in K3; rewrite Es in K3; destruct (l_set M1); [discriminate|reflexivity]).
      rewrite H5 by exact Es1. rewrite K5 by exact Es. rewrite bound_app. lia.
Qed.

Lemma lil_run_iff srt ops : forall M, list_sorts srt -> lil_inv M -> Forall ladded_ok ops ->
  (exists M', lil_run srt M ops = Ok M') <-> lil_accepted (l_size M) ops.
Proof.
  induction ops as [|o ops IH]; intros M Hs HM Ha.
  - split; [intros _; constructor|intros _; exists M; reflexivity].
  - inversion_clear Ha as [|? ? Ho Hos]. unfold lil_run, lil_accepted in *. cbn [foldM flat_map]. rewrite Forall_app.
    pose proof (lil_run_op_spec srt M o Hs HM Ho) as K. destruct (lil_run_op srt M o) as [M1|]; cbn [bind].
    + destruct K as (K1 & K2 & K3 & _). rewrite (IH M1 Hs K2 Hos), K3. tauto.
    + split; [intros (M' & E); discriminate|tauto].
Qed.

Lemma lil_new_size_ok rows cols M : lil_new_size rows cols = Ok M -> lil_ok M /\ lil_entries M = [] /\ l_rows M = rows /\ l_cols M = cols.
Proof.
  unfold lil_new_size. destruct (Z.leb_spec 0 rows); cbn [assert_ bind]; [|discriminate]. destruct (Z.leb_spec 0 cols); cbn [assert_ bind]; [|discriminate].
  rewrite vec_ok by lia. cbn [bind]. intros E. injection E as <-.
  assert (Z1 : zlen (repeat (@nil node) (Z.to_nat rows)) = rows) by (rewrite zlen_repeat; lia).
  assert (Z2 : forall P : list node -> Prop, P [] -> Forall P (repeat [] (Z.to_nat rows))).
  { intros P HP. apply Forall_forall. intros x Hx. apply repeat_spec in Hx. now subst x. }
  split; [|split; [|split; reflexivity]].
  - split; [split|split; [reflexivity|exact Z1]].
    + cbn. apply Z2. constructor.
    + intros _. cbn. split; [lia|]. split; [lia|]. split; [lia|]. apply Z2. constructor.
  - unfold lil_entries. cbn. rewrite Z1. apply flat_map_nil. intros i Hi. apply In_zrange in Hi. rewrite zn_repeat by lia. reflexivity.
Qed.

Lemma lil_new_inv : lil_inv (@lil_new S).
Proof. split; [split|]; cbn; try discriminate. constructor. Qed.

Lemma mat_of_perm' (R : ring_laws S) l1 l2 i j : Permutation l1 l2 -> mat_of l1 i j = mat_of l2 i j.
Proof. intros H. now apply (mat_of_perm R). Qed.

(** assembly from any well-formed sized state *)
Lemma lil_assembly (R : ring_laws S) srt M0 ops M : list_sorts srt -> lil_ok M0 -> Forall ladded_ok ops -> lil_run srt M0 ops = Ok M ->
  exists A M', lil_to_sparse srt M = Ok (A, M') /\ csr_valid A /\ c_rows A = l_rows M0 /\ c_cols A = l_cols M0 /\
    no_dup_coords (entries A) /\ (forall i, 0 <= i < c_rows A -> StronglySorted Z.lt (map ecol (row_entries A i))) /\
    (forall i j, csr_mat A i j = mat_of (lil_entries M0 ++ flat_map ladded ops) i j).
Proof.
  intros Hs H0 Ha H. pose proof (lil_run_spec srt ops M0 M Hs (lil_ok_inv M0 H0) Ha H) as (K1 & K2 & K3 & K4 & _).
  destruct H0 as (W0 & Es & Hl).
  assert (HM : lil_ok M /\ l_rows M = l_rows M0 /\ l_cols M = l_cols M0).
  { unfold l_size in K3. rewrite Es in K3. destruct (l_set M) eqn:E; [|discriminate]. injection K3 as E1 E2. destruct K2 as (W & K). split; [|split; auto]. split; [exact W|]. split; auto. }
  destruct HM as (HM & E1 & E2).
  destruct (lil_to_sparse_spec R srt M Hs HM) as (A & M' & P1 & P2 & P3 & P4 & P5 & P6 & P7 & _). exists A, M'.
  rewrite E1 in P3. rewrite E2 in P4. repeat (split; [assumption|]). intros i j. rewrite P7. now apply mat_of_perm'.
Qed.

Lemma lil_assembly_sized (R : ring_laws S) srt rows cols M0 ops M : list_sorts srt -> lil_new_size rows cols = Ok M0 -> Forall ladded_ok ops -> lil_run srt M0 ops = Ok M ->
  exists A M', lil_to_sparse srt M = Ok (A, M') /\ csr_valid A /\ c_rows A = rows /\ c_cols A = cols /\
    no_dup_coords (entries A) /\ (forall i, 0 <= i < rows -> StronglySorted Z.lt (map ecol (row_entries A i))) /\
    (forall i j, csr_mat A i j = mat_of (flat_map ladded ops) i j).
Proof.
  intros Hs E Ha H. apply lil_new_size_ok in E. destruct E as (H0 & E0 & E1 & E2).
  destruct (lil_assembly R srt M0 ops M Hs H0 Ha H) as (A & M' & P1 & P2 & P3 & P4 & P5 & P6 & P7). exists A, M'.
  rewrite E1 in P3. rewrite E2 in P4. rewrite E0 in P7. rewrite P3 in P6. auto 10.
Qed.

Lemma lil_set_size_exact srt ops M rows cols : list_sorts srt -> Forall ladded_ok ops -> lil_run srt lil_new ops = Ok M ->
  rows = bound erow (flat_map ladded ops) -> 0 <= cols -> Forall (fun e => ecol e < cols) (flat_map ladded ops) ->
  lil_ok (lil_set_size M rows cols) /\ Permutation (lil_entries (lil_set_size M rows cols)) (flat_map ladded ops).
Proof.
  intros Hs Ha H -> Hc Hf. pose proof (lil_run_spec srt ops lil_new M Hs lil_new_inv Ha H) as (K1 & (W & _) & K3 & K4 & K5).
  specialize (K5 eq_refl). cbn in K4.
  assert (Hb : 0 <= bound erow (flat_map ladded ops)) by (generalize (flat_map ladded ops) as k; induction k; unfold bound in *; cbn; lia).
  change (zlen (l_lists (@lil_new S))) with 0 in K5.
  split; [|exact K4]. split; [split|split; [reflexivity|cbn; lia]].
  - exact (proj1 W).
  - intros _. cbn. split; [lia|]. split; [lia|]. split; [lia|]. apply Forall_lists. intros i Hi. apply Forall_forall. intros n Hn.
    assert (Hin : In (i, fst n, snd n) (lil_entries M)) by (apply In_lil_entries; [exact W|]; split; [exact Hi|]; now destruct n).
    apply (Permutation_in _ K4) in Hin. rewrite Forall_forall in Hf. exact (Hf _ Hin).
Qed.

(** deduced size *)
Lemma lil_deduced srt ops M : list_sorts srt -> Forall ladded_ok ops -> lil_run srt lil_new ops = Ok M -> flat_map ladded ops <> [] ->
  exists A M', lil_to_sparse srt M = Ok (A, M') /\ c_rows A = bound erow (flat_map ladded ops) + 1 /\
    ~ csr_valid A /\ ptr A (c_rows A) = 0 /\ 0 < nnz A /\
    (ring_laws S -> forall i j, csr_mat A i j = mat_of (flat_map ladded ops) i j).
Proof.
  intros Hs Ha H Hne. pose proof (lil_run_spec srt ops lil_new M Hs lil_new_inv Ha H) as (K1 & (W & _) & K3 & K4 & K5).
  specialize (K5 eq_refl). cbn in K4.
  assert (Es : l_set M = false) by (unfold l_size in K3; cbn in K3; destruct (l_set M); [discriminate|reflexivity]).
  assert (Hb : 0 <= bound erow (flat_map ladded ops)) by (generalize (flat_map ladded ops) as k; induction k; unfold bound in *; cbn; lia).
  change (zlen (l_lists (@lil_new S))) with 0 in K5.
  destruct (lil_to_sparse_short srt M Hs W) as (A & M' & P1 & P2 & P3 & P4 & P5 & P6 & P7).
  - unfold lil_find_size. rewrite Es. cbn. lia.
  - intros E. rewrite E in K4. apply Permutation_nil in K4. contradiction.
  - exists A, M'. split; [exact P1|]. split; [rewrite P2; unfold lil_find_size; rewrite Es; cbn; lia|]. repeat (split; [assumption|]).
    intros R i j. rewrite (P7 R). now apply mat_of_perm'.
Qed.

(* ---------------------------------------------------------------- dense copy and products *)

Lemma for_lists {A} M (a : A) (g : A -> Z -> Z * T -> res A) :
  for_ 0 (zlen (l_lists M)) a (fun i a => row <- get (l_lists M) i ;; foldM (fun a n => g a i n) row a) =
  foldM (fun a e => g a (erow e) (ecol e, evalue e)) (lil_entries M) a.
Proof.
  unfold for_, lil_entries. apply foldM_flat_map2. intros b i Hi. apply In_zrange in Hi. rewrite (get_ok ([] : list node)) by lia. cbn [bind].
  rewrite foldM_map. apply foldM_ext. intros c [j v] _. reflexivity.
Qed.

Lemma lil_to_dense_coo M out : lil_to_dense_into M out = coo_to_dense_into (Coo (fst (lil_find_size M)) (snd (lil_find_size M)) true (lil_entries M)) out.
Proof.
  unfold lil_to_dense_into, coo_to_dense_into. unfold coo_find_size. cbn [o_set o_rows o_cols o_entries]. destruct (lil_find_size M) as [rows cols]. cbn [fst snd].
  destruct (d_set_size out rows cols) as [o1|]; cbn [bind]; [|reflexivity].
  rewrite (for_lists M (d_fill o1 s0) (fun out i n => d_mod out i (fst n) (fun t : T => sadd t (snd n)))). reflexivity.
Qed.

Lemma lil_coo_ok M : lil_wf M -> coo_ok (Coo (fst (lil_find_size M)) (snd (lil_find_size M)) true (lil_entries M)).
Proof. intros W. destruct (lil_shape M W) as (A & B & _). split; [exact A|]. split; [exact B|]. cbn. now apply lil_entries_shape. Qed.

Lemma lil_to_dense_spec (R : ring_laws S) M out : lil_wf M ->
  d_gives (lil_to_dense_into M out) (fst (lil_find_size M)) (snd (lil_find_size M)) (mat_of (lil_entries M)).
Proof. intros W. rewrite lil_to_dense_coo. exact (coo_to_dense_spec R _ out (lil_coo_ok M W)). Qed.

Lemma lil_mult_coo M (x out : list T) : lil_mult M x out = coo_mult (Coo (fst (lil_find_size M)) (snd (lil_find_size M)) true (lil_entries M)) x out.
Proof.
  unfold lil_mult, coo_mult. cbn [o_rows o_cols o_entries].
  destruct (assert_ (_ =? zlen out)); cbn [bind]; [|reflexivity]. destruct (assert_ (_ =? zlen x)); cbn [bind]; [|reflexivity].
  exact (for_lists M (map (fun _ => s0) out) (fun out i n => xj <- get x (fst n) ;; (bind (get out i) (fun t : T => set out i (sadd t (smul (snd n) xj)))))).
Qed.

Lemma lil_multAT_coo M (x out : list T) : lil_multAT M x out = coo_multAT (Coo (fst (lil_find_size M)) (snd (lil_find_size M)) true (lil_entries M)) x out.
Proof.
  unfold lil_multAT, coo_multAT. cbn [o_rows o_cols o_entries]. 
  destruct (assert_ (_ =? zlen out)); cbn [bind]; [|reflexivity]. destruct (assert_ (_ =? zlen x)); cbn [bind]; [|reflexivity].
  exact (for_lists M (map (fun _ => s0) out) (fun out i n => xi <- get x i ;; (bind (get out (fst n)) (fun t : T => set out (fst n) (sadd t (smul (snd n) xi)))))).
Qed.

Lemma lil_mult_spec (R : ring_laws S) M (x out : list T) : lil_wf M -> zlen x = snd (lil_find_size M) -> zlen out = fst (lil_find_size M) ->
  exists y, lil_mult M x out = Ok y /\ zlen y = fst (lil_find_size M) /\
    forall i, 0 <= i < fst (lil_find_size M) -> vec_of y i = mat_vec (mat_of (lil_entries M)) (snd (lil_find_size M)) (vec_of x) i.
Proof. intros W Hx Ho. rewrite lil_mult_coo. exact (coo_mult_spec R _ x out (lil_coo_ok M W) eq_refl Hx Ho). Qed.

Lemma lil_multAT_spec (R : ring_laws S) M (x out : list T) : lil_wf M -> fst (lil_find_size M) = snd (lil_find_size M) ->
  zlen x = fst (lil_find_size M) -> zlen out = snd (lil_find_size M) ->
  exists y, lil_multAT M x out = Ok y /\ zlen y = snd (lil_find_size M) /\
    forall j, 0 <= j < snd (lil_find_size M) -> vec_of y j = mat_vec (mat_T (mat_of (lil_entries M))) (fst (lil_find_size M)) (vec_of x) j.
Proof. intros W Hsq Hx Ho. rewrite lil_multAT_coo. exact (coo_multAT_spec R _ x out (lil_coo_ok M W) eq_refl Hsq Hx Ho). Qed.

Lemma lil_multAT_rejects M (x out : list T) : fst (lil_find_size M) <> snd (lil_find_size M) -> zlen x = fst (lil_find_size M) -> zlen out = snd (lil_find_size M) ->
  lil_multAT M x out = Fail FAssert.
Proof. intros H Hx Ho. rewrite lil_multAT_coo. now apply coo_multAT_rejects. Qed.

Lemma lil_adjoint (R : ring_laws S) M (x y u v o1 o2 : list T) : lil_wf M -> fst (lil_find_size M) = snd (lil_find_size M) ->
  zlen x = snd (lil_find_size M) -> zlen y = fst (lil_find_size M) -> zlen o1 = fst (lil_find_size M) -> zlen o2 = snd (lil_find_size M) ->
  lil_mult M x o1 = Ok u -> lil_multAT M y o2 = Ok v ->
  inner (fst (lil_find_size M)) (vec_of u) (vec_of y) = inner (snd (lil_find_size M)) (vec_of x) (vec_of v).
Proof.
  intros W Hsq Hx Hy H1 H2 E1 E2. rewrite lil_mult_coo in E1. rewrite lil_multAT_coo in E2.
  exact (coo_adjoint R _ x y u v o1 o2 (lil_coo_ok M W) eq_refl Hsq Hx Hy H1 H2 E1 E2).
Qed.

(* ---------------------------------------------------------------- EliminateZeros *)

Lemma lil_elim_zeros_spec M tol : lil_wf M ->
  lil_entries (lil_elim_zeros M tol) = filter (fun e => negb (slt (sabs (evalue e)) tol)) (lil_entries M) /\
  l_size (lil_elim_zeros M tol) = l_size M /\ lil_wf (lil_elim_zeros M tol).
Proof.
  intros (W1 & W2).
  set (g := filter (fun n : node => negb (slt (sabs (snd n)) tol))).
  assert (Ez : forall i, zn [] (map g (l_lists M)) i = g (zn [] (l_lists M) i)) by (intros i; unfold zn; change (@nil node) with (g []) at 1; apply map_nth).
  split; [|split; [reflexivity|]].
  - unfold lil_entries. cbn [l_lists lil_elim_zeros]. rewrite zlen_map. rewrite filter_flat_map. apply flat_map_ext. intros i.
    rewrite Ez. unfold g. rewrite filter_map. reflexivity.
  - assert (G : forall P : node -> Prop, Forall (Forall P) (l_lists M) -> Forall (Forall P) (map g (l_lists M))).
    { intros P HP. apply Forall_map. eapply Forall_impl; [|exact HP]. cbn. intros row Hrow. apply Forall_forall. intros n Hn. apply filter_In in Hn.
      rewrite Forall_forall in Hrow. now apply Hrow. }
    split; [apply G; exact W1|]. intros Es. destruct (W2 Es) as (A & B & C & D). cbn [l_rows l_cols l_lists lil_elim_zeros]. rewrite zlen_map. auto.
Qed.

Lemma lil_elim_zeros_default M : abs_laws S -> lil_elim_zeros M s0 = M.
Proof.
  intros A. unfold lil_elim_zeros. destruct M as [r c s ls]. cbn. f_equal. rewrite <- (map_id ls) at 2. apply map_ext. intros row.
  apply filter_all. intros n _. now rewrite (sabs_nonneg S A).
Qed.

Lemma bound_nonneg (f : entry S -> Z) l : 0 <= bound f l.
Proof. induction l; unfold bound in *; cbn; lia. Qed.

Lemma lil_run_iff_sized srt rows cols M0 ops : list_sorts srt -> lil_new_size rows cols = Ok M0 -> Forall ladded_ok ops ->
  (exists M, lil_run srt M0 ops = Ok M) <-> Forall (entry_fits (Some (rows, cols))) (flat_map ladded ops).
Proof.
  intros Hs E Ha. apply lil_new_size_ok in E. destruct E as (H0 & _ & <- & <-).
  rewrite (lil_run_iff srt ops M0 Hs (lil_ok_inv M0 H0) Ha). unfold lil_accepted, l_size. destruct H0 as (_ & -> & _). reflexivity.
Qed.

Lemma lil_run_iff_new srt ops : list_sorts srt -> Forall ladded_ok ops ->
  (exists M, lil_run srt lil_new ops = Ok M) <-> Forall (entry_fits None) (flat_map ladded ops).
Proof. intros Hs Ha. rewrite (lil_run_iff srt ops lil_new Hs lil_new_inv Ha). reflexivity. Qed.

Lemma lil_set_size_to_sparse (R : ring_laws S) srt ops M rows cols : list_sorts srt -> Forall ladded_ok ops -> lil_run srt lil_new ops = Ok M ->
  rows = bound erow (flat_map ladded ops) -> 0 <= cols -> Forall (fun e => ecol e < cols) (flat_map ladded ops) ->
  exists A M', lil_to_sparse srt (lil_set_size M rows cols) = Ok (A, M') /\ csr_valid A /\ c_rows A = rows /\ c_cols A = cols /\
    forall i j, csr_mat A i j = mat_of (flat_map ladded ops) i j.
Proof.
  intros Hs Ha H Hr Hc Hf. destruct (lil_set_size_exact srt ops M rows cols Hs Ha H Hr Hc Hf) as (HM & P).
  destruct (lil_to_sparse_spec R srt _ Hs HM) as (A & M' & P1 & P2 & P3 & P4 & P5 & P6 & P7 & _). exists A, M'.
  repeat (split; [assumption|]). intros i j. rewrite P7. now apply mat_of_perm'.
Qed.

Lemma lil_larger_size srt ops M rows cols : list_sorts srt -> Forall ladded_ok ops -> lil_run srt lil_new ops = Ok M -> flat_map ladded ops <> [] ->
  bound erow (flat_map ladded ops) < rows -> 0 <= cols -> Forall (fun e => ecol e < cols) (flat_map ladded ops) ->
  exists A M', lil_to_sparse srt (lil_set_size M rows cols) = Ok (A, M') /\ c_rows A = rows /\ ~ csr_valid A.
Proof.
  intros Hs Ha H Hne Hr Hc Hf. pose proof (lil_run_spec srt ops lil_new M Hs lil_new_inv Ha H) as (K1 & (W & _) & K3 & K4 & K5).
  specialize (K5 eq_refl). cbn in K4. change (zlen (l_lists (@lil_new S))) with 0 in K5.
  pose proof (bound_nonneg erow (flat_map ladded ops)) as Hb.
  assert (W' : lil_wf (lil_set_size M rows cols)).
  { split; [exact (proj1 W)|]. intros _. cbn. split; [lia|]. split; [lia|]. split; [lia|]. apply Forall_lists. intros i Hi. apply Forall_forall. intros n Hn.
    assert (Hin : In (i, fst n, snd n) (lil_entries M)) by (apply In_lil_entries; [exact W|]; split; [exact Hi|]; now destruct n).
    apply (Permutation_in _ K4) in Hin. rewrite Forall_forall in Hf. exact (Hf _ Hin). }
  destruct (lil_to_sparse_short srt _ Hs W') as (A & M' & P1 & P2 & P3 & P4 & P5 & P6 & P7).
  - cbn. lia.
  - intros E. change (lil_entries M = []) in E. rewrite E in K4. apply Permutation_nil in K4. contradiction.
  - exists A, M'. split; [exact P1|]. split; [exact P2|exact P6].
Qed.

Lemma lil_set_size_first rows cols i j (v : T) : 0 <= i < rows -> 0 <= j < cols -> seqb v v = true ->
  lil_add (lil_set_size lil_new rows cols) i j v = Fail FUB.
Proof.
  intros Hi Hj Hv. unfold lil_add. cbn [l_set l_rows l_cols l_lists lil_set_size lil_new].
  destruct (Z.leb_spec 0 i), (Z.leb_spec 0 j), (Z.ltb_spec i rows), (Z.ltb_spec j cols); try lia. rewrite Hv. cbn.
  rewrite get_out by (unfold zlen; cbn; lia). reflexivity.
Qed.

Lemma fold_max_nodes (row : list node) : forall c, 0 <= c + 1 -> Forall (fun n => 0 <= fst n) row ->
  fold_left (fun c n => Z.max c (fst n)) row c + 1 = Z.max (c + 1) (fold_right Z.max 0 (map (fun n => fst n + 1) row)).
Proof.
  induction row as [|n row IH]; intros c Hc H; cbn; [lia|]. inversion_clear H as [|? ? H1 H2]. rewrite IH by (auto; lia). lia.
Qed.

Lemma bound_perm (f : entry S -> Z) l1 l2 : Permutation l1 l2 -> bound f l1 = bound f l2.
Proof. induction 1; unfold bound in *; cbn; lia. Qed.

Lemma bound_nodes i (row : list node) : bound (S := S) ecol (map (fun n => (i, fst n, snd n)) row) = fold_right Z.max 0 (map (fun n => fst n + 1) row).
Proof. induction row as [|n row IH]; [reflexivity|]. unfold bound in *. cbn [map fold_right]. rewrite IH. reflexivity. Qed.

Lemma fold_max_lists (ls : list (list node)) : forall c, 0 <= c + 1 -> Forall (Forall (fun n => 0 <= fst n)) ls ->
  fold_left (fun c row => fold_left (fun c n => Z.max c (fst n)) row c) ls c + 1 =
  Z.max (c + 1) (fold_right Z.max 0 (map (fun row => fold_right Z.max 0 (map (fun n => fst n + 1) row)) ls)).
Proof.
  induction ls as [|row ls IH]; intros c Hc H; cbn [fold_left fold_right map]; [lia|]. inversion_clear H as [|? ? H1 H2].
  pose proof (fold_max_nodes row c Hc H1). rewrite IH by (auto; lia). lia.
Qed.

Lemma bound_flat_map {X} (f : entry S -> Z) (g : X -> list (entry S)) (k : list X) : bound f (flat_map g k) = fold_right Z.max 0 (map (fun x => bound f (g x)) k).
Proof. induction k as [|x k IH]; [reflexivity|]. cbn [flat_map map fold_right]. rewrite bound_app, IH. reflexivity. Qed.

Lemma lil_find_cols M : lil_wf M -> l_set M = false -> snd (lil_find_size M) = Z.max 1 (bound ecol (lil_entries M)).
Proof.
  intros W Es. unfold lil_find_size. rewrite Es. cbn [snd]. rewrite fold_max_lists; [|lia|].
  - change (0 + 1) with 1. f_equal. unfold lil_entries. rewrite bound_flat_map. f_equal.
    transitivity (map (fun i => fold_right Z.max 0 (map (fun n : node => fst n + 1) (zn [] (l_lists M) i))) (zrange 0 (zlen (l_lists M)))).
    + apply (list_ext 0); [rewrite !zlen_map, zlen_zrange; pose proof (zlen_nonneg (l_lists M)); lia|]. rewrite zlen_map. intros i Hi.
      rewrite (zn_map ([] : list node) 0) by lia. rewrite zn_map_zrange by lia. reflexivity.
    + apply map_ext. intros i. symmetry. apply bound_nodes.
  - destruct W as (W & _). eapply Forall_impl; [|exact W]. cbn. intros row Hrow. eapply Forall_impl; [|exact Hrow]. cbn. tauto.
Qed.

Lemma lil_assembled srt rows cols M0 ops M : list_sorts srt -> (lil_new_size rows cols = Ok M0 \/ M0 = lil_new) -> Forall ladded_ok ops -> lil_run srt M0 ops = Ok M ->
  lil_wf M /\ Permutation (lil_entries M) (flat_map ladded ops) /\
  lil_find_size M = if l_set M0 then (rows, cols) else (bound erow (flat_map ladded ops) + 1, Z.max 1 (bound ecol (flat_map ladded ops))).
Proof.
  intros Hs [E|E] Ha H.
  - apply lil_new_size_ok in E. destruct E as (H0 & E0 & <- & <-).
    pose proof (lil_run_spec srt ops M0 M Hs (lil_ok_inv M0 H0) Ha H) as (K1 & (W & _) & K3 & K4 & _). rewrite E0 in K4. cbn in K4.
    split; [exact W|]. split; [exact K4|]. destruct H0 as (_ & Es & _). rewrite Es. unfold l_size in K3. rewrite Es in K3. unfold lil_find_size.
    destruct (l_set M); [now injection K3 as -> ->|discriminate].
  - subst M0. pose proof (lil_run_spec srt ops lil_new M Hs lil_new_inv Ha H) as (K1 & (W & _) & K3 & K4 & K5). specialize (K5 eq_refl). cbn in K4.
    split; [exact W|]. split; [exact K4|]. cbn [l_set lil_new].
    assert (Es : l_set M = false) by (unfold l_size in K3; cbn in K3; destruct (l_set M); [discriminate|reflexivity]).
    rewrite (surjective_pairing (lil_find_size M)), (lil_find_cols M W Es), (bound_perm ecol _ _ K4). f_equal. unfold lil_find_size. rewrite Es. cbn [fst].
    rewrite K5. change (zlen (l_lists (@lil_new S))) with 0. pose proof (bound_nonneg erow (flat_map ladded ops)). lia.
Qed.

End LilMore.
