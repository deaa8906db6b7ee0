(** Proofs about ParAdd. *)

From Coq Require Import ZArith List Bool Lia Permutation Sorting.Sorted Ring.
From Verif Require Import Base Scalar Spec Dense Sparse SumFacts LoopFacts CsrFacts Rows SparseProofs SparseMore SortProofs HistoryProofs
  Coo CooSpec CooProofs CooMore Vec VecSpec Par ParSpec ParProofs.
Import ListNotations.
Open Scope Z_scope.

Section Assemble.
Context {S : scalar}.
Notation T := (car S).

(** Entries whose columns go through an injective map. *)
Lemma mat_of_through (f : Z -> Z) rows n (l : list (entry S)) i k :
  in_shape rows n l -> 0 <= k < n -> (forall a b, 0 <= a < n -> 0 <= b < n -> f a = f b -> a = b) ->
  mat_of (map (fun e => (erow e, f (ecol e), evalue e)) l) i (f k) = mat_of l i k.
Proof.
  intros Hs Hk Hf. unfold mat_of. rewrite filter_map, map_map. cbn [evalue snd]. f_equal. f_equal. apply filter_ext_in. intros e He.
  unfold in_shape in Hs. rewrite Forall_forall in Hs. specialize (Hs e He). unfold at_pos. cbn [erow ecol fst snd]. f_equal.
  destruct (Z.eqb_spec (ecol e) k) as [E'|N']; [rewrite E'; apply Z.eqb_refl|].
  destruct (Z.eqb_spec (f (ecol e)) (f k)) as [E|N]; [|reflexivity]. exfalso. apply N', Hf; [lia|lia|exact E].
Qed.

Lemma mat_of_through_out (f : Z -> Z) rows n (l : list (entry S)) i j :
  in_shape rows n l -> (forall k, 0 <= k < n -> f k <> j) ->
  mat_of (map (fun e => (erow e, f (ecol e), evalue e)) l) i j = s0.
Proof.
  intros Hs Hk. unfold mat_of. rewrite filter_none; [reflexivity|]. intros e He. apply in_map_iff in He. destruct He as (e' & <- & He).
  unfold in_shape in Hs. rewrite Forall_forall in Hs. specialize (Hs e' He). unfold at_pos. cbn [erow ecol fst snd].
  specialize (Hk (ecol e') ltac:(lia)). lia.
Qed.

Lemma mat_of_shift s t (l : list (entry S)) i j : mat_of (shift s t l) i j = mat_of l (i - s) (j - t).
Proof.
  unfold mat_of, shift. rewrite filter_map, map_map. cbn [evalue snd]. f_equal. f_equal. apply filter_ext. intros e. unfold at_pos. cbn [erow ecol fst snd].
  f_equal; [destruct (Z.eqb_spec (s + erow e) i); destruct (Z.eqb_spec (erow e) (i - s)) | destruct (Z.eqb_spec (t + ecol e) j); destruct (Z.eqb_spec (ecol e) (j - t))]; lia.
Qed.

Lemma mat_of_shift_rows s (l : list (entry S)) i j : mat_of (shift_rows s l) i j = mat_of l (i - s) j.
Proof.
  unfold mat_of, shift_rows. rewrite filter_map, map_map. cbn [evalue snd]. f_equal. f_equal. apply filter_ext. intros e. unfold at_pos. cbn [erow ecol fst snd].
  f_equal. destruct (Z.eqb_spec (s + erow e) i); destruct (Z.eqb_spec (erow e) (i - s)); lia.
Qed.

Lemma pm_mat_split (R : ring_laws S) (A : parmat S) i j :
  pm_mat A i j = sadd (csr_mat (pm_diag A) (i - zn 0 (pm_rs A) 0) (j - zn 0 (pm_cs A) 0)) (mat_of (offd_entries A) (i - zn 0 (pm_rs A) 0) j).
Proof.
  unfold pm_mat, pm_entries. rewrite (mat_of_app R). f_equal.
  - apply mat_of_shift.
  - rewrite <- mat_of_shift_rows. unfold offd_entries, shift_rows. rewrite map_map. reflexivity.
Qed.

Variable srt : sorter.
Hypothesis Hsrt : sorts srt.
Variable reorder : csr S -> csr S.
Hypothesis Hre : reorders reorder.

Lemma assemble (R : ring_laws S) rs cs (diag offd : coo S) cm :
  zlen rs = 3 -> zlen cs = 3 ->
  0 <= zn 0 rs 0 /\ zn 0 rs 0 <= zn 0 rs 1 /\ zn 0 rs 1 <= zn 0 rs 2 ->
  0 <= zn 0 cs 0 /\ zn 0 cs 0 <= zn 0 cs 1 /\ zn 0 cs 1 <= zn 0 cs 2 ->
  o_set diag = true -> o_rows diag = zn 0 rs 1 - zn 0 rs 0 -> o_cols diag = zn 0 cs 1 - zn 0 cs 0 -> coo_ok diag ->
  o_set offd = true -> o_rows offd = zn 0 rs 1 - zn 0 rs 0 -> o_cols offd = zlen cm -> coo_ok offd ->
  NoDup cm -> (forall g, In g cm -> 0 <= g < zn 0 cs 2 /\ ~ (zn 0 cs 0 <= g < zn 0 cs 1)) ->
  exists cm' offd' D O C, sort_column_map srt cm offd = Ok (cm', offd') /\ coo_to_sparse diag = Ok D /\ coo_to_sparse offd' = Ok O /\
    pm_make reorder rs cs D O cm' = Ok C /\ pm_valid C /\ pm_rs C = rs /\ pm_cs C = cs /\ pm_map C = cm' /\ Permutation cm cm' /\
    forall i j, pm_mat C i j =
      sadd (mat_of (shift (zn 0 rs 0) (zn 0 cs 0) (o_entries diag)) i j)
           (mat_of (shift_rows (zn 0 rs 0) (map (fun e => (erow e, zn 0 cm (ecol e), evalue e)) (o_entries offd))) i j).
Proof.
  intros L3 M3 Hr Hc Sd Rd Cd Kd So Ro Co Ko ND Hcm.
  destruct (sort_column_map_ok srt cm offd Hsrt Ko So Co) as (cm' & ci & Es & P & Hinc & (Lci & NDci & Rci) & Hci).
  rewrite Forall_forall in Rci.
  set (offd' := Coo (o_rows offd) (o_cols offd) true (map (fun e => (erow e, zn 0 ci (ecol e), evalue e)) (o_entries offd))) in *.
  assert (Lcm : zlen cm' = zlen cm) by (unfold zlen; now rewrite (Permutation_length P)).
  assert (NDcm : NoDup cm') by (now apply (Permutation_NoDup P)).
  pose proof Ko as (K1 & K2 & K3). rewrite So in K3. unfold in_shape in K3. rewrite Forall_forall in K3.
  assert (Sh' : in_shape (o_rows offd) (o_cols offd) (o_entries offd')).
  { unfold in_shape. rewrite Forall_forall. unfold offd'. cbn [o_entries]. intros e He. apply in_map_iff in He. destruct He as (e' & <- & He). specialize (K3 e' He).
    cbn [erow ecol fst snd]. split; [lia|]. rewrite Co. apply Rci, zn_In. lia. }
  assert (Ko' : coo_ok offd') by (unfold coo_ok; cbn; auto).
  destruct (coo_to_sparse_spec R diag Kd) as (D & ED & VD & RD & CD & _ & MD).
  destruct (coo_to_sparse_spec R offd' Ko') as (O & EO & VO & RO & CO & _ & MO).
  assert (RD' : c_rows D = zn 0 rs 1 - zn 0 rs 0) by (rewrite RD; unfold coo_find_size; rewrite Sd; exact Rd).
  assert (CD' : c_cols D = zn 0 cs 1 - zn 0 cs 0) by (rewrite CD; unfold coo_find_size; rewrite Sd; exact Cd).
  assert (RO' : c_rows O = zn 0 rs 1 - zn 0 rs 0) by (rewrite RO; exact Ro).
  assert (CO' : c_cols O = zlen cm') by (rewrite CO, Lcm; exact Co).
  destruct (pm_make_ok reorder Hre rs cs D O cm' VD VO) as (C & EC & VC & E1 & E2 & E3 & E4 & E5).
  { unfold layout. do 8 (split; [lia || assumption|]). split.
    - intros i Hi. apply Hcm. apply (Permutation_in _ (Permutation_sym P)). apply zn_In, Hi.
    - intros i Hi. pose proof (Hinc i (i + 1) ltac:(lia) ltac:(lia)). assert (zn 0 cm' i <> zn 0 cm' (i + 1)); [|lia].
      intros E. apply (NoDup_zn 0 cm') in E; [lia|exact NDcm|lia|lia]. }
  exists cm', offd', D, O, C. repeat (split; [assumption|]).
  intros i j. rewrite (pm_mat_split R), E1, E2, E4. rewrite mat_of_shift, mat_of_shift_rows. f_equal.
  - destruct (Hre D VD) as (_ & SE). rewrite (same_entries_mat R D (reorder D) _ _ SE). apply MD.
  - unfold offd_entries. rewrite E3, E5.
    assert (G : map (fun e => (erow e, zn 0 cm (ecol e), evalue e)) (o_entries offd) = map (fun e => (erow e, zn 0 cm' (ecol e), evalue e)) (o_entries offd')).
    { unfold offd'. cbn [o_entries]. rewrite map_map. apply map_ext_in. intros e He. cbn [erow ecol evalue fst snd]. rewrite Hci; [reflexivity|]. specialize (K3 e He). lia. }
    rewrite G. pose proof (entries_in_shape O VO) as SO. rewrite CO' in SO. rewrite Co, <- Lcm in Sh'.
    assert (Inj : forall a b, 0 <= a < zlen cm' -> 0 <= b < zlen cm' -> zn 0 cm' a = zn 0 cm' b -> a = b) by (intros a b Ha Hb E; now apply (NoDup_zn 0 cm')).
    destruct (in_dec Z.eq_dec j cm') as [I|N].
    + destruct (In_zn 0 _ _ I) as (k & Hk & <-). rewrite (mat_of_through (zn 0 cm') _ _ _ _ k SO Hk Inj), (mat_of_through (zn 0 cm') _ _ _ _ k Sh' Hk Inj). apply MO.
    + assert (Nk : forall k, 0 <= k < zlen cm' -> zn 0 cm' k <> j) by (intros k Hk <-; apply N, zn_In, Hk).
      rewrite (mat_of_through_out (zn 0 cm') _ _ _ _ j SO Nk), (mat_of_through_out (zn 0 cm') _ _ _ _ j Sh' Nk). reflexivity.
Qed.

End Assemble.

Section Add.
Context {S : scalar}.
Notation T := (car S).
Hypothesis E : eqb_laws S.

Lemma seqb_refl (v : T) : seqb v v = true.
Proof. now apply E. Qed.

(** One step of offd_to_coo on an entry with a global column. *)
Definition offd_step (st : coo S * list Z * list Z) (ce : T * entry S) : res (coo S * list Z * list Z) :=
  let '(out, marker, col_map) := st in
  let (c, e) := ce in
  m <- get marker (ecol e) ;;
  if 0 <=? m then out <- coo_add out (erow e) m (smul c (evalue e)) ;; Ok (out, marker, col_map)
  else
    out <- coo_add out (erow e) (zlen col_map) (evalue e) ;;
    marker <- set marker (ecol e) (zlen col_map) ;;
    Ok (out, marker, col_map ++ [ecol e]).

Lemma offd_to_coo_steps alpha (A : parmat S) rows st : pm_valid A -> rows = pm_rows A ->
  offd_to_coo rows alpha (pm_offd A) (pm_map A) st = foldM offd_step (with_coef alpha (offd_entries A)) st.
Proof.
  intros V ->. unfold offd_to_coo, for_stored, pm_rows. rewrite (pv_drows A V), <- (pv_orows A V).
  unfold with_coef, offd_entries. rewrite map_map. rewrite foldM_map.
  apply for_entries_entries; [exact (pv_offd A V)|].
  intros i k s Hp. apply position_bounds in Hp; [|exact (pv_offd A V)].
  rewrite get_idx by (auto using (pv_offd A V); tauto). cbn [bind]. rewrite get_val by tauto. cbn [bind].
  destruct s as [[out marker] col_map]. unfold offd_step. rewrite (get_ok 0).
  2:{ rewrite <- (pv_ocols A V). apply idx_bounds; [exact (pv_offd A V)|tauto]. }
  cbn [bind]. unfold entry_at. cbn [erow ecol evalue fst snd]. reflexivity.
Qed.

(** marker[g] is the position of g in col_map, or -1. *)
Definition marks (N : Z) (marker col_map : list Z) : Prop :=
  zlen marker = N /\ NoDup col_map /\ (forall g, In g col_map -> 0 <= g < N) /\
  forall g, 0 <= g < N -> (In g col_map /\ 0 <= zn 0 marker g < zlen col_map /\ zn 0 col_map (zn 0 marker g) = g) \/ (~ In g col_map /\ zn 0 marker g = -1).

Record offd_inv (N rows : Z) (P : list (T * entry S)) (st : coo S * list Z * list Z) : Prop := {
  oi_set : o_set (fst (fst st)) = false;
  oi_rows : o_rows (fst (fst st)) = 0;
  oi_cols : o_cols (fst (fst st)) = 0;
  oi_marks : marks N (snd (fst st)) (snd st);
  oi_shape : in_shape rows (zlen (snd st)) (o_entries (fst (fst st)));
  oi_entries : map (fun e => (erow e, zn 0 (snd st) (ecol e), evalue e)) (o_entries (fst (fst st))) = scaled_but_first P;
  oi_seen : forall g, In g (snd st) <-> exists e, In e (scaled_but_first P) /\ ecol e = g
}.

Lemma scaled_but_first_snoc (P : list (T * entry S)) c e :
  scaled_but_first (P ++ [(c, e)]) = scaled_but_first P ++
    [(erow e, ecol e, if existsb (fun x => ecol x =? ecol e) (scaled_but_first P) then smul c (evalue e) else evalue e)].
Proof. unfold scaled_but_first at 1. rewrite fold_left_app. reflexivity. Qed.

Lemma zn_snoc_last {A} (d : A) l a : zn d (l ++ [a]) (zlen l) = a.
Proof. pose proof (zlen_nonneg l). rewrite zn_app_r by lia. rewrite Z.sub_diag. reflexivity. Qed.

Lemma marks_snoc N marker cm g : marks N marker cm -> 0 <= g < N -> ~ In g cm ->
  marks N (upd marker (Z.to_nat g) (zlen cm)) (cm ++ [g]).
Proof.
  intros (L & ND & Hr & H) Hg N0. pose proof (zlen_nonneg cm). split; [now rewrite zlen_upd|]. split; [|split].
  - apply NoDup_app2; auto.
    + constructor; [intros []|constructor].
    + intros x Hx [<-|[]]. contradiction.
  - intros x Hx. apply in_app_or in Hx. destruct Hx as [Hx|[<-|[]]]; auto.
  - intros x Hx. rewrite zn_upd by lia. rewrite zlen_app. change (zlen [g]) with 1. destruct (Z.eqb_spec x g) as [->|Nx].
    + left. split; [apply in_or_app; right; now left|]. split; [lia|]. apply zn_snoc_last.
    + destruct (H x Hx) as [(I & B & Z0)|(I & Z0)].
      * left. split; [apply in_or_app; now left|]. split; [lia|]. now rewrite zn_app_l by lia.
      * right. split; [|exact Z0]. intros Hi. apply in_app_or in Hi. destruct Hi as [Hi|[Hi|[]]]; [contradiction|congruence].
Qed.

Lemma offd_step_ok N rows P st c e : offd_inv N rows P st -> 0 <= erow e < rows -> 0 <= ecol e < N ->
  exists st', offd_step st (c, e) = Ok st' /\ offd_inv N rows (P ++ [(c, e)]) st'.
Proof.
  intros [I1 I2 I3 I4 I5 I6 I7] Hr Hc. destruct st as [[out marker] cm]. cbn [fst snd] in *.
  pose proof I4 as (L & ND & Hrg & Hm). unfold offd_step. rewrite (get_ok 0) by lia. cbn [bind].
  assert (Ex : existsb (fun x => ecol x =? ecol e) (scaled_but_first P) = true <-> In (ecol e) cm).
  { rewrite existsb_exists, I7. split; intros (x & Hx & Hy); exists x; (split; [exact Hx|lia]). }
  assert (Add : forall k v, 0 <= k -> coo_add out (erow e) k v = Ok (coo_app out [(erow e, k, v)])).
  { intros k v Hk. apply (coo_add_entry_ok out (erow e, k, v)). unfold entry_ok. cbn [erow ecol evalue fst snd]. rewrite I1. split; [tauto|]. split; [tauto|]. split; [apply seqb_refl|discriminate]. }
  destruct (Hm (ecol e) Hc) as [(Hin & Hb & Hz)|(Hin & Hz)].
  - destruct (Z.leb_spec 0 (zn 0 marker (ecol e))); [|lia]. rewrite Add by lia. cbn [bind]. eexists. split; [reflexivity|].
    constructor; cbn [fst snd coo_app o_set o_rows o_cols o_entries]; auto.
    + apply Forall_app. split; [exact I5|]. constructor; [cbn [erow ecol fst snd]; lia|constructor].
    + rewrite map_app, I6, scaled_but_first_snoc. f_equal. cbn [map]. cbn [erow ecol evalue fst snd]. rewrite Hz.
      rewrite (proj2 Ex Hin). reflexivity.
    + intros g. rewrite I7, scaled_but_first_snoc. split.
      * intros (x & Hx & Hy). exists x. split; [apply in_or_app; now left|exact Hy].
      * intros (x & Hx & Hy). apply in_app_or in Hx. destruct Hx as [Hx|[<-|[]]]; [now exists x|]. cbn [ecol fst snd] in Hy. subst g. now apply I7.
  - destruct (Z.leb_spec 0 (zn 0 marker (ecol e))); [lia|]. pose proof (zlen_nonneg cm). rewrite Add by lia. cbn [bind]. rewrite set_ok by lia. cbn [bind]. eexists. split; [reflexivity|].
    assert (Z1 : zlen (cm ++ [ecol e]) = zlen cm + 1) by (now rewrite zlen_app).
    constructor; cbn [fst snd coo_app o_set o_rows o_cols o_entries]; auto.
    + now apply marks_snoc.
    + apply Forall_app. split.
      * unfold in_shape in I5. rewrite Forall_forall in *. intros x Hx. specialize (I5 x Hx). lia.
      * constructor; [cbn [erow ecol fst snd]; lia|constructor].
    + rewrite map_app, scaled_but_first_snoc. f_equal.
      * rewrite <- I6. apply map_ext_in. intros x Hx. unfold in_shape in I5. rewrite Forall_forall in I5. specialize (I5 x Hx). now rewrite zn_app_l by lia.
      * cbn [map]. cbn [erow ecol evalue fst snd]. rewrite zn_snoc_last.
        rewrite (not_true_is_false _ (fun H' => Hin (proj1 Ex H'))). reflexivity.
    + intros g. rewrite scaled_but_first_snoc. split.
      * intros Hg. apply in_app_or in Hg. destruct Hg as [Hg|[<-|[]]].
        -- apply I7 in Hg. destruct Hg as (x & Hx & Hy). exists x. split; [apply in_or_app; now left|exact Hy].
        -- eexists. split; [apply in_or_app; right; left; reflexivity|]. reflexivity.
      * intros (x & Hx & Hy). apply in_or_app. apply in_app_or in Hx. destruct Hx as [Hx|[<-|[]]]; [left; apply I7; now exists x|]. cbn [ecol fst snd] in Hy. right. now left.
Qed.

Lemma offd_steps_ok N rows L : forall P st, offd_inv N rows P st -> Forall (fun ce => 0 <= erow (snd ce) < rows /\ 0 <= ecol (snd ce) < N) L ->
  exists st', foldM offd_step L st = Ok st' /\ offd_inv N rows (P ++ L) st'.
Proof.
  induction L as [|[c e] L IH]; intros P st I H.
  - exists st. split; [reflexivity|]. now rewrite app_nil_r.
  - inversion_clear H as [|? ? He HL]. cbn [snd] in He. destruct (offd_step_ok N rows P st c e I) as (st1 & E1 & I1); [tauto|tauto|].
    cbn [foldM]. rewrite E1. cbn [bind]. destruct (IH _ _ I1 HL) as (st2 & E2 & I2). exists st2. split; [exact E2|]. now rewrite <- app_assoc in I2.
Qed.

Lemma offd_inv_start N rows marker : zlen marker = N -> (forall g, 0 <= g < N -> zn 0 marker g = -1) -> offd_inv N rows [] (coo_new, marker, []).
Proof.
  intros L H. constructor; cbn [fst snd]; try reflexivity.
  - split; [exact L|]. split; [constructor|]. split; [intros g []|]. intros g Hg. right. split; [intros []|auto].
  - constructor.
  - intros g. split; [intros []|intros (e & [] & _)].
Qed.

Lemma offd_entries_bounds (A : parmat S) c N rows : pm_valid A -> rows = pm_rows A -> pm_gcols A <= N ->
  Forall (fun ce => 0 <= erow (snd ce) < rows /\ 0 <= ecol (snd ce) < N) (with_coef c (offd_entries A)).
Proof.
  intros V -> HN. unfold with_coef, offd_entries. rewrite !Forall_map. pose proof (entries_in_shape _ (pv_offd A V)) as Hs. unfold in_shape in Hs.
  eapply Forall_impl; [|exact Hs]. intros e He. cbn [snd erow ecol fst]. rewrite (pv_orows A V), <- (pv_drows A V) in He. split; [exact (proj1 He)|].
  rewrite (pv_ocols A V) in He. destruct (pv_map A V (ecol e)) as (H1 & _); [tauto|]. unfold pm_gcols in HN. lia.
Qed.

Lemma diag_to_coo_ok rows alpha (M : csr S) (out : coo S) : csr_valid M -> rows = c_rows M -> o_set out = true -> o_rows out = c_rows M -> o_cols out = c_cols M ->
  diag_to_coo rows alpha M out = Ok (coo_app out (scaled (with_coef alpha (entries M)))).
Proof.
  intros V -> Hs Hr Hc. unfold diag_to_coo, for_stored.
  rewrite (for_entries_entries M out _ (fun o e => coo_add_entry o (erow e, ecol e, smul alpha (evalue e)))).
  - rewrite <- (foldM_map coo_add_entry (fun e => (erow e, ecol e, smul alpha (evalue e)))). unfold scaled, with_coef. rewrite map_map. cbn [fst snd].
    apply coo_add_all_ok. rewrite Forall_map. pose proof (entries_in_shape M V) as Hsh. unfold in_shape in Hsh. eapply Forall_impl; [|exact Hsh].
    intros e He. unfold entry_ok. cbn [erow ecol evalue fst snd]. rewrite Hr, Hc. split; [exact (proj1 (proj1 He))|]. split; [exact (proj1 (proj2 He))|]. split; [apply seqb_refl|]. intros _. exact (conj (proj2 (proj1 He)) (proj2 (proj2 He))).
  - exact V.
  - intros i k s Hp. apply position_bounds in Hp; [|exact V]. rewrite get_idx by (auto; tauto). cbn [bind]. rewrite get_val by tauto. reflexivity.
Qed.

Lemma reset_marker l : forall m : list Z, (forall g, In g l -> 0 <= g < zlen m) ->
  exists m', foldM (fun m g => set m g (-1)) l m = Ok m' /\ zlen m' = zlen m /\
    forall g, 0 <= g < zlen m -> zn 0 m' g = if in_dec Z.eq_dec g l then -1 else zn 0 m g.
Proof.
  induction l as [|a l IH]; intros m H.
  - exists m. split; [reflexivity|]. split; [reflexivity|]. reflexivity.
  - cbn [foldM]. assert (Ha : 0 <= a < zlen m) by (apply H; now left). rewrite set_ok by exact Ha. cbn [bind].
    destruct (IH (upd m (Z.to_nat a) (-1))) as (m' & E' & L' & V').
    { rewrite zlen_upd. intros g Hg. apply H. now right. }
    rewrite zlen_upd in L', V'. exists m'. split; [exact E'|]. split; [exact L'|]. intros g Hg. rewrite V' by exact Hg.
    destruct (in_dec Z.eq_dec g l) as [I|N]; destruct (in_dec Z.eq_dec g (a :: l)) as [I'|N']; try reflexivity.
    + exfalso. apply N'. now right.
    + destruct I' as [->|I']; [|contradiction]. rewrite zn_upd by lia. now rewrite Z.eqb_refl.
    + rewrite zn_upd by lia. destruct (Z.eqb_spec g a) as [->|]; [|reflexivity]. exfalso. apply N'. now left.
Qed.

Lemma zlist_eqb_refl l : zlist_eqb l l = true.
Proof. unfold zlist_eqb. destruct (list_eq_dec Z.eq_dec l l); congruence. Qed.

Variable srt : sorter.
Hypothesis Hsrt : sorts srt.
Variable reorder : csr S -> csr S.
Hypothesis Hre : reorders reorder.

(** What ParAdd computes. *)
Lemma par_add_marker_ok (R : ring_laws S) alpha (A : parmat S) beta (B : parmat S) marker :
  pm_valid A -> pm_valid B -> same_layout A B -> pm_gcols A <= zlen marker ->
  exists C marker', par_add_marker srt reorder alpha A beta B marker = Ok (C, marker') /\
    pm_valid C /\ same_layout A C /\ marker' = map (fun _ => -1) marker /\
    forall i j, pm_mat C i j =
      sadd (mat_of (shift (zn 0 (pm_rs A) 0) (zn 0 (pm_cs A) 0) (scaled (with_coef alpha (entries (pm_diag A)) ++ with_coef beta (entries (pm_diag B))))) i j)
           (mat_of (shift_rows (zn 0 (pm_rs A) 0) (scaled_but_first (with_coef alpha (offd_entries A) ++ with_coef beta (offd_entries B)))) i j).
Proof.
  intros VA VB (Lr & Lc) HN. pose proof (zlen_nonneg marker) as HM.
  pose proof (pv_rrange A VA) as Hr. pose proof (pv_crange A VA) as Hc.
  assert (Er : pm_rows B = pm_rows A) by (unfold pm_rows; rewrite (pv_drows A VA), (pv_drows B VB), Lr; reflexivity).
  assert (Ec : pm_cols B = pm_cols A) by (unfold pm_cols; rewrite (pv_dcols A VA), (pv_dcols B VB), Lc; reflexivity).
  pose proof (cv_rows (pv_diag A VA)) as Hrows. pose proof (cv_cols (pv_diag A VA)) as Hcols. fold (pm_rows A) in Hrows. fold (pm_cols A) in Hcols.
  unfold par_add_marker. rewrite Er, Ec. unfold pm_grows. rewrite Lr. unfold pm_gcols at 1 2. rewrite Lc, !Z.eqb_refl. cbn [assert_ bind].
  rewrite zlist_eqb_refl. cbn [assert_ bind]. destruct (Z.leb_spec (pm_gcols A) (zlen marker)); [|lia]. cbn [assert_ bind].
  unfold coo_new_size. destruct (Z.leb_spec 0 (pm_rows A)); [|lia]. destruct (Z.leb_spec 0 (pm_cols A)); [|lia]. cbn [assert_ bind].
  rewrite diag_to_coo_ok; [|exact (pv_diag A VA)|reflexivity|reflexivity|reflexivity|reflexivity]. cbn [bind].
  rewrite diag_to_coo_ok; [|exact (pv_diag B VB)|symmetry; exact Er|reflexivity|symmetry; exact Er|symmetry; exact Ec]. cbn [bind].
  cbv zeta. set (m0 := map (fun _ => -1) marker).
  assert (Lm0 : zlen m0 = zlen marker) by (unfold m0; apply zlen_map).
  rewrite (offd_to_coo_steps alpha A (pm_rows A)) by auto.
  destruct (offd_steps_ok (zlen marker) (pm_rows A) (with_coef alpha (offd_entries A)) [] (coo_new, m0, [])) as (st1 & E1 & I1).
  { apply offd_inv_start; [exact Lm0|]. intros g Hg. unfold m0. now rewrite zn_map_const by lia. }
  { apply offd_entries_bounds; auto. }
  cbn [app] in I1. rewrite E1. cbn [bind]. rewrite (offd_to_coo_steps beta B (pm_rows A)) by auto.
  destruct (offd_steps_ok (zlen marker) (pm_rows A) (with_coef beta (offd_entries B)) _ st1 I1) as ([[offd m2] cm] & E2 & I2).
  { apply offd_entries_bounds; auto. unfold pm_gcols. rewrite Lc. exact HN. }
  rewrite E2. cbn [bind]. destruct I2 as [J1 J2 J3 J4 J5 J6 J7]. cbn [fst snd] in *.
  pose proof (zlen_nonneg cm). unfold coo_set_size. destruct (Z.leb_spec 0 (pm_rows A)); [|lia]. destruct (Z.leb_spec 0 (zlen cm)); [|lia]. cbn [assert_ bind].
  pose proof J4 as (K1 & K2 & K3 & K4).
  set (diag := coo_app (coo_app (Coo (pm_rows A) (pm_cols A) true []) (scaled (with_coef alpha (entries (pm_diag A))))) (scaled (with_coef beta (entries (pm_diag B))))).
  assert (Ed : o_entries diag = scaled (with_coef alpha (entries (pm_diag A)) ++ with_coef beta (entries (pm_diag B)))) by (cbn; unfold scaled; now rewrite map_app).
  assert (Hcm : forall g, In g cm -> 0 <= g < zn 0 (pm_cs A) 2 /\ ~ (zn 0 (pm_cs A) 0 <= g < zn 0 (pm_cs A) 1)).
  { intros g Hg. apply J7 in Hg. destruct Hg as (e & He & <-).
    assert (G : exists ce, In ce (with_coef alpha (offd_entries A) ++ with_coef beta (offd_entries B)) /\ ecol (snd ce) = ecol e).
    { revert e He. generalize (with_coef alpha (offd_entries A) ++ with_coef beta (offd_entries B)). intros l. induction l as [|[c x] l IH] using rev_ind; intros e He; [destruct He|].
      rewrite scaled_but_first_snoc in He. apply in_app_or in He. destruct He as [He|[<-|[]]].
      - destruct (IH e He) as (ce & H1' & H2'). exists ce. split; [apply in_or_app; now left|exact H2'].
      - exists (c, x). split; [apply in_or_app; right; now left|reflexivity]. }
    destruct G as (ce & Hce & <-).
    assert (G : exists (M : parmat S) (e' : entry S), pm_valid M /\ pm_cs M = pm_cs A /\ In e' (entries (pm_offd M)) /\ ecol (snd ce) = zn 0 (pm_map M) (ecol e')).
    { apply in_app_or in Hce. unfold with_coef, offd_entries in Hce. destruct Hce as [Hce|Hce]; apply in_map_iff in Hce; destruct Hce as (x & <- & Hx); apply in_map_iff in Hx; destruct Hx as (y & <- & Hy).
      - exists A, y. cbn. auto.
      - exists B, y. cbn. auto. }
    destruct G as (M & e' & VM & EM & He' & ->). rewrite <- EM. apply (pv_map M VM). rewrite <- (pv_ocols M VM).
    pose proof (entries_in_shape _ (pv_offd M VM)) as Hs. unfold in_shape in Hs. rewrite Forall_forall in Hs. apply Hs, He'. }
  destruct (assemble srt Hsrt reorder Hre R (pm_rs A) (pm_cs A) diag (Coo (pm_rows A) (zlen cm) true (o_entries offd)) cm) as
    (cm' & offd' & D & O & C & F1 & F2 & F3 & F4 & F5 & F6 & F7 & F8 & F9 & F10); auto.
  - exact (pv_rs A VA).
  - exact (pv_cs A VA).
  - exact (pv_drows A VA).
  - exact (pv_dcols A VA).
  - refine (conj Hrows (conj Hcols _)). cbn [o_set diag coo_app]. rewrite Ed. unfold in_shape, scaled, with_coef. rewrite map_app, !map_map. cbn [fst snd]. apply Forall_app.
    rewrite !Forall_map. split; [pose proof (entries_in_shape _ (pv_diag A VA)) as Hs | pose proof (entries_in_shape _ (pv_diag B VB)) as Hs]; unfold in_shape in Hs; (eapply Forall_impl; [|exact Hs]); intros e He; cbn [erow ecol fst snd diag coo_app o_rows o_cols].
    + exact He.
    + fold (pm_rows B) (pm_cols B) in He. rewrite Er, Ec in He. exact He.
  - cbn [o_rows]. exact (pv_drows A VA).
  - refine (conj Hrows (conj _ _)); [cbn; lia|]. cbn [o_set o_rows o_cols o_entries]. exact J5.
  - rewrite F1. cbn [bind]. fold diag.
    destruct (reset_marker cm' m2) as (m3 & G1 & G2 & G3).
    { intros g Hg. rewrite K1. apply K3. now apply (Permutation_in _ (Permutation_sym F9)). }
    rewrite G1. cbn [bind]. rewrite F2. cbn [bind]. rewrite F3. cbn [bind]. rewrite F4. cbn [bind].
    exists C, m3. split; [reflexivity|]. split; [exact F5|]. split; [split; assumption|]. split.
    + unfold m0. apply (list_ext 0); [rewrite zlen_map; lia|]. rewrite G2, K1. intros g Hg. rewrite G3 by lia. rewrite zn_map_const by exact Hg.
      destruct (in_dec Z.eq_dec g cm') as [I|N]; [reflexivity|]. destruct (K4 g Hg) as [(I & _)|(_ & Z0)]; [|exact Z0]. exfalso. apply N. now apply (Permutation_in _ F9).
    + intros i j. rewrite F10, Ed. cbn [o_entries]. rewrite J6. reflexivity.
Qed.

End Add.
