(** SparseMatrix::GetSubMatrix (include/sparsematrix.hpp:837-909). *)

From Coq Require Import ZArith List Lia Bool Permutation.
From Verif Require Import Base Scalar Spec Dense Sparse LoopFacts SumFacts CsrFacts Rows EntrywiseMat ProductProofs.
Import ListNotations.
Open Scope Z_scope.

Definition opt_list {X} (o : option X) : list X := match o with Some x => [x] | None => [] end.

(** Appending selected pairs to two preallocated arrays. *)
Lemma fill_pairs {T X} (d0 : T) (sel : X -> option (Z * T)) (body : list Z * list T * Z -> X -> res (list Z * list T * Z)) L ix d :
  (forall x ix d t, In x L ->
     body (ix, d, t) x = match sel x with
       | None => Ok (ix, d, t)
       | Some (c, v) => ix <- set ix t c ;; d <- set d t v ;; Ok (ix, d, t + 1)
       end) ->
  let P := flat_map (fun x => opt_list (sel x)) L in
  zlen ix = zlen P -> zlen d = zlen P ->
  foldM body L (ix, d, 0) = Ok (map fst P, map snd P, zlen P).
Proof.
  intros Hb P Hix Hd. apply res_of_returns.
  set (Q := fun (l : list X) => flat_map (fun x => opt_list (sel x)) l).
  apply (returns_foldM (fun pre st => let '(ix, d, t) := st in
     zlen ix = zlen P /\ zlen d = zlen P /\ t = zlen (Q pre) /\
     (forall k, 0 <= k < t -> zn 0 ix k = zn 0 (map fst (Q pre)) k) /\
     (forall k, 0 <= k < t -> zn d0 d k = zn d0 (map snd (Q pre)) k))).
  - repeat split; auto; intros; lia.
  - intros pre x rest [[ix' d'] t] HL (H1 & H2 & H3 & H4 & H5).
    rewrite Hb by (rewrite HL; apply in_or_app; right; left; reflexivity).
    assert (HQ : Q (pre ++ [x]) = Q pre ++ opt_list (sel x)) by (unfold Q; rewrite flat_map_app; cbn; now rewrite app_nil_r).
    destruct (sel x) as [[c v]|] eqn:E; cbn [opt_list] in HQ.
    + assert (Ht : 0 <= t < zlen P).
      { subst t. split; [apply zlen_nonneg|]. unfold P. rewrite HL. change (x :: rest) with ([x] ++ rest).
        rewrite app_assoc, flat_map_app, zlen_app. fold (Q (pre ++ [x])). rewrite HQ, zlen_app, zlen_cons, zlen_nil.
        pose proof (zlen_nonneg (flat_map (fun x => opt_list (sel x)) rest)). lia. }
      rewrite !set_ok by lia. cbn [bind returns]. rewrite !zlen_upd, HQ.
      split; [exact H1|]. split; [exact H2|]. split; [rewrite zlen_app, zlen_cons, zlen_nil; lia|].
      rewrite !map_app. cbn [map fst snd]. split; intros k Hk; rewrite zn_upd by lia.
      * destruct (Z.eqb_spec k t) as [->|].
        -- rewrite zn_app_r by (rewrite zlen_map; lia). rewrite zlen_map. replace (t - zlen (Q pre)) with 0 by lia. reflexivity.
        -- rewrite zn_app_l by (rewrite zlen_map; lia). apply H4. lia.
      * destruct (Z.eqb_spec k t) as [->|].
        -- rewrite zn_app_r by (rewrite zlen_map; lia). rewrite zlen_map. replace (t - zlen (Q pre)) with 0 by lia. reflexivity.
        -- rewrite zn_app_l by (rewrite zlen_map; lia). apply H5. lia.
    + cbn [returns]. rewrite HQ, app_nil_r. auto.
  - intros [[ix' d'] t] (H1 & H2 & H3 & H4 & H5). fold P in H3, H4, H5 |- *. unfold Q in *. fold P in H3, H4, H5. f_equal; [f_equal|].
    + apply (list_ext 0); [now rewrite zlen_map|]. intros k Hk. apply H4. lia.
    + apply (list_ext d0); [now rewrite zlen_map|]. intros k Hk. apply H5. lia.
    + exact H3.
Qed.

Section Sub.
Context {S : scalar}.
Notation T := (car S).
Implicit Types (A B : csr S).

(** where column c of the source goes: the last position of c in the list, or -1 *)
Definition last_pos (cols : list Z) (c : Z) : Z :=
  fold_left (fun _ i => i) (filter (fun i => zn 0 cols i =? c) (zrange 0 (zlen cols))) (-1).

Definition sub_sel (cols : list Z) (p : Z * T) : option (Z * T) :=
  if last_pos cols (fst p) =? -1 then None else Some (last_pos cols (fst p), snd p).

Definition sub_row A (rows cols : list Z) (i : Z) : list (Z * T) :=
  flat_map (fun p => opt_list (sub_sel cols p)) (row_of A (zn 0 rows i)).

Lemma fold_last (l : list Z) a : fold_left (fun _ i => i) l a = last l a.
Proof.
  destruct l as [|b l] using rev_ind; [reflexivity|]. rewrite fold_left_app, last_last. reflexivity.
Qed.

Lemma last_pos_cases cols c :
  (last_pos cols c = -1 /\ ~ In c cols) \/
  (0 <= last_pos cols c < zlen cols /\ zn 0 cols (last_pos cols c) = c).
Proof.
  unfold last_pos. rewrite fold_last. set (l := filter _ _).
  destruct (list_eq_dec Z.eq_dec l []) as [E|E].
  - left. rewrite E. split; [reflexivity|]. intros Hc. destruct (In_zn 0 cols c Hc) as (i & Hi & Hv).
    assert (Hin : In i l) by (apply filter_In; split; [now apply In_zrange|now apply Z.eqb_eq]). rewrite E in Hin. destruct Hin.
  - right. assert (Hin : In (last l (-1)) l).
    { destruct (exists_last E) as (l' & a & ->). rewrite last_last. apply in_or_app. right. left. reflexivity. }
    apply filter_In in Hin. destruct Hin as (H1 & H2). apply In_zrange in H1. apply Z.eqb_eq in H2. auto.
Qed.

Lemma last_pos_nodup cols j : NoDup cols -> 0 <= j < zlen cols -> last_pos cols (zn 0 cols j) = j.
Proof.
  intros ND Hj. destruct (last_pos_cases cols (zn 0 cols j)) as [(_ & H)|(H1 & H2)].
  - exfalso. apply H. now apply zn_In.
  - rewrite (NoDup_nth cols 0) in ND. unfold zn, zlen in *. apply ND in H2; lia.
Qed.

Lemma last_filter_max (P : Z -> bool) n : 0 <= n -> forall k, last (filter P (zrange 0 n)) (-1) < k < n -> P k = false.
Proof.
  intros Hn. apply Zlt_lower_bound_ind with (P := fun n => forall k, last (filter P (zrange 0 n)) (-1) < k < n -> P k = false) (z := 0); [|exact Hn].
  clear n Hn. intros n IH Hn k. destruct (Z.eq_dec n 0) as [->|]; [rewrite zrange_empty by lia; cbn; lia|].
  rewrite zrange_snoc by lia. rewrite filter_app. cbn [filter]. destruct (P (n - 1)) eqn:E.
  - rewrite last_last. lia.
  - rewrite app_nil_r. intros Hk. destruct (Z.eq_dec k (n - 1)) as [->|]; [exact E|]. apply (IH (n - 1)); lia.
Qed.

Lemma last_pos_after cols c k : last_pos cols c < k < zlen cols -> zn 0 cols k <> c.
Proof.
  unfold last_pos. rewrite fold_last. intros Hk. apply last_filter_max in Hk; [|apply zlen_nonneg]. now apply Z.eqb_neq.
Qed.

Lemma last_pos_latest cols j : 0 <= j < zlen cols ->
  (forall k, j < k < zlen cols -> zn 0 cols k <> zn 0 cols j) -> last_pos cols (zn 0 cols j) = j.
Proof.
  intros Hj H. pose proof (last_pos_after cols (zn 0 cols j) j) as H1.
  destruct (last_pos_cases cols (zn 0 cols j)) as [(E & Hn)|(H2 & H3)].
  - exfalso. apply Hn. now apply zn_In.
  - destruct (Z.lt_total (last_pos cols (zn 0 cols j)) j) as [Hl|[He|Hg]]; [|exact He|].
    + exfalso. apply H1; [lia|reflexivity].
    + exfalso. apply (H _ ltac:(split; [exact Hg|lia]) H3).
Qed.

Lemma last_pos_shadowed cols j k : 0 <= j < k -> k < zlen cols -> zn 0 cols k = zn 0 cols j ->
  forall c, last_pos cols c <> j.
Proof.
  intros Hj Hk E c Ec. destruct (last_pos_cases cols c) as [(H & _)|(_ & H)]; [lia|].
  apply (last_pos_after cols c k); [lia|]. rewrite E. rewrite <- Ec. exact H.
Qed.

Lemma sub_col_bound A rows cols i p : In p (sub_row A rows cols i) -> 0 <= fst p < zlen cols.
Proof.
  unfold sub_row. rewrite in_flat_map. intros (q & _ & Hp). unfold sub_sel in Hp.
  destruct (Z.eqb_spec (last_pos cols (fst q)) (-1)); cbn in Hp; [tauto|]. destruct Hp as [<-|[]]. cbn.
  destruct (last_pos_cases cols (fst q)); lia.
Qed.

Lemma count_loop A (marker : list Z) cols row n :
  csr_valid A -> 0 <= row < c_rows A -> c_cols A <= zlen marker ->
  (forall c, 0 <= c < c_cols A -> zn (-1) marker c = last_pos cols c) ->
  for_ (ptr A row) (ptr A (row + 1)) n (fun j n =>
     c <- get (c_idx A) j ;; m <- get marker c ;; Ok (if m =? -1 then n else n + 1))
  = Ok (n + zlen (flat_map (fun p => opt_list (sub_sel cols p)) (row_of A row))).
Proof.
  intros V Hr Hm HM. set (g := fun (n : Z) (p : Z * T) => n + zlen (opt_list (sub_sel cols p))).
  rewrite (row_loop A row n _ (fun n e => Ok (g n (ecol e, evalue e)))); auto.
  - rewrite foldM_pure. f_equal. rewrite <- row_of_entries. unfold row_to_entries. rewrite fold_left_map. cbn [ecol evalue fst snd].
    revert n. induction (row_of A row) as [|p l IH]; intros n; cbn [fold_left flat_map]; [rewrite zlen_nil; lia|].
    rewrite IH, zlen_app. unfold g. rewrite <- surjective_pairing. lia.
  - intros k n' Hk. apply position_bounds in Hk; auto. pose proof (idx_bounds A k V ltac:(tauto)).
    rewrite get_idx by (auto; tauto). cbn [bind]. rewrite (get_ok (-1)) by lia. cbn [bind].
    rewrite HM by lia. unfold g, sub_sel, entry_at. cbn [ecol evalue fst snd].
    destruct (last_pos cols (idx A k) =? -1); cbn [opt_list]; rewrite ?zlen_cons, ?zlen_nil; f_equal; lia.
Qed.

Lemma sp_submatrix_rows A rows cols marker :
  csr_valid A -> (forall r, In r rows -> 0 <= r < c_rows A) -> (forall c, In c cols -> 0 <= c < c_cols A) ->
  c_cols A <= zlen marker -> (forall m, In m marker -> m = -1) ->
  sp_submatrix A rows cols marker = Ok (csr_of_rows (zlen rows) (zlen cols) (sub_row A rows cols), marker).
Proof.
  intros V HR HC HM Hall. unfold sp_submatrix.
  destruct (Z.leb_spec (c_cols A) (zlen marker)); [|lia]. cbn [assert_ bind].
  pose proof (zlen_nonneg rows) as Hnr. pose proof (zlen_nonneg cols) as Hnc.
  rewrite vec_ok by lia. cbn [bind]. rewrite set_ok by (rewrite zlen_repeat; lia). cbn [bind].
  assert (Hz : forall c, 0 <= c < zlen marker -> zn (-1) marker c = -1) by (intros c Hc; apply Hall, zn_In, Hc).
  (* marking the columns *)
  destruct (scatter (-1) (fun i => zn 0 cols i) (fun _ i => i)
     (fun m i => c <- get cols i ;; set m c i) (zrange 0 (zlen cols)) marker) as (marker' & E & Hl & Hv).
  { intros i Hi. apply In_zrange in Hi. pose proof (HC _ (zn_In 0 cols i Hi)). lia. }
  { intros i m Hi Hlm. apply In_zrange in Hi. rewrite (get_ok 0) by exact Hi. cbn [bind].
    pose proof (HC _ (zn_In 0 cols i Hi)). rewrite set_ok by lia. reflexivity. }
  unfold for_ at 1. rewrite E. cbn [bind].
  assert (HM' : forall c, 0 <= c < c_cols A -> zn (-1) marker' c = last_pos cols c).
  { intros c Hc. rewrite Hv by lia. rewrite Hz by lia. reflexivity. }
  set (f := sub_row A rows cols).
  (* counting *)
  assert (E2 : for_ 0 (zlen rows) (upd (repeat 0 (Z.to_nat (zlen rows + 1))) (Z.to_nat 0) 0, 0) (fun i st =>
      let (ip, n) := st in
      row <- get rows i ;;
      assert_ (row <? c_rows A) ;;;
      lo <- get (c_ptr A) row ;; hi <- get (c_ptr A) (row + 1) ;;
      n <- for_ lo hi n (fun j n =>
             c <- get (c_idx A) j ;; m <- get marker' c ;;
             Ok (if m =? -1 then n else n + 1)) ;;
      ip <- set ip (i + 1) n ;;
      Ok (ip, n)) = Ok (map (off f) (zrange 0 (zlen rows + 1)), off f (zlen rows))).
  { apply res_of_returns.
    apply (returns_for (fun i st => zlen (fst st) = zlen rows + 1 /\ snd st = off f i /\
       forall k, 0 <= k <= i -> zn 0 (fst st) k = off f k)); [lia| | |].
    - cbn [fst snd]. rewrite zlen_upd, zlen_repeat. split; [lia|]. split; [now rewrite off_0|].
      intros k Hk. replace k with 0 by lia. rewrite zn_upd by (rewrite ?zlen_repeat; lia). now rewrite off_0.
    - intros i [ip n] Hi (H1 & H2 & H3). cbn [fst snd] in *.
      pose proof (HR _ (zn_In 0 rows i Hi)) as Hrow. rewrite (get_ok 0) by exact Hi. cbn [bind].
      destruct (Z.ltb_spec (zn 0 rows i) (c_rows A)); [|lia]. cbn [assert_ bind].
      rewrite !get_ptr by (auto; lia). cbn [bind].
      rewrite (count_loop A marker' cols) by (auto; lia). cbn [bind]. rewrite set_ok by lia. cbn [bind returns fst snd].
      rewrite zlen_upd. split; [exact H1|]. split; [rewrite off_succ by lia; now rewrite H2|].
      intros k Hk. rewrite zn_upd by lia. destruct (Z.eqb_spec k (i + 1)) as [->|]; [|apply H3; lia].
      rewrite off_succ by lia. now rewrite H2.
    - intros [ip n] (H1 & H2 & H3). cbn [fst snd] in *. f_equal; [|exact H2].
      apply (list_ext 0); [rewrite zlen_map_zrange by lia; exact H1|]. intros k Hk.
      rewrite zn_map_zrange by lia. apply H3. lia. }
  rewrite E2. cbn [bind]. clear E2.
  assert (Hoff : off f (zlen rows) = zlen (cat f (zlen rows))) by reflexivity.
  pose proof (off_nonneg f (zlen rows)) as Hon.
  rewrite !vec_ok by lia. cbn [bind].
  (* filling *)
  set (L := flat_map (row_of A) rows).
  assert (HP : flat_map (fun p => opt_list (sub_sel cols p)) L = cat f (zlen rows)).
  { unfold L, cat, f, sub_row. rewrite flat_map_concat_map, <- (map_zn_zrange 0 rows) at 1.
    rewrite <- flat_map_concat_map. rewrite (flat_map_concat_map (fun p => _) (flat_map _ _)).
    rewrite <- flat_map_concat_map. clear. induction (zrange 0 (zlen rows)) as [|i l IH]; cbn; [reflexivity|].
    rewrite flat_map_app, IH. reflexivity. }
  set (stp := fun (st : list Z * list T * Z) (p : Z * T) =>
        let '(ix, d, total) := st in
        m <- get marker' (fst p) ;;
        if m =? -1 then Ok (ix, d, total)
        else ix <- set ix total m ;; d <- set d total (snd p) ;; Ok (ix, d, total + 1)).
  assert (E3 : forall st, foldM (fun st row =>
      lo <- get (c_ptr A) row ;; hi <- get (c_ptr A) (row + 1) ;;
      for_ lo hi st (fun j st =>
        let '(ix, d, total) := st in
        c <- get (c_idx A) j ;; m <- get marker' c ;;
        if m =? -1 then Ok (ix, d, total)
        else ix <- set ix total m ;;
             v <- get (c_val A) j ;; d <- set d total v ;;
             Ok (ix, d, total + 1))) rows st = foldM stp L st).
  { intros st. unfold L. apply foldM_flat_map2. intros s row Hrow. apply HR in Hrow.
    rewrite !get_ptr by (auto; lia). cbn [bind].
    rewrite (row_loop A row s _ (fun st e => stp st (ecol e, evalue e))); auto.
    - rewrite <- row_of_entries. unfold row_to_entries. rewrite foldM_map. apply foldM_ext. intros s' p _. cbn [ecol evalue fst snd].
      now rewrite <- surjective_pairing.
    - intros k [[ix d] t] Hk. apply position_bounds in Hk; auto. rewrite get_idx, get_val by (auto; tauto). reflexivity. }
  rewrite E3. clear E3.
  assert (HLin : forall p, In p L -> 0 <= fst p < c_cols A).
  { intros [c v] Hp. unfold L in Hp. apply in_flat_map in Hp. destruct Hp as (r & Hr & Hp).
    assert (Hin : In (r, c, v) (entries A)) by (apply In_row_of; auto).
    pose proof (entries_in_shape A V) as Sh. unfold in_shape in Sh. rewrite Forall_forall in Sh. apply Sh in Hin. cbn in *. tauto. }
  rewrite (fill_pairs s0 (sub_sel cols) stp L).
  2:{ intros p ix d t Hp. apply HLin in Hp. unfold stp, sub_sel. rewrite (get_ok (-1)) by lia. cbn [bind].
      rewrite HM' by lia. now destruct (last_pos cols (fst p) =? -1). }
  2,3: rewrite zlen_repeat, HP; lia.
  rewrite HP. cbn [bind].
  (* clearing the marker *)
  destruct (scatter (-1) (fun c => c) (fun _ _ => -1) (fun m i => set m i (-1)) cols marker') as (m3 & E3 & Hl3 & Hv3).
  { intros c Hc. pose proof (HC c Hc). lia. }
  { intros c m Hc Hlm. pose proof (HC c Hc). now rewrite set_ok by lia. }
  rewrite E3. cbn [bind].
  rewrite (sp_make_rows (zlen rows) (zlen cols) f); auto.
  2:{ intros i p Hi Hp. now apply (sub_col_bound A rows cols i). }
  cbn [bind]. f_equal. f_equal. apply (list_ext (-1)); [lia|]. intros c Hc. rewrite Hv3 by lia. rewrite (Hz c) by lia.
  destruct (filter (fun e => e =? c) cols) as [|a l] eqn:EF.
  - cbn. rewrite Hv by lia. rewrite Hz by lia. rewrite filter_none; [reflexivity|].
    intros i Hi. apply In_zrange in Hi. destruct (Z.eqb_spec (zn 0 cols i) c) as [Ec|]; [|reflexivity].
    assert (Hin : In c (filter (fun e => e =? c) cols)) by (apply filter_In; split; [rewrite <- Ec; now apply zn_In|apply Z.eqb_refl]).
    rewrite EF in Hin. destruct Hin.
  - cbn. clear. induction l; cbn; auto.
Qed.

Lemma sp_submatrix_new_rows A rows cols :
  csr_valid A -> (forall r, In r rows -> 0 <= r < c_rows A) -> (forall c, In c cols -> 0 <= c < c_cols A) ->
  sp_submatrix_new A rows cols = Ok (csr_of_rows (zlen rows) (zlen cols) (sub_row A rows cols)).
Proof.
  intros V HR HC. unfold sp_submatrix_new. pose proof (cv_cols V). rewrite vec_ok by lia. cbn [bind].
  rewrite sp_submatrix_rows; auto.
  - rewrite zlen_repeat. lia.
  - intros m Hm. now apply repeat_spec in Hm.
Qed.

Lemma sub_rows_valid A rows cols : csr_valid (csr_of_rows (zlen rows) (zlen cols) (sub_row A rows cols)).
Proof.
  apply csr_of_rows_valid; try apply zlen_nonneg. intros i p _ Hp. now apply (sub_col_bound A rows cols i).
Qed.

(** What is stored: for every selected row, the entries of the source row whose column
    was selected, in order, at the last position of that column in the list. *)
Lemma sub_entries A rows cols i :
  csr_valid A -> 0 <= i < zlen rows -> 0 <= zn 0 rows i < c_rows A ->
  row_entries (csr_of_rows (zlen rows) (zlen cols) (sub_row A rows cols)) i
  = flat_map (fun e => if last_pos cols (ecol e) =? -1 then @nil (entry S) else @cons (entry S) (i, last_pos cols (ecol e), evalue e) [])
      (row_entries A (zn 0 rows i)).
Proof.
  intros V Hi Hr. rewrite csr_of_rows_row by exact Hi. unfold row_to_entries, sub_row. rewrite map_flat_map.
  rewrite <- row_of_entries. unfold row_to_entries. rewrite flat_map_concat_map, map_map, <- flat_map_concat_map || idtac.
  induction (row_of A (zn 0 rows i)) as [|p l IH]; cbn; [reflexivity|]. rewrite IH. f_equal.
  unfold sub_sel. cbn. now destruct (last_pos cols (fst p) =? -1).
Qed.

End Sub.

Section SubMat.
Context {S : scalar}.
Notation T := (car S).
Hypothesis R : ring_laws S.

Lemma sub_mat (A : csr S) rows cols :
  csr_valid A -> (forall r, In r rows -> 0 <= r < c_rows A) -> (forall c, In c cols -> 0 <= c < c_cols A) ->
  forall i j, 0 <= i < zlen rows -> 0 <= j < zlen cols -> (forall k, j < k < zlen cols -> zn 0 cols k <> zn 0 cols j) ->
  csr_mat (csr_of_rows (zlen rows) (zlen cols) (sub_row A rows cols)) i j = csr_mat A (zn 0 rows i) (zn 0 cols j).
Proof.
  intros V HR HC i j Hi Hj ND. pose proof (HR _ (zn_In 0 rows i Hi)) as Hr. unfold csr_mat.
  set (B := csr_of_rows _ _ _). assert (VB : csr_valid B) by apply sub_rows_valid.
  assert (G : forall (C : csr S) r c, csr_valid C -> 0 <= r < c_rows C -> mat_of (entries C) r c
     = sum_list (map evalue (filter (fun e => ecol e =? c) (row_entries C r)))).
  { intros C r c VC Hrc. unfold mat_of. f_equal. f_equal. rewrite <- filter_row_entries by auto.
    induction (entries C) as [|e l IH]; [reflexivity|]. cbn [filter]. change (at_pos r c e) with ((erow e =? r) && (ecol e =? c)). destruct (erow e =? r); cbn [andb filter].
    - destruct (ecol e =? c); now rewrite IH.
    - exact IH. }
  rewrite (G B i j VB Hi). rewrite (G A (zn 0 rows i) (zn 0 cols j) V Hr). unfold B. rewrite sub_entries by auto.
  assert (Hcl : forall e, In e (row_entries A (zn 0 rows i)) -> 0 <= ecol e < c_cols A).
  { intros e He. rewrite <- filter_row_entries in He by auto. apply filter_In in He.
    pose proof (entries_in_shape A V) as Sh. unfold in_shape in Sh. rewrite Forall_forall in Sh. apply Sh. tauto. }
  clear G B VB. induction (row_entries A (zn 0 rows i)) as [|e l IH]; [reflexivity|].
  cbn [flat_map]. rewrite filter_app, map_app, (sum_list_app R), IH by (intros; apply Hcl; right; assumption). clear IH.
  cbn [filter]. destruct (Z.eqb_spec (last_pos cols (ecol e)) (-1)) as [E1|E1].
  - destruct (last_pos_cases cols (ecol e)) as [(_ & Hn)|]; [|lia]. cbn.
    destruct (Z.eqb_spec (ecol e) (zn 0 cols j)) as [E2|]; [|apply (sadd_0_l R)].
    exfalso. apply Hn. rewrite E2. now apply zn_In.
  - cbn [filter ecol fst snd]. destruct (Z.eqb_spec (ecol e) (zn 0 cols j)) as [E2|E2].
    + rewrite E2, last_pos_latest by auto. rewrite Z.eqb_refl. cbn. rewrite (sadd_0_r R). reflexivity.
    + destruct (Z.eqb_spec (last_pos cols (ecol e)) j) as [E3|]; [|cbn; apply (sadd_0_l R)].
      exfalso. apply E2. destruct (last_pos_cases cols (ecol e)) as [|(_ & H)]; [lia|]. now rewrite E3 in H.
Qed.

Lemma sub_mat_shadowed (A : csr S) rows cols :
  forall i j k, 0 <= j < k -> k < zlen cols -> zn 0 cols k = zn 0 cols j ->
  csr_mat (csr_of_rows (zlen rows) (zlen cols) (sub_row A rows cols)) i j = s0.
Proof.
  intros i j k Hj Hk E. unfold csr_mat. apply (mat_of_zero R). intros [[i' j'] v] He. cbn. intros -> ->.
  apply In_csr_of_rows in He. exfalso. destruct He as (_ & He). unfold sub_row in He.
  apply in_flat_map in He. destruct He as (q & _ & Hp). unfold sub_sel in Hp.
  destruct (Z.eqb_spec (last_pos cols (fst q)) (-1)); cbn in Hp; [tauto|]. destruct Hp as [Hp|[]].
  injection Hp as Hp _. now apply (last_pos_shadowed cols j k Hj Hk E) in Hp.
Qed.

Lemma sp_submatrix_spec (A : csr S) rows cols marker :
  csr_valid A -> (forall r, In r rows -> 0 <= r < c_rows A) -> (forall c, In c cols -> 0 <= c < c_cols A) ->
  c_cols A <= zlen marker -> (forall m, In m marker -> m = -1) ->
  exists B, sp_submatrix A rows cols marker = Ok (B, marker) /\ csr_valid B /\
    c_rows B = zlen rows /\ c_cols B = zlen cols /\
    forall i j, 0 <= i < zlen rows -> 0 <= j < zlen cols ->
       ((forall k, j < k < zlen cols -> zn 0 cols k <> zn 0 cols j) -> csr_mat B i j = csr_mat A (zn 0 rows i) (zn 0 cols j)) /\
       ((exists k, j < k < zlen cols /\ zn 0 cols k = zn 0 cols j) -> csr_mat B i j = s0).
Proof.
  intros V HR HC HM Hall. eexists. split; [now apply sp_submatrix_rows|]. split; [apply sub_rows_valid|].
  split; [reflexivity|]. split; [reflexivity|]. intros i j Hi Hj. split; [now apply sub_mat|].
  intros (k & Hk & E). apply (sub_mat_shadowed A rows cols i j k); auto; lia.
Qed.

Lemma sp_submatrix_new_spec (A : csr S) rows cols :
  csr_valid A -> (forall r, In r rows -> 0 <= r < c_rows A) -> (forall c, In c cols -> 0 <= c < c_cols A) ->
  exists B, sp_submatrix_new A rows cols = Ok B /\ csr_valid B /\
    c_rows B = zlen rows /\ c_cols B = zlen cols /\
    forall i j, 0 <= i < zlen rows -> 0 <= j < zlen cols ->
       ((forall k, j < k < zlen cols -> zn 0 cols k <> zn 0 cols j) -> csr_mat B i j = csr_mat A (zn 0 rows i) (zn 0 cols j)) /\
       ((exists k, j < k < zlen cols /\ zn 0 cols k = zn 0 cols j) -> csr_mat B i j = s0).
Proof.
  intros V HR HC. unfold sp_submatrix_new. pose proof (cv_cols V). rewrite vec_ok by lia. cbn [bind].
  destruct (sp_submatrix_spec A rows cols (repeat (-1) (Z.to_nat (c_cols A)))) as (B & E & H1 & H2); auto.
  - rewrite zlen_repeat. lia.
  - intros m Hm. now apply repeat_spec in Hm.
  - rewrite E. exists B. auto.
Qed.

Lemma sub_mat_nodup (A : csr S) rows cols marker :
  csr_valid A -> (forall r, In r rows -> 0 <= r < c_rows A) -> (forall c, In c cols -> 0 <= c < c_cols A) ->
  c_cols A <= zlen marker -> (forall m, In m marker -> m = -1) -> NoDup cols ->
  exists B, sp_submatrix A rows cols marker = Ok (B, marker) /\ csr_valid B /\
    c_rows B = zlen rows /\ c_cols B = zlen cols /\
    forall i j, 0 <= i < zlen rows -> 0 <= j < zlen cols -> csr_mat B i j = csr_mat A (zn 0 rows i) (zn 0 cols j).
Proof.
  intros V HR HC HM Hall ND. destruct (sp_submatrix_spec A rows cols marker V HR HC HM Hall) as (B' & E & H1 & H2 & H3 & H4).
  exists B'. repeat (split; [assumption|]). intros i j Hi Hj. apply H4; auto. intros k Hk Ek.
  rewrite (NoDup_nth cols 0) in ND. unfold zn, zlen in *. apply ND in Ek; lia.
Qed.

End SubMat.
