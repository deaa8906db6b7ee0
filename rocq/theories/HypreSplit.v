(** The rows of the other ranks split into their diag and offd parts, and the column map of the
    product: the same for every number of threads and every schedule. *)

From Coq Require Import ZArith List Bool Lia.
From Verif Require Import Base Scalar Spec Dense Sparse LoopFacts CsrFacts Rows SortProofs Par Threads ThreadProofs HypreOps HypreSpec HypreThreads HypreExt.
Import ListNotations.
Open Scope Z_scope.

Section Split.
Context {S : scalar}.
Notation T := (car S).
Notation V := (Z + T)%type.

Lemma cell_repeat (m : mem V) x k (v : V) i : get m x = Ok (repeat v (Z.to_nat k)) -> 0 <= i < k -> m_get m x i = Ok v.
Proof. intros E Hi. unfold m_get. rewrite E. cbn [bind]. rewrite (get_ok v) by (rewrite zlen_repeat; lia). now rewrite zn_repeat by lia. Qed.

Lemma map_zn_fst (l : list (Z * T)) k : k = zlen l -> map (fun i => fst (zn (0, s0) l i)) (zrange 0 k) = map fst l.
Proof. intros ->. rewrite <- (map_map (zn (0, s0) l) fst). now rewrite map_zn_zrange. Qed.
Lemma map_zn_snd (l : list (Z * T)) k : k = zlen l -> map (fun i => snd (zn (0, s0) l i)) (zrange 0 k) = map snd l.
Proof. intros ->. rewrite <- (map_map (zn (0, s0) l) snd). now rewrite map_zn_zrange. Qed.

Variables (srt : sorter) (bsearch : list Z -> Z -> Z -> Z).
Hypothesis Hsrt : sorts srt.

Lemma off_owner {X} (f : Z -> list X) rows n i : 0 <= rows -> 0 < n -> 0 <= i < off f rows ->
  exists t, 0 <= t < n /\ off f (tstart rows n t) <= i < off f (tstart rows n (t + 1)).
Proof.
  intros Hr Hn Hi. destruct (off_find f rows i Hi Hr) as (r & k & Hrr & Hk & ->). destruct (tstart_owner rows n r Hr Hn Hrr) as (t & Ht & Htr).
  exists t. split; [exact Ht|]. pose proof (tstart_range rows n t Hr Hn ltac:(lia)). pose proof (tstart_range rows n (t + 1) Hr Hn ltac:(lia)).
  pose proof (off_mono f (tstart rows n t) r ltac:(lia)). pose proof (off_mono f (r + 1) (tstart rows n (t + 1)) ltac:(lia)). rewrite off_succ in H2 by lia. lia.
Qed.

Lemma split_ext_ok (ext : option (csr S)) (B : parmat S) fc ncoA :
  let e := match ext with Some e => e | None => CSR 0 0 [] [] [] end in
  let ncdB := c_cols (pm_diag B) in
  let lc := fc + ncdB - 1 in
  0 <= ncoA -> get (pm_cs B) 0 = Ok fc -> (forall i, 0 <= i < ncoA -> csr_valid e /\ i < c_rows e) ->
  exists cmC, increasing cmC /\
    (forall g, In g cmC <-> In g (map fst (cat (eorow e fc lc) ncoA)) \/ In g (pm_map B)) /\
    forall n sched, 0 < n -> split_ext n sched srt bsearch ext ncoA B =
      Ok (csr_of_rows ncoA ncdB (edrow e fc lc),
          csr_of_rows ncoA (zlen cmC) (fun i => map (fun p => (bsearch cmC (fst p) (zlen cmC), snd p)) (eorow e fc lc i)), cmC).
Proof.
  intros e ncdB lc HA Hfc He. set (D := edrow e fc lc). set (O := eorow e fc lc).
  set (nB := zlen (pm_map B)). assert (HB : 0 <= nB) by apply zlen_nonneg.
  destruct (unique_columns_ok srt Hsrt (map fst (cat O ncoA)) (pm_map B) (repeat 0 (Z.to_nat nB))) as (cmC & Eu & Inc & Hin); [rewrite zlen_repeat; unfold nB; lia|].
  rewrite zlen_map in Eu. fold (off O ncoA) in Eu.
  exists cmC. split; [exact Inc|]. split; [exact Hin|]. intros n sched Hn.
  pose proof (off_nonneg D ncoA) as PD. pose proof (off_nonneg O ncoA) as PO.
  unfold split_ext. fold e. rewrite Hfc. cbn [bind]. fold ncdB. fold lc. unfold zeros, dzeros. rewrite !vec_ok by lia. cbn [bind].
  (* counting *)
  destruct (count_region ncoA n HA Hn (off D) (off O) (ext_count_thread e fc lc ncoA n)
    [repeat (inl 0) (Z.to_nat (ncoA + 1)); repeat (inl 0) (Z.to_nat (ncoA + 1)); repeat (inl 0) (Z.to_nat n); repeat (inl 0) (Z.to_nat n)] (sched 1)) as (m1 & E1 & C1).
  { unfold shape, oshape. cbn [map]. rewrite !zlen_repeat. repeat f_equal; lia. }
  { intros t Ht. apply ext_count_wp; auto. unfold shape, oshape. cbn [map]. rewrite !zlen_repeat. repeat f_equal; lia. }
  rewrite E1. cbn [bind].
  destruct (offsets_arrays ncoA n HA Hn (off D) (off O) (ext_offsets_thread ncoA n) m1 (sched 2) C1) as (m2 & E2 & I0 & I1).
  { intros t Ht. apply ext_offsets_wp; auto. }
  rewrite E2. cbn [bind]. rewrite I0, I1. cbn [bind]. rewrite !(get_ok 0) by (rewrite zlen_map_zrange; lia). cbn [bind]. rewrite !zn_map_zrange by lia. rewrite !vec_ok by lia. cbn [bind].
  (* filling *)
  set (m0 := [repeat (inl 0) _; _; _; _; _]).
  assert (S0 : shape m0 = fshape e fc lc ncoA nB).
  { unfold m0, shape, fshape. cbn [map]. rewrite !zlen_repeat. fold D O. repeat f_equal; lia. }
  destruct (region_ok n (ext_fill_thread e fc lc (map (off D) (zrange 0 (ncoA + 1))) (map (off O) (zrange 0 (ncoA + 1))) ncoA n) (fw e fc lc ncoA n) nor (ffin e fc lc ncoA) m0 (sched 3) ltac:(lia)) as (m3 & E3 & S3 & D3 & U3).
  { intros t Ht. apply (ext_fill_wp e fc lc ncoA HA He n Hn nB HB m0 t S0 Ht). }
  { intros s t x i Hs Ht Hne Hw [[]|Hw']. destruct Hw as [(Hx & Hi)|(Hx & Hi)], Hw' as [(Hx' & Hi')|(Hx' & Hi')]; try lia.
    - apply Hne. exact (seg_unique ncoA n D s t i HA Hn Hs Ht Hi Hi').
    - apply Hne. exact (seg_unique ncoA n O s t i HA Hn Hs Ht Hi Hi'). }
  rewrite E3. cbn [bind]. rewrite S0 in S3.
  assert (G1 : forall x i, (x = 0 \/ x = 1) -> 0 <= i < off D ncoA -> m_get m3 x i = Ok (ffin e fc lc ncoA 0 x i)).
  { intros x i Hx Hi. destruct (off_owner D ncoA n i HA Hn Hi) as (t & Ht & Hti). apply (D3 t x i Ht). left. split; [exact Hx|exact Hti]. }
  assert (G2 : forall x i, (x = 2 \/ x = 3 \/ x = 4) -> 0 <= i < off O ncoA -> m_get m3 x i = Ok (ffin e fc lc ncoA 0 x i)).
  { intros x i Hx Hi. destruct (off_owner O ncoA n i HA Hn Hi) as (t & Ht & Hti). apply (D3 t x i Ht). right. split; [exact Hx|exact Hti]. }
  assert (Z3 : zlen (fshape e fc lc ncoA nB) = 5) by reflexivity.
  assert (X0 : ints m3 0 = Ok (map fst (cat D ncoA))).
  { rewrite (ints_ok m3 0 (fun i => fst (zn (0, s0) (cat D ncoA) i))); rewrite ?S3, ?Z3; [|lia|].
    - change (zn 0 (fshape e fc lc ncoA nB) 0) with (off D ncoA). now rewrite map_zn_fst.
    - intros i Hi. apply (G1 0); auto. }
  assert (X1 : doubles m3 1 = Ok (map snd (cat D ncoA))).
  { rewrite (doubles_ok m3 1 (fun i => snd (zn (0, s0) (cat D ncoA) i))); rewrite ?S3, ?Z3; [|lia|].
    - change (zn 0 (fshape e fc lc ncoA nB) 1) with (off D ncoA). now rewrite map_zn_snd.
    - intros i Hi. apply (G1 1); auto. }
  assert (X3 : doubles m3 3 = Ok (map snd (cat O ncoA))).
  { rewrite (doubles_ok m3 3 (fun i => snd (zn (0, s0) (cat O ncoA) i))); rewrite ?S3, ?Z3; [|lia|].
    - change (zn 0 (fshape e fc lc ncoA nB) 3) with (off O ncoA). now rewrite map_zn_snd.
    - intros i Hi. apply (G2 3); auto. }
  assert (X4 : ints m3 4 = Ok (map fst (cat O ncoA) ++ repeat 0 (Z.to_nat nB))).
  { rewrite (ints_ok m3 4 (fun i => zn 0 (map fst (cat O ncoA) ++ repeat 0 (Z.to_nat nB)) i)); rewrite ?S3, ?Z3; [|lia|].
    - change (zn 0 (fshape e fc lc ncoA nB) 4) with (off O ncoA + nB). replace (off O ncoA + nB) with (zlen (map fst (cat O ncoA) ++ repeat 0 (Z.to_nat nB))).
      + now rewrite map_zn_zrange.
      + rewrite zlen_app, zlen_map, zlen_repeat. fold (off O ncoA). lia.
    - intros i Hi. change (zn 0 (fshape e fc lc ncoA nB) 4) with (off O ncoA + nB) in Hi. destruct (Z_lt_ge_dec i (off O ncoA)) as [L|L].
      + rewrite (G2 4 i) by lia. rewrite zn_app_l by (rewrite zlen_map; fold (off O ncoA); lia). rewrite (zn_map (0, s0)) by (fold (off O ncoA); lia). reflexivity.
      + rewrite U3.
        * rewrite (cell_repeat m0 4 (off O ncoA + nB) (inl 0) i) by (reflexivity || lia).
          rewrite zn_app_r by (rewrite zlen_map; fold (off O ncoA); lia). rewrite zn_repeat; [reflexivity|]. rewrite zlen_map. fold (off O ncoA). lia.
        * intros t Ht [(Hx & _)|(_ & Hti)]; [lia|]. pose proof (tstart_range ncoA n (t + 1) HA Hn ltac:(lia)) as R. pose proof (off_mono O _ _ R). unfold O in *. lia. }
  rewrite X0. cbn [bind]. rewrite X1. cbn [bind]. rewrite X3. cbn [bind]. rewrite X4. cbn [bind].
  destruct (array_len m3 2) as (oj & Ej & Lj); [rewrite S3, Z3; lia|]. rewrite Ej. cbn [bind]. rewrite S3 in Lj. change (zn 0 (fshape e fc lc ncoA nB) 2) with (off O ncoA) in Lj.
  rewrite Eu. cbn [bind].
  (* renumbering *)
  destruct (region_ok n (ext_renumber_thread bsearch cmC (map (off O) (zrange 0 (ncoA + 1))) ncoA n) (nw e fc lc ncoA n) nor (nfin e fc lc ncoA (fun c => bsearch cmC c (zlen cmC))) [oj] (sched 4) ltac:(lia)) as (m5 & E5 & S5 & D5 & _).
  { intros t Ht. apply (ext_renumber_wp e fc lc ncoA HA n Hn); auto.
    - unfold shape. cbn [map]. now rewrite Lj.
    - intros i Hi. specialize (G2 2 i ltac:(lia) Hi). unfold m_get in G2 |- *. rewrite Ej in G2. exact G2. }
  { intros s t x i Hs Ht Hne (-> & Hi) [[]|(_ & Hi')]. apply Hne. exact (seg_unique ncoA n O s t i HA Hn Hs Ht Hi Hi'). }
  rewrite E5. cbn [bind]. assert (Sh5 : shape m5 = [off O ncoA]) by (rewrite S5; unfold shape; cbn [map]; now rewrite Lj).
  assert (X5 : ints m5 0 = Ok (map (fun p => bsearch cmC (fst p) (zlen cmC)) (cat O ncoA))).
  { rewrite (ints_ok m5 0 (fun i => bsearch cmC (fst (zn (0, s0) (cat O ncoA) i)) (zlen cmC))); rewrite ?Sh5; [|rewrite zlen_cons, zlen_nil; lia|].
    - change (zn 0 [off O ncoA] 0) with (off O ncoA). rewrite <- (map_map (zn (0, s0) (cat O ncoA)) (fun p => bsearch cmC (fst p) (zlen cmC))). unfold off. now rewrite map_zn_zrange.
    - intros i Hi. change (zn 0 [off O ncoA] 0) with (off O ncoA) in Hi. destruct (off_owner O ncoA n i HA Hn Hi) as (t & Ht & Hti). apply (D5 t 0 i Ht). split; [reflexivity|exact Hti]. }
  rewrite X5. cbn [bind]. unfold csr_of_rows. do 3 f_equal. f_equal.
  - apply map_ext. intros k. symmetry. apply off_map.
  - rewrite <- map_cat, map_map. reflexivity.
  - rewrite <- map_cat, map_map. reflexivity.
Qed.

End Split.
