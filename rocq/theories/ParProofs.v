(** Proofs about offsets, column maps and the construction of ParMatrix. *)

From Coq Require Import ZArith List Bool Lia Permutation Sorting.Sorted.
From Verif Require Import Base Scalar Spec Dense Sparse SumFacts LoopFacts CsrFacts Rows SparseProofs SparseMore SortProofs HistoryProofs
  Coo CooSpec CooProofs CooMore Vec VecSpec Par ParSpec.
Import ListNotations.
Open Scope Z_scope.

(* ---------------------------------------------------------------- sums of ints *)

Lemma zsum_empty lo f : zsum lo lo f = 0.
Proof. unfold zsum. now rewrite zrange_empty by lia. Qed.

Lemma zsum_S n f : 0 <= n -> zsum 0 (n + 1) f = zsum 0 n f + f n.
Proof.
  intros H. unfold zsum. rewrite (zrange_snoc 0 (n + 1)) by lia. replace (n + 1 - 1) with n by lia. rewrite map_app. cbn [map]. induction (map f (zrange 0 n)) as [|a l IH]; cbn; lia.
Qed.

Lemma zsum_ext lo hi f g : (forall i, lo <= i < hi -> f i = g i) -> zsum lo hi f = zsum lo hi g.
Proof. intros H. unfold zsum. f_equal. apply map_ext_in. intros i Hi. apply In_zrange in Hi. auto. Qed.

Lemma zsum_le n m f : 0 <= n <= m -> (forall i, n <= i < m -> 0 <= f i) -> zsum 0 n f <= zsum 0 m f.
Proof.
  intros Hn Hf. assert (E : exists k, m = n + k /\ 0 <= k) by (exists (m - n); lia). destruct E as (k & -> & Hk).
  revert Hf. assert (G : 0 <= n) by lia. clear Hn. pattern k. revert k Hk. apply natlike_ind.
  - intros _. rewrite Z.add_0_r. lia.
  - intros k Hk IH Hf. replace (n + Z.succ k) with (n + k + 1) by lia. rewrite zsum_S by lia.
    assert (zsum 0 n f <= zsum 0 (n + k) f) by (apply IH; intros; apply Hf; lia). specialize (Hf (n + k) ltac:(lia)). lia.
Qed.

Lemma zsum_add n f g : 0 <= n -> zsum 0 n (fun i => f i + g i) = zsum 0 n f + zsum 0 n g.
Proof.
  intros Hn. pattern n. revert n Hn. apply natlike_ind; [now rewrite !zsum_empty|].
  intros k Hk IH. unfold Z.succ. rewrite !zsum_S by lia. lia.
Qed.

Lemma zsum_0 n : 0 <= n -> zsum 0 n (fun _ => 0) = 0.
Proof. intros Hn. pattern n. revert n Hn. apply natlike_ind; [now rewrite zsum_empty|]. intros k Hk IH. unfold Z.succ. rewrite zsum_S by lia. lia. Qed.

(* ---------------------------------------------------------------- ranks *)

Lemma ranks_ok {A} p (f : Z -> res A) (g : Z -> A) : (forall r, 0 <= r < p -> f r = Ok (g r)) -> ranks p f = Ok (map g (zrange 0 p)).
Proof.
  intros H. unfold ranks. rewrite (foldM_snoc_map _ g); [reflexivity|]. intros r Hr. apply In_zrange in Hr. auto.
Qed.

(** for (i = 0; i < n; ++i) l[i] = f(i, l[i]); *)
Lemma for_update {A} (d : A) (f : Z -> A -> res A) (g : Z -> A -> A) n (l : list A) :
  zlen l = n -> (forall i, 0 <= i < n -> f i (zn d l i) = Ok (g i (zn d l i))) ->
  for_ 0 n l (fun i l => a <- get l i ;; b <- f i a ;; set l i b) = Ok (map (fun i => g i (zn d l i)) (zrange 0 n)).
Proof.
  intros Hl Hf. pose proof (zlen_nonneg l). apply res_of_returns.
  apply (returns_for (fun k o => zlen o = n /\ forall i, 0 <= i < n -> zn d o i = if i <? k then g i (zn d l i) else zn d l i)).
  - lia.
  - split; [exact Hl|]. intros i Hi. destruct (Z.ltb_spec i 0); [lia|reflexivity].
  - intros i o Hi (Ho & Hv). rewrite (get_ok d) by lia. cbn [bind]. rewrite Hv by lia. destruct (Z.ltb_spec i i); [lia|].
    rewrite Hf by lia. cbn [bind]. rewrite set_ok by lia. cbn. split; [now rewrite zlen_upd|].
    intros j Hj. rewrite zn_upd by lia. destruct (Z.eqb_spec j i) as [->|N].
    + destruct (Z.ltb_spec i (i + 1)); [reflexivity|lia].
    + rewrite Hv by lia. destruct (Z.ltb_spec j i); destruct (Z.ltb_spec j (i + 1)); try lia; reflexivity.
  - intros o (Ho & Hv). apply (list_ext d); [now rewrite zlen_map_zrange by lia|].
    intros i Hi. rewrite Hv by lia. destruct (Z.ltb_spec i n); [|lia]. now rewrite zn_map_zrange by lia.
Qed.

(* ---------------------------------------------------------------- GenerateOffsets *)

(** What rank r gets for the i-th size. *)
Definition offset_of (sizes : list (list Z)) (r i : Z) : list Z :=
  let f q := zn 0 (zn [] sizes q) i in [zsum 0 r f; zsum 0 (r + 1) f; zsum 0 (zlen sizes) f].

Lemma generate_offsets_ok sizes n : 0 < zlen sizes -> (forall r, 0 <= r < zlen sizes -> zlen (zn [] sizes r) = n) ->
  generate_offsets sizes = Ok (map (fun r => map (offset_of sizes r) (zrange 0 n)) (zrange 0 (zlen sizes))).
Proof.
  intros Hp Hn. assert (0 <= n) by (rewrite <- (Hn 0) by lia; apply zlen_nonneg). unfold generate_offsets.
  assert (Es : mpi_scan sizes = Ok (map (fun r => map (fun i => zsum 0 (r + 1) (fun q => zn 0 (zn [] sizes q) i)) (zrange 0 n)) (zrange 0 (zlen sizes)))).
  { unfold mpi_scan. rewrite Hn by lia. rewrite (proj2 (forallb_forall _ _)); [reflexivity|].
    intros b Hb. destruct (In_zn [] _ _ Hb) as (r & Hr & <-). rewrite Hn by lia. apply Z.eqb_refl. }
  rewrite Es. cbn [bind].
  set (scan := map (fun r => map (fun i => zsum 0 (r + 1) (fun q => zn 0 (zn [] sizes q) i)) (zrange 0 n)) (zrange 0 (zlen sizes))).
  assert (Ls : zlen scan = zlen sizes) by (unfold scan; rewrite zlen_map_zrange; lia).
  rewrite (ranks_ok _ _ (fun r => map (fun i => [zsum 0 r (fun q => zn 0 (zn [] sizes q) i); zsum 0 (r + 1) (fun q => zn 0 (zn [] sizes q) i); 0]) (zrange 0 n))).
  2:{ intros r Hr. rewrite (get_ok []) by lia. cbn [bind]. rewrite (get_ok []) by lia. cbn [bind]. rewrite Hn by lia. rewrite vec_ok by lia. cbn [bind].
      unfold offsets_fill. rewrite Hn by lia.
      rewrite <- (for_update [] (fun i o => s <- get (zn [] scan r) i ;; l <- get (zn [] sizes r) i ;; o <- set o 0 (s - l) ;; set o 1 s)
               (fun i _ => [zsum 0 r (fun q => zn 0 (zn [] sizes q) i); zsum 0 (r + 1) (fun q => zn 0 (zn [] sizes q) i); 0]) n (repeat [0; 0; 0] (Z.to_nat n))).
      - unfold for_. apply foldM_ext. intros s x Hx. apply In_zrange in Hx.
        destruct (get (zn [] scan r) x) as [v|f] eqn:E1.
        2:{ unfold scan in E1. rewrite zn_map_zrange in E1 by lia. rewrite (get_ok 0) in E1 by (rewrite zlen_map_zrange by lia; lia). discriminate. }
        cbn [bind]. rewrite (get_ok 0 (zn [] sizes r)) by (rewrite Hn by lia; lia). cbn [bind].
        destruct (get s x); cbn [bind]; [|reflexivity]. destruct (set a 0 _); cbn [bind]; [|reflexivity]. reflexivity.
      - rewrite zlen_repeat; lia.
      - intros i Hi. unfold scan. rewrite zn_map_zrange by lia. rewrite (get_ok 0) by (rewrite zlen_map_zrange by lia; lia). cbn [bind].
        rewrite zn_map_zrange by lia. rewrite (get_ok 0) by (rewrite Hn by lia; lia). cbn [bind]. rewrite zn_repeat by lia.
        rewrite zsum_S by lia. rewrite Z.add_simpl_r. reflexivity. }
  cbn [bind]. unfold mpi_bcast. rewrite (get_ok []) by lia. cbn [bind].
  apply ranks_ok. intros r Hr. rewrite (get_ok []) by lia. cbn [bind]. rewrite (get_ok []) by (rewrite zlen_map; lia). cbn [bind].
  rewrite (get_ok []) by (rewrite zlen_map_zrange; lia). cbn [bind]. rewrite zn_map_zrange by lia. rewrite zn_map_const by lia.
  unfold offsets_total. rewrite Hn by lia.
  set (last := zn [] scan (zlen sizes - 1)).
  assert (El : forall i, 0 <= i < n -> get last i = Ok (zsum 0 (zlen sizes) (fun q => zn 0 (zn [] sizes q) i))).
  { intros i Hi. unfold last, scan. rewrite zn_map_zrange by lia. rewrite (get_ok 0) by (rewrite zlen_map_zrange by lia; lia). rewrite zn_map_zrange by lia. do 2 f_equal. lia. }
  transitivity (for_ 0 n (map (fun i => [zsum 0 r (fun q => zn 0 (zn [] sizes q) i); zsum 0 (r + 1) (fun q => zn 0 (zn [] sizes q) i); 0]) (zrange 0 n))
     (fun i l => a <- get l i ;; b <- (s <- get last i ;; set a 2 s) ;; set l i b)).
  { unfold for_. apply foldM_ext. intros s x Hx. apply In_zrange in Hx. rewrite El by lia. cbn [bind]. reflexivity. }
  erewrite (for_update [] _ (fun i o => offset_of sizes r i)).
  - reflexivity.
  - rewrite zlen_map_zrange; lia.
  - intros i Hi. rewrite El by lia. cbn [bind]. rewrite zn_map_zrange by lia. reflexivity.
Qed.

Lemma generate_offsets1_ok sizes : 0 < zlen sizes ->
  generate_offsets1 sizes = Ok (map (fun r => [first_of sizes r; first_of sizes (r + 1); first_of sizes (zlen sizes)]) (zrange 0 (zlen sizes))).
Proof.
  intros Hp. unfold generate_offsets1. rewrite (generate_offsets_ok _ 1).
  - rewrite zlen_map. cbn [bind]. apply ranks_ok. intros r Hr. rewrite (get_ok []) by (rewrite zlen_map_zrange; lia). cbn [bind].
    rewrite zn_map_zrange by lia. rewrite zlen_map_zrange by lia. rewrite Z.eqb_refl. cbn [assert_ bind].
    rewrite (get_ok []) by (rewrite zlen_map_zrange; lia). rewrite zn_map_zrange by lia. unfold offset_of, first_of. rewrite zlen_map.
    assert (E : forall k, 0 <= k <= zlen sizes -> zsum 0 k (fun q => zn 0 (zn [] (map (fun s => [s]) sizes) q) 0) = zsum 0 k (zn 0 sizes)).
    { intros k Hk. apply zsum_ext. intros q Hq. now rewrite (zn_map 0) by lia. }
    rewrite !E by lia. reflexivity.
  - rewrite zlen_map. exact Hp.
  - rewrite zlen_map. intros r Hr. now rewrite (zn_map 0) by lia.
Qed.

Lemma generate_offsets_refuses sizes n r q : 0 <= r < zlen sizes -> 0 <= q < zlen sizes ->
  zlen (zn [] sizes r) = n -> zlen (zn [] sizes q) <> n -> generate_offsets sizes = Fail FUB.
Proof.
  intros Hr Hq En Nq. unfold generate_offsets, mpi_scan.
  replace (forallb (fun b => zlen b =? zlen (zn [] sizes 0)) sizes) with false; [reflexivity|].
  symmetry. apply not_true_iff_false. rewrite forallb_forall. intros H.
  pose proof (H _ (zn_In [] sizes r Hr)) as H1. pose proof (H _ (zn_In [] sizes q Hq)) as H2. lia.
Qed.

(** Every index below the total belongs to exactly one rank. *)
Lemma owner_exists sizes g : (forall r, 0 <= r < zlen sizes -> 0 <= zn 0 sizes r) -> 0 <= g < first_of sizes (zlen sizes) ->
  exists r, 0 <= r < zlen sizes /\ first_of sizes r <= g < first_of sizes (r + 1).
Proof.
  unfold first_of. intros Hs. pose proof (zlen_nonneg sizes) as Hn. revert g Hs. generalize (zn 0 sizes). intros f.
  generalize dependent (zlen sizes). clear sizes. intros n Hn. pattern n. revert n Hn. apply natlike_ind.
  - rewrite zsum_empty. lia.
  - intros n Hn IH g Hs Hg. unfold Z.succ in *. rewrite zsum_S in Hg by lia. destruct (Z_lt_ge_dec g (zsum 0 n f)) as [L|G].
    + destruct (IH g) as (r & Hr & H); [intros; apply Hs; lia|lia|]. exists r. split; [lia|exact H].
    + exists n. split; [lia|]. rewrite zsum_S by lia. lia.
Qed.

Lemma owner_unique sizes g r q : (forall r, 0 <= r < zlen sizes -> 0 <= zn 0 sizes r) -> 0 <= r < zlen sizes -> 0 <= q < zlen sizes ->
  first_of sizes r <= g < first_of sizes (r + 1) -> first_of sizes q <= g < first_of sizes (q + 1) -> r = q.
Proof.
  intros Hs Hr Hq H1 H2. unfold first_of in *. destruct (Z.lt_trichotomy r q) as [L|[E|L]]; [exfalso|exact E|exfalso].
  - assert (zsum 0 (r + 1) (zn 0 sizes) <= zsum 0 q (zn 0 sizes)) by (apply zsum_le; [lia|intros; apply Hs; lia]). lia.
  - assert (zsum 0 (q + 1) (zn 0 sizes) <= zsum 0 r (zn 0 sizes)) by (apply zsum_le; [lia|intros; apply Hs; lia]). lia.
Qed.

(* ---------------------------------------------------------------- SortColumnMap *)

Lemma NoDup_zn {A} (d : A) l i j : NoDup l -> 0 <= i < zlen l -> 0 <= j < zlen l -> zn d l i = zn d l j -> i = j.
Proof. intros ND Hi Hj E. rewrite (NoDup_nth l d) in ND. unfold zn, zlen in *. apply ND in E; lia. Qed.

(** for (i = 0; i < n; ++i) c[p[i]] = i inverts a permutation. *)
Lemma invert_loop (p c : list Z) n : is_perm n p -> zlen c = n ->
  exists q, for_ 0 n c (fun i c => k <- get p i ;; set c k i) = Ok q /\ zlen q = n /\ forall i, 0 <= i < n -> zn 0 q (zn 0 p i) = i.
Proof.
  intros (Hl & ND & Hr) Hc. pose proof (zlen_nonneg p). rewrite Forall_forall in Hr. apply returns_exists.
  apply (returns_for (fun k c => zlen c = n /\ forall i, 0 <= i < k -> zn 0 c (zn 0 p i) = i)).
  - lia.
  - split; [exact Hc|]. intros; lia.
  - intros i o Hi (Ho & Hv). rewrite (get_ok 0) by lia. cbn [bind]. assert (Hp : 0 <= zn 0 p i < n) by (apply Hr, zn_In; lia).
    rewrite set_ok by lia. cbn. split; [now rewrite zlen_upd|]. intros j Hj.
    assert (0 <= zn 0 p j < n) by (apply Hr, zn_In; lia). rewrite zn_upd by lia.
    destruct (Z.eqb_spec (zn 0 p j) (zn 0 p i)) as [E|N].
    + apply (NoDup_zn 0 p) in E; [lia|exact ND|lia|lia].
    + apply Hv. destruct (Z.eq_dec j i) as [->|]; [congruence|lia].
  - intros o H'. exact H'.
Qed.

Lemma inverse_perm (p q : list Z) n : is_perm n p -> zlen q = n -> (forall i, 0 <= i < n -> zn 0 q (zn 0 p i) = i) ->
  is_perm n q /\ forall j, 0 <= j < n -> 0 <= zn 0 q j < n /\ zn 0 p (zn 0 q j) = j.
Proof.
  intros (Hl & ND & Hr) Hq Hv. rewrite Forall_forall in Hr.
  assert (Hin : forall j, 0 <= j < n -> exists i, 0 <= i < n /\ zn 0 p i = j).
  { intros j Hj. assert (I : In j p).
    { apply (NoDup_length_incl ND (l' := zrange 0 n)).
      - rewrite zrange_length. unfold zlen in Hl. lia.
      - intros x Hx. apply In_zrange. apply Hr, Hx.
      - apply In_zrange. lia. }
    destruct (In_zn 0 _ _ I) as (i & Hi & E). exists i. split; [lia|exact E]. }
  assert (Hinv : forall j, 0 <= j < n -> 0 <= zn 0 q j < n /\ zn 0 p (zn 0 q j) = j).
  { intros j Hj. destruct (Hin j Hj) as (i & Hi & <-). rewrite Hv by lia. auto. }
  split; [|exact Hinv]. split; [exact Hq|]. split.
  - apply (NoDup_nth q 0). intros a b Ha Hb E. unfold zlen in *.
    assert (Z.of_nat a = Z.of_nat b); [|lia].
    destruct (Hinv (Z.of_nat a) ltac:(lia)) as (_ & E1). destruct (Hinv (Z.of_nat b) ltac:(lia)) as (_ & E2).
    rewrite <- E1, <- E2. f_equal. unfold zn. rewrite !Nat2Z.id. exact E.
  - rewrite Forall_forall. intros k Hk. destruct (In_zn 0 _ _ Hk) as (j & Hj & <-). apply Hinv. lia.
Qed.

Lemma srt_perm srt (key : Z -> Z) n : sorts srt -> 0 <= n -> is_perm n (srt (fun i j => key i <? key j) (zrange 0 n)).
Proof.
  intros Hs Hn. destruct (Hs (fun i j => key i <? key j) (zrange 0 n) (key_order key)) as (P & _). split; [|split].
  - unfold zlen. rewrite <- (Permutation_length P). rewrite zrange_length. lia.
  - apply (Permutation_NoDup P), NoDup_zrange.
  - apply Forall_forall. intros k Hk. apply (Permutation_in _ (Permutation_sym P)) in Hk. apply In_zrange in Hk. lia.
Qed.

Lemma strongly_sorted_zn {A} (d : A) (r : A -> A -> Prop) l : StronglySorted r l -> forall i j, 0 <= i < j -> j < zlen l -> r (zn d l i) (zn d l j).
Proof.
  induction 1 as [|a l Hl IH Ha]; intros i j Hi Hj; [change (zlen (@nil A)) with 0 in Hj; lia|].
  rewrite zlen_cons in Hj. replace (zn d (a :: l) j) with (zn d l (j - 1)).
  2:{ unfold zn. replace (Z.to_nat j) with (Datatypes.S (Z.to_nat (j - 1))) by lia. reflexivity. }
  destruct (Z.eq_dec i 0) as [->|N].
  - rewrite Forall_forall in Ha. apply Ha, zn_In. lia.
  - replace (zn d (a :: l) i) with (zn d l (i - 1)).
    2:{ unfold zn. replace (Z.to_nat i) with (Datatypes.S (Z.to_nat (i - 1))) by lia. reflexivity. }
    apply IH; lia.
Qed.

Section SortMap.
Context {S : scalar}.
Notation T := (car S).

Lemma sort_column_map_ok srt cm (M : coo S) : sorts srt -> coo_ok M -> o_set M = true -> o_cols M = zlen cm ->
  exists cm' ci, sort_column_map srt cm M =
      Ok (cm', Coo (o_rows M) (o_cols M) true (map (fun e => (erow e, zn 0 ci (ecol e), evalue e)) (o_entries M))) /\
    Permutation cm cm' /\ (forall i j, 0 <= i < j -> j < zlen cm' -> zn 0 cm' i <= zn 0 cm' j) /\
    is_perm (zlen cm) ci /\ forall j, 0 <= j < zlen cm -> zn 0 cm' (zn 0 ci j) = zn 0 cm j.
Proof.
  intros Hs HM Hset Hc. pose proof (zlen_nonneg cm) as Hn. set (n := zlen cm) in *.
  set (p := srt (fun i j => zn 0 cm i <? zn 0 cm j) (zrange 0 n)).
  assert (Pp : is_perm n p) by (now apply srt_perm). pose proof Pp as (Lp & NDp & Rp). rewrite Forall_forall in Rp.
  destruct (Hs (fun i j => zn 0 cm i <? zn 0 cm j) (zrange 0 n) (key_order (zn 0 cm))) as (PP & SS). fold p in PP, SS.
  assert (Lc : zlen (repeat 0 (Z.to_nat n)) = n) by (rewrite zlen_repeat; lia).
  destruct (invert_loop p (repeat 0 (Z.to_nat n)) n Pp Lc) as (ci & Ei & Li & Hi).
  destruct (inverse_perm p ci n Pp Li Hi) as (Pi & Hinv).
  exists (map (fun i => zn 0 cm (zn 0 p i)) (zrange 0 n)), ci. split; [|split; [|split; [|split; [exact Pi|]]]].
  - unfold sort_column_map. fold n. cbv zeta. fold p. rewrite vec_ok by lia. cbn [bind]. rewrite Ei. cbn [bind].
    rewrite coo_permute_cols_spec; [|exact HM|].
    2:{ unfold coo_find_size. rewrite Hset. cbn [snd]. lia. }
    cbn [bind].
    erewrite (for_ext _ _ _ _ (fun i c => v <- Ok (zn 0 cm (zn 0 p i)) ;; set c i v)).
    2:{ intros i c Hi'. rewrite (get_ok 0) by lia. cbn [bind]. rewrite (get_ok 0); [reflexivity|]. apply Rp, zn_In. lia. }
    rewrite (for_fill 0 (fun i => zn 0 cm (zn 0 p i))); [|exact Li|reflexivity]. cbn [bind]. now rewrite Hset.
  - transitivity (map (zn 0 cm) p).
    + transitivity (map (zn 0 cm) (zrange 0 n)); [unfold n; now rewrite (map_zn_zrange 0)|]. now apply Permutation_map.
    + rewrite <- (map_zn_zrange 0 p) at 1. rewrite map_map, Lp. reflexivity.
  - rewrite zlen_map_zrange by lia. intros i j Hij Hj. rewrite !zn_map_zrange by lia.
    pose proof (strongly_sorted_zn 0 _ _ SS i j Hij ltac:(lia)) as H. cbn beta in H. lia.
  - intros j Hj. destruct (Hinv j Hj) as (H1 & H2). rewrite zn_map_zrange by lia. now rewrite H2.
Qed.

End SortMap.

(* ---------------------------------------------------------------- ParMatrix construction *)

Lemma for_unit_iff n (f : Z -> unit -> res unit) : for_ 0 n tt f = Ok tt <-> forall i, 0 <= i < n -> f i tt = Ok tt.
Proof.
  unfold for_. setoid_rewrite <- In_zrange. induction (zrange 0 n) as [|a l IH]; cbn; [split; [intros _ i []|reflexivity]|].
  split.
  - intros H i Hi. destruct (f a tt) as [[]|] eqn:E; cbn in H; [|discriminate]. destruct Hi as [<-|Hi]; [exact E|]. apply IH; assumption.
  - intros H. rewrite (H a) by now left. cbn. apply IH. intros; apply H; now right.
Qed.

Lemma increasing_all (f : Z -> Z) n : (forall i, 0 <= i < n - 1 -> f i < f (i + 1)) -> forall i j, 0 <= i < j -> j < n -> f i < f j.
Proof.
  intros H i j Hij Hj. assert (E : exists k, j = i + 1 + k /\ 0 <= k) by (exists (j - i - 1); lia). destruct E as (k & -> & Hk).
  assert (Hi : 0 <= i) by lia. clear Hij. revert Hj. pattern k. revert k Hk. apply natlike_ind.
  - intros Hj. rewrite Z.add_0_r. apply H. lia.
  - intros k Hk IH Hj. specialize (IH ltac:(lia)). specialize (H (i + 1 + k) ltac:(lia)). replace (i + 1 + Z.succ k) with (i + 1 + k + 1) by lia. lia.
Qed.

Section Make.
Context {S : scalar}.
Notation T := (car S).
Variable reorder : csr S -> csr S.
Hypothesis Hre : reorders reorder.

Lemma sp_zero_valid rows cols : 0 <= rows -> 0 <= cols ->
  exists A : csr S, sp_zero rows cols = Ok A /\ csr_valid A /\ c_rows A = rows /\ c_cols A = cols /\ entries A = [].
Proof.
  intros Hr Hc. unfold sp_zero. rewrite !(proj2 (Z.leb_le _ _)) by lia. cbn [assert_ bind]. rewrite vec_ok by lia. cbn [bind]. eexists. split; [reflexivity|].
  assert (P : forall i, 0 <= i <= rows -> zn 0 (repeat 0 (Z.to_nat (rows + 1))) i = 0) by (intros; apply zn_repeat; lia).
  refine (conj _ (conj eq_refl (conj eq_refl _))).
  - constructor; unfold ptr, idx, nnz; cbn [c_rows c_cols c_ptr c_idx c_val]; try lia.
    + rewrite zlen_repeat. lia.
    + reflexivity.
    + apply P. lia.
    + intros i Hi. rewrite !P by lia. lia.
    + rewrite P by lia. reflexivity.
    + intros k Hk. change (zlen (@nil Z)) with 0 in Hk. lia.
  - unfold entries, row_entries, ptr. cbn [c_rows c_ptr]. apply flat_map_nil. intros i Hi. apply In_zrange in Hi. rewrite !P by lia. reflexivity.
Qed.

Lemma entries_no_rows (A : csr S) : csr_valid A -> c_rows A = 0 -> entries A = [].
Proof. intros V H. unfold entries. rewrite H. reflexivity. Qed.

Lemma get3 (l : list Z) : zlen l = 3 -> get l 0 = Ok (zn 0 l 0) /\ get l 1 = Ok (zn 0 l 1) /\ get l 2 = Ok (zn 0 l 2).
Proof. intros H. repeat split; apply get_ok; lia. Qed.

Lemma pm_make_ok rs cs (D O : csr S) cm : csr_valid D -> csr_valid O -> layout rs cs D O cm ->
  exists A, pm_make reorder rs cs D O cm = Ok A /\ pm_valid A /\ pm_rs A = rs /\ pm_cs A = cs /\ pm_map A = cm /\
    pm_diag A = reorder D /\ entries (pm_offd A) = entries O.
Proof.
  intros VD VO (L3 & M3 & Hr & Hc & Dr & Dc & Or & Oc & Hm & Hi).
  destruct (get3 rs L3) as (R0 & R1 & R2). destruct (get3 cs M3) as (C0 & C1 & C2).
  assert (Hlt := increasing_all (zn 0 cm) (zlen cm) Hi).
  unfold pm_make, pm_init. rewrite L3, M3, R0, R1, R2, C0, C1, C2. cbn [bind].
  repeat match goal with |- context [assert_ (?a <=? ?b)] => destruct (Z.leb_spec a b); [|lia]; cbn [assert_ bind] end.
  rewrite !Z.eqb_refl. cbn [assert_ bind].
  assert (E : exists O', (if (c_rows O =? 0) && (c_cols O =? 0) then sp_zero (zn 0 rs 1 - zn 0 rs 0) 0 else Ok O) = Ok O' /\
      csr_valid O' /\ c_rows O' = zn 0 rs 1 - zn 0 rs 0 /\ c_cols O' = zlen cm /\ entries O' = entries O).
  { destruct ((c_rows O =? 0) && (c_cols O =? 0)) eqn:EO.
    - apply andb_prop in EO. destruct EO as (E1 & E2). apply Z.eqb_eq in E1, E2.
      destruct (sp_zero_valid (zn 0 rs 1 - zn 0 rs 0) 0) as (O' & E' & V' & A1 & A2 & A3); [lia|lia|].
      exists O'. repeat (split; [assumption || lia|]). rewrite A3. symmetry. now apply entries_no_rows.
    - exists O. refine (conj eq_refl (conj VO (conj _ (conj Oc eq_refl)))). destruct Or as [Or|Or]; [exact Or|]. lia. }
  destruct E as (O' & E & VO' & Or' & Oc' & Eo). rewrite E. cbn [bind]. rewrite Dr, Dc, Or', Oc', !Z.eqb_refl. cbn [assert_ bind].
  rewrite (proj2 (for_unit_iff _ _)).
  2:{ intros i Hi'. rewrite (get_ok 0) by lia. cbn [bind]. destruct (Hm i Hi') as (G1 & G2).
      destruct (Z.leb_spec 0 (zn 0 cm i)); [|lia]. destruct (Z.ltb_spec (zn 0 cm i) (zn 0 cs 2)); [|lia]. cbn [andb assert_ bind].
      assert (B : (zn 0 cs 1 <=? zn 0 cm i) || (zn 0 cm i <? zn 0 cs 0) = true) by lia. rewrite B. cbn [assert_ bind].
      destruct (Z.ltb_spec 0 i).
      - rewrite (get_ok 0) by lia. cbn [bind]. pose proof (Hlt (i - 1) i ltac:(lia) ltac:(lia)). destruct (Z.ltb_spec (zn 0 cm (i - 1)) (zn 0 cm i)); [|lia]. cbn [assert_ bind].
        destruct (Z.ltb_spec i (zlen cm - 1)); [|reflexivity]. rewrite (get_ok 0) by lia. cbn [bind]. pose proof (Hlt i (i + 1) ltac:(lia) ltac:(lia)).
        destruct (Z.ltb_spec (zn 0 cm i) (zn 0 cm (i + 1))); [reflexivity|lia].
      - cbn [bind]. destruct (Z.ltb_spec i (zlen cm - 1)); [|reflexivity]. rewrite (get_ok 0) by lia. cbn [bind]. pose proof (Hlt i (i + 1) ltac:(lia) ltac:(lia)).
        destruct (Z.ltb_spec (zn 0 cm i) (zn 0 cm (i + 1))); [reflexivity|lia]. }
  cbn [bind]. destruct (Hre D VD) as (VR & SE & SC & _).
  eexists. split; [reflexivity|]. split; [|cbn; auto 10].
  constructor; cbn [pm_rs pm_cs pm_diag pm_offd pm_map]; auto; try lia.
Qed.

Lemma pm_make_inv rs cs (D O : csr S) cm A : csr_valid D -> csr_valid O -> pm_make reorder rs cs D O cm = Ok A -> layout rs cs D O cm.
Proof.
  intros VD VO H. unfold pm_make, pm_init in H.
  apply bind_Ok in H. destruct H as (r0 & R0 & H). apply bind_Ok in H. destruct H as (r1 & R1 & H).
  apply bind_Ok in H. destruct H as (c0 & C0 & H). apply bind_Ok in H. destruct H as (c1 & C1 & H).
  do 6 (apply bind_Ok in H; destruct H as ([] & ? & H)).
  rewrite R0, R1 in H. cbn [bind] in H. apply bind_Ok in H. destruct H as (r2 & R2 & H). rewrite C0, C1 in H. cbn [bind] in H.
  apply bind_Ok in H. destruct H as (c2 & C2 & H).
  do 4 (apply bind_Ok in H; destruct H as ([] & ? & H)).
  apply bind_Ok in H. destruct H as (O' & EO & H). do 4 (apply bind_Ok in H; destruct H as ([] & ? & H)).
  apply bind_Ok in H. destruct H as ([] & HL & H). rewrite for_unit_iff in HL.
  repeat match goal with X : assert_ _ = Ok tt |- _ => apply assert_Ok in X end.
  apply (get_Ok_inv 0) in R0. apply (get_Ok_inv 0) in R1. apply (get_Ok_inv 0) in R2. apply (get_Ok_inv 0) in C0. apply (get_Ok_inv 0) in C1. apply (get_Ok_inv 0) in C2.
  destruct R0 as (_ & ->), R1 as (_ & ->), R2 as (_ & ->), C0 as (_ & ->), C1 as (_ & ->), C2 as (_ & ->).
  assert (Oo : (c_rows O = zn 0 rs 1 - zn 0 rs 0 \/ c_rows O = 0 /\ c_cols O = 0) /\ c_cols O = zlen cm).
  { destruct ((c_rows O =? 0) && (c_cols O =? 0)) eqn:E.
    - destruct (sp_zero_valid (zn 0 rs 1 - zn 0 rs 0) 0) as (O2 & E2 & _ & A1 & A2 & _); [lia|lia|]. rewrite E2 in EO. injection EO as <-. lia.
    - injection EO as <-. lia. }
  unfold layout. repeat (split; [lia|]). split.
  - intros i Hi. specialize (HL i Hi). cbn beta in HL. rewrite (get_ok 0) in HL by lia. cbn [bind] in HL.
    apply bind_Ok in HL. destruct HL as ([] & B1 & HL). apply bind_Ok in HL. destruct HL as ([] & B2 & HL). apply assert_Ok in B1, B2. lia.
  - intros i Hi. specialize (HL i ltac:(lia)). cbn beta in HL. rewrite (get_ok 0) in HL by lia. cbn [bind] in HL.
    apply bind_Ok in HL. destruct HL as ([] & B1 & HL). apply bind_Ok in HL. destruct HL as ([] & B2 & HL). apply bind_Ok in HL. destruct HL as ([] & B3 & HL).
    destruct (Z.ltb_spec i (zlen cm - 1)); [|lia]. rewrite (get_ok 0) in HL by lia. cbn [bind] in HL. apply assert_Ok in HL. lia.
Qed.

End Make.
