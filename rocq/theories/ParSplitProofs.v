(** Proofs about ParSplit. *)

From Coq Require Import ZArith List Bool Lia Permutation Sorting.Sorted Ring.
From Verif Require Import Base Scalar Spec Dense Sparse SumFacts LoopFacts CsrFacts Rows SparseProofs SparseMore SortProofs HistoryProofs
  Coo CooSpec CooProofs CooMore Vec VecSpec Par ParSpec ParProofs ParAddProofs.
Import ListNotations.
Open Scope Z_scope.

(* ---------------------------------------------------------------- counting *)

Lemma count_filter f n : 0 <= n -> zlen (filter f (zrange 0 n)) = count f n.
Proof.
  intros Hn. unfold count. pattern n. revert n Hn. apply natlike_ind; [now rewrite zsum_empty|].
  intros n Hn IH. unfold Z.succ. rewrite zsum_S by lia. rewrite (zrange_snoc 0 (n + 1)) by lia. replace (n + 1 - 1) with n by lia.
  rewrite filter_app, zlen_app, IH. cbn [filter]. destruct (f n); reflexivity.
Qed.

Lemma count_S f n : 0 <= n -> count f (n + 1) = count f n + (if f n then 1 else 0).
Proof. intros H. unfold count. now rewrite zsum_S. Qed.

Lemma count_mono f n m : 0 <= n <= m -> count f n <= count f m.
Proof. intros H. unfold count. apply zsum_le; [lia|]. intros i _. destruct (f i); lia. Qed.

Lemma count_nonneg f n : 0 <= n -> 0 <= count f n.
Proof. intros H. replace 0 with (count f 0) by apply zsum_empty. apply count_mono. lia. Qed.

Lemma count_ext f g n : (forall k, 0 <= k < n -> f k = g k) -> count f n = count g n.
Proof. intros H. unfold count. apply zsum_ext. intros i Hi. now rewrite H. Qed.

Lemma count_add (f g h : Z -> bool) n : 0 <= n -> (forall k, 0 <= k < n -> (if h k then 1 else 0) = (if f k then 1 else 0) + (if g k then 1 else 0)) ->
  count h n = count f n + count g n.
Proof. intros Hn H. unfold count. rewrite <- zsum_add by lia. apply zsum_ext. exact H. Qed.

Lemma count_all f n : 0 <= n -> (forall k, 0 <= k < n -> f k = true) -> count f n = n.
Proof.
  intros Hn. pattern n. revert n Hn. apply natlike_ind; [intros _; apply zsum_empty|]. intros n Hn IH H. unfold Z.succ. rewrite count_S by lia.
  rewrite IH by (intros; apply H; lia). rewrite H by lia. lia.
Qed.

Lemma count_none f n : 0 <= n -> (forall k, 0 <= k < n -> f k = false) -> count f n = 0.
Proof.
  intros Hn. pattern n. revert n Hn. apply natlike_ind; [intros _; apply zsum_empty|]. intros n Hn IH H. unfold Z.succ. rewrite count_S by lia.
  rewrite IH by (intros; apply H; lia). rewrite H by lia. lia.
Qed.

(** The position of v among the indices selected by f. *)
Lemma filter_position f n v : 0 <= v < n -> f v = true -> zn 0 (filter f (zrange 0 n)) (count f v) = v.
Proof.
  intros Hv Hf. rewrite (zrange_app 0 v n) by lia. rewrite (zrange_cons v n) by lia. rewrite filter_app. cbn [filter]. rewrite Hf.
  rewrite zn_app_r by (rewrite count_filter by lia; lia). rewrite count_filter by lia. rewrite Z.sub_diag. reflexivity.
Qed.

Lemma filter_position_inv f n i : 0 <= n -> 0 <= i < count f n -> let v := zn 0 (filter f (zrange 0 n)) i in 0 <= v < n /\ f v = true /\ count f v = i.
Proof.
  intros Hn Hi v. assert (I : In v (filter f (zrange 0 n))) by (apply zn_In; rewrite count_filter by lia; lia).
  apply filter_In in I. destruct I as (I & Hf). apply In_zrange in I. split; [exact I|]. split; [exact Hf|].
  assert (count f v < count f n).
  { pose proof (count_mono f (v + 1) n ltac:(lia)). rewrite count_S in H by lia. rewrite Hf in H. lia. }
  pose proof (count_nonneg f v ltac:(lia)).
  apply (NoDup_zn 0 (filter f (zrange 0 n))).
  - apply NoDup_filter, NoDup_zrange.
  - rewrite count_filter by lia. lia.
  - rewrite count_filter by lia. lia.
  - rewrite filter_position by auto. reflexivity.
Qed.

(* ---------------------------------------------------------------- the renumbering *)

Section Renumber.
Variable part : list Z.
Let n := zlen part.
Let pt := zn 0 part.

Definition start (r : Z) : Z := count (fun k => pt k <? r) n.
Definition own (r : Z) : Z -> bool := fun k => pt k =? r.
Definition local_of (r : Z) : list Z := filter (own r) (zrange 0 n).

Lemma n_nonneg : 0 <= n. Proof. apply zlen_nonneg. Qed.

Lemma zlen_local r : zlen (local_of r) = count (own r) n.
Proof. apply count_filter, n_nonneg. Qed.

Lemma start_S r : start (r + 1) = start r + zlen (local_of r).
Proof.
  rewrite zlen_local. unfold start. apply count_add; [apply n_nonneg|]. intros k _. unfold own.
  destruct (Z.ltb_spec (pt k) (r + 1)); destruct (Z.ltb_spec (pt k) r); destruct (Z.eqb_spec (pt k) r); lia.
Qed.

Lemma start_mono r q : r <= q -> start r <= start q.
Proof.
  intros H. unfold start, count. apply Z.le_trans with (m := zsum 0 n (fun k => (if pt k <? r then 1 else 0) + (if (r <=? pt k) && (pt k <? q) then 1 else 0))).
  - rewrite zsum_add by apply n_nonneg. pose proof (count_nonneg (fun k => (r <=? pt k) && (pt k <? q)) n n_nonneg). unfold count in *. lia.
  - apply Z.eq_le_incl, zsum_ext. intros k _. destruct (Z.ltb_spec (pt k) r); destruct (Z.leb_spec r (pt k)); destruct (Z.ltb_spec (pt k) q); cbn; lia.
Qed.

Lemma start_first p r : (forall i, 0 <= i < n -> 0 <= pt i) -> 0 <= r <= p -> first_of (map zlen (map local_of (zrange 0 p))) r = start r.
Proof.
  intros Hp (Hr & Hrp). revert Hrp. unfold first_of. pattern r. revert r Hr. apply natlike_ind.
  - intros _. rewrite zsum_empty. unfold start. symmetry. apply count_none; [apply n_nonneg|]. intros k Hk. specialize (Hp k Hk). lia.
  - intros r Hr IH Hrp. unfold Z.succ in *. rewrite zsum_S by lia. rewrite IH by lia. rewrite start_S. f_equal.
    rewrite map_map. now rewrite zn_map_zrange by lia.
Qed.

Lemma renumber_eq v : renumber part v = start (pt v) + count (own (pt v)) v.
Proof. reflexivity. Qed.

Lemma renumber_range v : 0 <= v < n -> start (pt v) <= renumber part v < start (pt v + 1).
Proof.
  intros Hv. rewrite renumber_eq, start_S, zlen_local. pose proof (count_nonneg (own (pt v)) v ltac:(lia)).
  pose proof (count_mono (own (pt v)) (v + 1) n ltac:(lia)) as H0. rewrite count_S in H0 by lia. unfold own at 2 in H0. rewrite Z.eqb_refl in H0. lia.
Qed.

Lemma in_range_iff v r : 0 <= v < n -> (start r <= renumber part v < start (r + 1) <-> pt v = r).
Proof.
  intros Hv. pose proof (renumber_range v Hv) as H. split; [|intros <-; exact H]. intros H'.
  destruct (Z.lt_trichotomy (pt v) r) as [L|[E|L]]; [exfalso|exact E|exfalso].
  - pose proof (start_mono (pt v + 1) r ltac:(lia)). lia.
  - pose proof (start_mono (r + 1) (pt v) ltac:(lia)). lia.
Qed.

Lemma renumber_inj v w : 0 <= v < n -> 0 <= w < n -> renumber part v = renumber part w -> v = w.
Proof.
  intros Hv Hw E. assert (Ep : pt v = pt w).
  { apply in_range_iff; [exact Hv|]. rewrite E. now apply renumber_range. }
  rewrite !renumber_eq, Ep in E.
  pose proof (filter_position (own (pt w)) n v Hv) as P1. pose proof (filter_position (own (pt w)) n w Hw) as P2. unfold own at 1 in P1. unfold own at 1 in P2.
  rewrite Ep, Z.eqb_refl in P1. rewrite Z.eqb_refl in P2. specialize (P1 eq_refl). specialize (P2 eq_refl).
  assert (Ec : count (own (pt w)) v = count (own (pt w)) w) by lia. congruence.
Qed.

Lemma local_position r i : 0 <= i < zlen (local_of r) ->
  let v := zn 0 (local_of r) i in 0 <= v < n /\ pt v = r /\ renumber part v = start r + i.
Proof.
  intros Hi. rewrite zlen_local in Hi. destruct (filter_position_inv (own r) n i n_nonneg Hi) as (H1 & H2 & H3).
  fold (local_of r) in H1, H2, H3. cbn zeta. unfold own at 1 in H2. apply Z.eqb_eq in H2. split; [exact H1|]. split; [exact H2|].
  rewrite renumber_eq, H2. lia.
Qed.

(** The local number of a vertex. *)
Lemma local_number v : 0 <= v < n -> let i := renumber part v - start (pt v) in 0 <= i < zlen (local_of (pt v)) /\ zn 0 (local_of (pt v)) i = v.
Proof.
  intros Hv i. unfold i. rewrite renumber_eq. replace (start (pt v) + count (own (pt v)) v - start (pt v)) with (count (own (pt v)) v) by lia.
  pose proof (renumber_range v Hv) as H. rewrite renumber_eq, start_S in H. split; [lia|]. apply filter_position; [exact Hv|]. unfold own. apply Z.eqb_refl.
Qed.

(** Order is kept inside a rank. *)
Lemma renumber_mono v w : 0 <= v <= w -> w < n -> pt v = pt w -> renumber part v <= renumber part w.
Proof. intros Hv Hw E. rewrite !renumber_eq, E. pose proof (count_mono (own (pt w)) v w ltac:(lia)). lia. Qed.

Lemma renumber_below p v : (forall i, 0 <= i < n -> 0 <= pt i < p) -> 0 <= v < n -> 0 <= renumber part v < n.
Proof.
  intros Hp Hv. pose proof (renumber_range v Hv). pose proof (Hp v Hv).
  assert (start 0 = 0) by (unfold start; apply count_none; [apply n_nonneg|]; intros k Hk; specialize (Hp k Hk); lia).
  assert (start p = n) by (unfold start; apply count_all; [apply n_nonneg|]; intros k Hk; specialize (Hp k Hk); lia).
  pose proof (start_mono 0 (pt v) ltac:(lia)). pose proof (start_mono (pt v + 1) p ltac:(lia)). lia.
Qed.

Lemma renumber_perm p : (forall i, 0 <= i < n -> 0 <= pt i < p) -> is_perm n (map (renumber part) (zrange 0 n)).
Proof.
  intros Hp. pose proof n_nonneg. split; [now apply zlen_map_zrange|]. split.
  - apply (NoDup_nth _ 0). intros a b Ha Hb E. assert (L : zlen (map (renumber part) (zrange 0 n)) = n) by (now apply zlen_map_zrange). unfold zlen in L.
    assert (Z.of_nat a = Z.of_nat b); [|lia]. apply renumber_inj; [fold n; lia|fold n; lia|].
    rewrite <- (zn_map_zrange 0 (renumber part) n (Z.of_nat a)), <- (zn_map_zrange 0 (renumber part) n (Z.of_nat b)) by lia.
    unfold zn. rewrite !Nat2Z.id. exact E.
  - rewrite Forall_forall. intros k Hk. apply in_map_iff in Hk. destruct Hk as (v & <- & Hv). apply In_zrange in Hv. now apply (renumber_below p).
Qed.

End Renumber.

(* ---------------------------------------------------------------- the collectives *)

Lemma zsum_delta n a (c : Z) : 0 <= a < n -> zsum 0 n (fun q => if q =? a then c else 0) = c.
Proof.
  intros H. assert (Hn : 0 <= n) by lia. revert H. pattern n. revert n Hn. apply natlike_ind; [lia|].
  intros n Hn IH H. unfold Z.succ in *. rewrite zsum_S by lia. destruct (Z.eqb_spec n a) as [->|N].
  - rewrite (zsum_ext 0 a _ (fun _ => 0)), zsum_0 by (try lia; intros i Hi; destruct (Z.eqb_spec i a); lia). lia.
  - rewrite IH by lia. lia.
Qed.

Section Collect.
Variables (part : list Z) (p : Z).
Notation n := (zlen part).
Notation pt := (zn 0 part).
Hypothesis Hp : forall i, 0 <= i < n -> 0 <= pt i < p.

Lemma split_part_ok r : split_part part r = Ok (local_of part r).
Proof.
  pose proof (zlen_nonneg part). unfold split_part. apply res_of_returns.
  apply (returns_for (fun k l => l = filter (own part r) (zrange 0 k))).
  - lia.
  - reflexivity.
  - intros i l Hi ->. rewrite (get_ok 0) by lia. cbn [bind returns].
    rewrite (zrange_snoc 0 (i + 1)) by lia. replace (i + 1 - 1) with i by lia. rewrite filter_app. cbn [filter].
    change (own part r i) with (pt i =? r). destruct (pt i =? r); [reflexivity|now rewrite app_nil_r].
  - intros l ->. reflexivity.
Qed.

Lemma split_tmp_ok r starts : zlen starts = 3 -> zn 0 starts 0 = start part r ->
  exists t, split_tmp n (local_of part r) starts = Ok t /\ zlen t = n /\ forall v, 0 <= v < n -> zn 0 t v = if pt v =? r then renumber part v else 0.
Proof.
  intros L3 Hs. pose proof (zlen_nonneg part). pose proof (zlen_nonneg (local_of part r)). unfold split_tmp. rewrite vec_ok by lia. cbn [bind].
  apply returns_exists.
  apply (returns_for (fun k t => zlen t = n /\ forall v, 0 <= v < n -> zn 0 t v = if (pt v =? r) && (renumber part v - start part r <? k) then renumber part v else 0)).
  - lia.
  - split; [rewrite zlen_repeat; lia|]. intros v Hv. rewrite zn_repeat by lia. destruct (Z.eqb_spec (pt v) r) as [E|E]; [|reflexivity].
    pose proof (renumber_range part v Hv). rewrite E in *. destruct (Z.ltb_spec (renumber part v - start part r) 0); [lia|reflexivity].
  - intros i t Hi (Lt & Ht). destruct (local_position part r i Hi) as (V1 & V2 & V3).
    set (w := zn 0 (local_of part r) i) in *. rewrite (get_ok 0) by lia. cbn [bind]. rewrite (get_ok 0) by lia. cbn [bind]. fold w.
    rewrite set_ok by lia. cbn [returns]. split; [now rewrite zlen_upd|]. intros v Hv. rewrite zn_upd by lia.
    destruct (Z.eqb_spec v w) as [->|N].
    + rewrite V2, Z.eqb_refl. destruct (Z.ltb_spec (renumber part w - start part r) (i + 1)); [|lia]. cbn [andb]. lia.
    + rewrite Ht by lia. destruct (Z.eqb_spec (pt v) r) as [E|]; [|reflexivity]. cbn [andb].
      assert (renumber part v <> renumber part w) by (intros E'; apply N, (renumber_inj part); auto).
      destruct (Z.ltb_spec (renumber part v - start part r) i); destruct (Z.ltb_spec (renumber part v - start part r) (i + 1)); try lia; reflexivity.
  - intros t (Lt & Ht). split; [exact Lt|]. intros v Hv. rewrite Ht by lia. destruct (Z.eqb_spec (pt v) r) as [E|]; [|reflexivity]. cbn [andb].
    pose proof (renumber_range part v Hv). rewrite E, start_S in H1. destruct (Z.ltb_spec (renumber part v - start part r) (zlen (local_of part r))); [reflexivity|lia].
Qed.

End Collect.

Lemma ranks_ex {A} (d : A) (P : Z -> A -> Prop) p (f : Z -> res A) : 0 <= p -> (forall r, 0 <= r < p -> exists a, f r = Ok a /\ P r a) ->
  exists l, ranks p f = Ok l /\ zlen l = p /\ forall r, 0 <= r < p -> P r (zn d l r).
Proof.
  intros Hp. unfold ranks. pattern p. revert p Hp. apply natlike_ind.
  - intros _. exists []. split; [reflexivity|]. split; [reflexivity|]. lia.
  - intros p Hp IH H. unfold Z.succ in *. destruct IH as (l & E & L & HP); [intros; apply H; lia|]. destruct (H p ltac:(lia)) as (a & Ea & Pa).
    exists (l ++ [a]). rewrite (zrange_snoc 0 (p + 1)) by lia. replace (p + 1 - 1) with p by lia. rewrite foldM_app, E. cbn [bind foldM]. rewrite Ea. cbn [bind].
    split; [reflexivity|]. split; [rewrite zlen_app, L; reflexivity|]. intros r Hr. destruct (Z.eq_dec r p) as [->|N].
    + rewrite zn_app_r by lia. rewrite L, Z.sub_diag. exact Pa.
    + rewrite zn_app_l by lia. apply HP. lia.
Qed.

Section Split.
Context {S : scalar}.
Notation T := (car S).
Hypothesis E : eqb_laws S.
Hypothesis R : ring_laws S.
Variable srt : sorter.
Hypothesis Hsrt : sorts srt.
Variable reorder : csr S -> csr S.
Hypothesis Hre : reorders reorder.
Variable A : csr S.
Hypothesis VA : csr_valid A.
Hypothesis Hsq : c_rows A = c_cols A.
Variables (part : list Z) (p : Z).
Notation n := (zlen part).
Notation pt := (zn 0 part).
Hypothesis Hn : n = c_rows A.
Hypothesis Hp : forall i, 0 <= i < n -> 0 <= pt i < p.

Let Rth : ring_theory (@s0 S) s1 sadd smul ssub sopp (@eq (car S)) := R.
Add Ring ParSplitRing : Rth.

Variable r : Z.
Hypothesis Hr : 0 <= r < p.
Notation lp := (local_of part r).
Notation nl := (zlen lp).
Notation st0 := (start part r).

(** The entries of the rows of this rank, with local rows and global columns. *)
Definition items : list (entry S) := flat_map (fun lv => map (fun e => (lv, ecol e, evalue e)) (row_entries A (zn 0 lp lv))) (zrange 0 nl).

Lemma lp_range i : 0 <= i < nl -> 0 <= zn 0 lp i < c_rows A.
Proof. intros Hi. destruct (local_position part r i Hi) as (H & _). lia. Qed.

Lemma items_shape : in_shape nl n items.
Proof.
  unfold in_shape. rewrite Forall_forall. intros e He. apply in_flat_map in He. destruct He as (lv & Hlv & He). apply In_zrange in Hlv.
  apply in_map_iff in He. destruct He as (e' & <- & He'). cbn [erow ecol fst snd]. split; [lia|].
  assert (I : In e' (entries A)) by (apply (In_row_entries A (zn 0 lp lv) e' VA); split; [exact He'|now apply lp_range]).
  pose proof (entries_in_shape A VA) as Hs. unfold in_shape in Hs. rewrite Forall_forall in Hs. specialize (Hs e' I). lia.
Qed.

Lemma row_mat i k c : 0 <= k < c_rows A -> mat_of (map (fun e => (i, ecol e, evalue e)) (row_entries A k)) i c = csr_mat A k c.
Proof.
  intros Hk. rewrite <- filter_row_entries by auto. unfold csr_mat. rewrite !(mat_of_if R). rewrite map_map. rewrite (sum_filter R).
  apply sum_map_ext. intros e _. unfold at_pos. cbn [erow ecol evalue fst snd]. rewrite Z.eqb_refl. destruct (erow e =? k); reflexivity.
Qed.

Lemma items_mat i c : 0 <= i < nl -> mat_of items i c = csr_mat A (zn 0 lp i) c.
Proof.
  intros Hi. unfold items. rewrite (mat_of_flat_map R).
  change (sum_list (map (fun x => mat_of (map (fun e => (x, ecol e, evalue e)) (row_entries A (zn 0 lp x))) i c) (zrange 0 nl)))
    with (sum_range 0 nl (fun x => mat_of (map (fun e => (x, ecol e, evalue e)) (row_entries A (zn 0 lp x))) i c)).
  rewrite (sum_range_ext 0 nl _ (fun x => if x =? i then csr_mat A (zn 0 lp x) c else s0)); [now rewrite (sum_range_delta R)|].
  intros x Hx. destruct (Z.eqb_spec x i) as [->|N].
  - apply row_mat. now apply lp_range.
  - apply (mat_of_zero R). intros e He <-. apply in_map_iff in He. destruct He as (e' & <- & _). cbn in N. contradiction.
Qed.

(** What one entry adds to the diagonal and the off-diagonal part. *)
Definition diag_items (e : entry S) : list (entry S) :=
  if pt (ecol e) =? r then
    let lc := renumber part (ecol e) - st0 in
    if erow e <=? lc then (erow e, lc, evalue e) :: (if negb (erow e =? lc) then [(lc, erow e, evalue e)] else []) else []
  else [].
Definition offd_items (e : entry S) : list (entry S) :=
  if pt (ecol e) =? r then [] else [(erow e, renumber part (ecol e), evalue e)].

Definition split_step (lv : Z) (perm local_index : list Z) (a b : Z) (st : coo S * coo S * list Z * list Z) (col : Z) (v : T) : res (coo S * coo S * list Z * list Z) :=
  let '(diag, offd, col_map, cmi) := st in
  q <- get perm col ;;
  if (a <=? q) && (q <? b) then
    lc <- get local_index q ;;
    assert_ ((0 <=? lc) && (lc <? nl)) ;;;
    if lv <=? lc then diag <- coo_add_sym diag lv lc v ;; Ok (diag, offd, col_map, cmi)
    else Ok (diag, offd, col_map, cmi)
  else
    lc <- get cmi q ;;
    if 0 <=? lc then offd <- coo_add offd lv lc v ;; Ok (diag, offd, col_map, cmi)
    else
      cmi <- set cmi q (zlen col_map) ;;
      offd <- coo_add offd lv (zlen col_map) v ;;
      Ok (diag, offd, col_map ++ [q], cmi).

Variables (perm local_index : list Z).
Hypothesis Lperm : zlen perm = n.
Hypothesis Hperm : forall v, 0 <= v < n -> zn 0 perm v = renumber part v.
Hypothesis Lli : zlen local_index = n.
Hypothesis Hli : forall i, 0 <= i < nl -> zn 0 local_index (st0 + i) = i.

Definition split_inv (D : list (entry S)) (P : list (T * entry S)) (st : coo S * coo S * list Z * list Z) : Prop :=
  let '(diag, offd, col_map, cmi) := st in
  diag = Coo 0 0 false D /\ offd_inv n nl P (offd, cmi, col_map).

Lemma split_step_ok D P st e : split_inv D P st -> 0 <= erow e < nl -> 0 <= ecol e < n ->
  exists st', split_step (erow e) perm local_index st0 (start part (r + 1)) st (ecol e) (evalue e) = Ok st' /\
    split_inv (D ++ diag_items e) (P ++ with_coef s1 (offd_items e)) st'.
Proof.
  destruct st as [[[diag offd] cm] cmi]. intros (-> & I) Hre' Hce. unfold split_step. rewrite (get_ok 0) by lia. cbn [bind]. rewrite Hperm by exact Hce.
  pose proof (in_range_iff part (ecol e) r Hce) as Hrange. pose proof (renumber_below part p (ecol e) Hp Hce) as Hb.
  unfold diag_items, offd_items. destruct (Z.eqb_spec (pt (ecol e)) r) as [Q|Q].
  - destruct (proj2 Hrange Q) as (B1 & B2). destruct (Z.leb_spec st0 (renumber part (ecol e))); [|lia]. destruct (Z.ltb_spec (renumber part (ecol e)) (start part (r + 1))); [|lia]. cbn [andb].
    destruct (local_number part (ecol e) Hce) as (B3 & B4). rewrite Q in B3, B4. set (lc := renumber part (ecol e) - st0) in *.
    rewrite (get_ok 0) by lia. cbn [bind]. replace (renumber part (ecol e)) with (st0 + lc) by (unfold lc; lia). rewrite Hli by lia.
    destruct (Z.leb_spec 0 lc); [|lia]. destruct (Z.ltb_spec lc nl); [|lia]. cbn [andb assert_ bind]. cbn [with_coef map]. rewrite app_nil_r.
    destruct (Z.leb_spec (erow e) lc) as [L|L].
    + unfold coo_add_sym, coo_add. rewrite (seqb_refl E). destruct (Z.leb_spec 0 (erow e)); [|lia]. destruct (Z.leb_spec 0 lc); [|lia]. cbn [assert_ bind o_set o_rows o_cols o_entries].
      destruct (Z.eqb_spec (erow e) lc); cbn [negb].
      * eexists. split; [reflexivity|]. split; [reflexivity|exact I].
      * cbn [bind]. eexists. split; [reflexivity|]. split; [now rewrite <- app_assoc|exact I].
    + rewrite app_nil_r. eexists. split; [reflexivity|]. split; [reflexivity|exact I].
  - assert (G : (st0 <=? renumber part (ecol e)) && (renumber part (ecol e) <? start part (r + 1)) = false).
    { apply not_true_is_false. intros G. apply andb_true_iff in G. apply Q, Hrange. lia. }
    rewrite G. rewrite app_nil_r. cbn [with_coef map].
    destruct (offd_step_ok E n nl P (offd, cmi, cm) s1 (erow e, renumber part (ecol e), evalue e) I Hre' Hb) as (st' & Es & I').
    unfold offd_step in Es. cbn [erow ecol evalue fst snd] in Es.
    replace (smul s1 (evalue e)) with (evalue e) in Es by ring. change (snd e) with (evalue e) in Es. change (fst (fst e)) with (erow e) in Es.
    destruct (get cmi (renumber part (ecol e))) as [m|]; cbn [bind] in *; [|discriminate].
    destruct (0 <=? m).
    + destruct (coo_add offd (erow e) m (evalue e)) as [o|]; cbn [bind] in *; [|discriminate]. injection Es as <-. eexists. split; [reflexivity|]. split; [reflexivity|exact I'].
    + destruct (coo_add offd (erow e) (zlen cm) (evalue e)) as [o|]; cbn [bind] in *; [|discriminate].
      destruct (set cmi (renumber part (ecol e)) (zlen cm)) as [m'|]; cbn [bind] in *; [|discriminate]. injection Es as <-. eexists. split; [reflexivity|]. split; [reflexivity|exact I'].
Qed.

Lemma split_steps_ok L : forall D P st, split_inv D P st -> in_shape nl n L ->
  exists st', foldM (fun st e => split_step (erow e) perm local_index st0 (start part (r + 1)) st (ecol e) (evalue e)) L st = Ok st' /\
    split_inv (D ++ flat_map diag_items L) (P ++ with_coef s1 (flat_map offd_items L)) st'.
Proof.
  induction L as [|e L IH]; intros D P st I H.
  - exists st. split; [reflexivity|]. cbn. now rewrite !app_nil_r.
  - inversion_clear H as [|? ? He HL]. destruct (split_step_ok D P st e I) as (st1 & E1 & I1); [tauto|tauto|].
    cbn [foldM]. rewrite E1. cbn [bind]. destruct (IH _ _ _ I1 HL) as (st2 & E2 & I2). exists st2. split; [exact E2|]. cbn [flat_map]. unfold with_coef in *. rewrite map_app. now rewrite <- !app_assoc in I2.
Qed.

(** A coefficient of one changes nothing. *)
Lemma scaled_but_first_one (l : list (entry S)) : scaled_but_first (with_coef s1 l) = l.
Proof.
  induction l as [|e l IH] using rev_ind; [reflexivity|]. unfold with_coef in *. rewrite map_app. cbn [map]. rewrite scaled_but_first_snoc, IH.
  f_equal. destruct e as [[a b] v]. cbn [erow ecol evalue fst snd]. destruct (existsb _ _); [|reflexivity]. replace (smul s1 v) with v by ring. reflexivity.
Qed.

Lemma diag_items_mat a b : 0 <= a < nl -> 0 <= b < nl ->
  mat_of (flat_map diag_items items) a b = csr_mat A (zn 0 lp (Z.min a b)) (zn 0 lp (Z.max a b)).
Proof.
  intros Ha Hb. rewrite <- items_mat by lia. rewrite (mat_of_flat_map R), (mat_of_if R). apply sum_map_ext. intros e He.
  pose proof items_shape as Hs. unfold in_shape in Hs. rewrite Forall_forall in Hs. specialize (Hs e He).
  destruct (local_position part r (Z.max a b) ltac:(lia)) as (C1 & C2 & C3). cbn zeta in C3. unfold diag_items, at_pos.
  destruct (Z.eqb_spec (pt (ecol e)) r) as [Q|Q].
  - set (lc := renumber part (ecol e) - st0).
    assert (G : (ecol e =? zn 0 lp (Z.max a b)) = (lc =? Z.max a b)).
    { destruct (Z.eqb_spec (ecol e) (zn 0 lp (Z.max a b))) as [Q'|N]; [unfold lc; rewrite Q', C3; destruct (Z.eqb_spec (st0 + Z.max a b - st0) (Z.max a b)); lia|].
      destruct (Z.eqb_spec lc (Z.max a b)) as [Q'|]; [|reflexivity]. exfalso. apply N, (renumber_inj part); [lia|exact C1|]. rewrite C3. unfold lc in Q'. lia. }
    rewrite G. destruct (Z.leb_spec (erow e) lc) as [L|L].
    + clearbody lc. clear G He C1 C2 C3 Q. destruct e as [[x y] v]. cbn [erow ecol evalue fst snd] in *. rewrite (mat_of_cons R). unfold at_pos at 1. cbn [erow ecol evalue fst snd].
      destruct (Z.eqb_spec x lc) as [Q'|Q']; cbn [negb].
      * change (mat_of [] a b) with (@s0 S).
        destruct (Z.eqb_spec x a); destruct (Z.eqb_spec lc b); destruct (Z.eqb_spec x (Z.min a b)); destruct (Z.eqb_spec lc (Z.max a b)); cbn [andb]; try (exfalso; lia); ring.
      * rewrite (mat_of_cons R). change (mat_of [] a b) with (@s0 S). unfold at_pos. cbn [erow ecol evalue fst snd] in *.
        destruct (Z.eqb_spec x a); destruct (Z.eqb_spec lc b); destruct (Z.eqb_spec x b); destruct (Z.eqb_spec lc a); destruct (Z.eqb_spec x (Z.min a b)); destruct (Z.eqb_spec lc (Z.max a b)); cbn [andb]; try (exfalso; lia); ring.
    + change (mat_of [] a b) with (@s0 S). destruct (Z.eqb_spec (erow e) (Z.min a b)); destruct (Z.eqb_spec lc (Z.max a b)); cbn [andb]; try reflexivity. exfalso. lia.
  - change (mat_of [] a b) with (@s0 S). destruct (Z.eqb_spec (ecol e) (zn 0 lp (Z.max a b))) as [Q'|]; [rewrite Q' in Q; contradiction|]. now rewrite andb_false_r.
Qed.

Lemma diag_items_shape : in_shape nl nl (flat_map diag_items items).
Proof.
  unfold in_shape. rewrite Forall_forall. intros x Hx. apply in_flat_map in Hx. destruct Hx as (e & He & Hx).
  pose proof items_shape as Hs. unfold in_shape in Hs. rewrite Forall_forall in Hs. specialize (Hs e He). unfold diag_items in Hx.
  destruct (Z.eqb_spec (pt (ecol e)) r) as [Q|Q]; [|destruct Hx].
  destruct (local_number part (ecol e) ltac:(lia)) as (B3 & _). rewrite Q in B3. cbn zeta in *.
  destruct (erow e <=? renumber part (ecol e) - st0); [|destruct Hx]. destruct Hx as [<-|Hx]; [cbn [erow ecol fst snd]; split; [apply Hs|exact B3]|].
  destruct (negb _); [|destruct Hx]. destruct Hx as [<-|[]]. cbn [erow ecol fst snd]. split; [exact B3|apply Hs].
Qed.

Lemma offd_items_mat a j : 0 <= j < n ->
  mat_of (flat_map offd_items items) a (renumber part j) = if pt j =? r then s0 else mat_of items a j.
Proof.
  intros Hj. rewrite (mat_of_flat_map R). destruct (Z.eqb_spec (pt j) r) as [Q|Q].
  - apply (sum_map_0 R). intros e He. unfold offd_items. destruct (Z.eqb_spec (pt (ecol e)) r) as [Qe|Qe]; [reflexivity|].
    apply (mat_of_zero R). intros x [<-|[]] _ Hc. cbn [ecol fst snd] in Hc. exfalso. apply Qe. rewrite <- Q. f_equal.
    pose proof items_shape as Hs. unfold in_shape in Hs. rewrite Forall_forall in Hs. specialize (Hs e He). apply (renumber_inj part); [lia|lia|exact Hc].
  - rewrite (mat_of_if R). apply sum_map_ext. intros e He. pose proof items_shape as Hs. unfold in_shape in Hs. rewrite Forall_forall in Hs. specialize (Hs e He).
    unfold offd_items, at_pos. destruct (Z.eqb_spec (pt (ecol e)) r) as [Qe|Qe].
    + change (mat_of [] a (renumber part j)) with (@s0 S). destruct (Z.eqb_spec (ecol e) j) as [Q'|]; [rewrite Q' in Qe; contradiction|]. now rewrite andb_false_r.
    + rewrite (mat_of_cons R). change (mat_of [] a (renumber part j)) with (@s0 S). unfold at_pos. cbn [erow ecol evalue fst snd]. destruct e as [[x y] v]. cbn [erow ecol evalue fst snd] in *.
      assert (G : (renumber part y =? renumber part j) = (y =? j)).
      { destruct (Z.eqb_spec y j) as [->|N]; [apply Z.eqb_refl|]. destruct (Z.eqb_spec (renumber part y) (renumber part j)) as [Q'|]; [|reflexivity].
        exfalso. apply N, (renumber_inj part); [lia|lia|exact Q']. }
      rewrite G. destruct ((x =? a) && (y =? j)); ring.
Qed.

End Split.

Section SplitAll.
Context {S : scalar}.
Notation T := (car S).
Hypothesis E : eqb_laws S.
Hypothesis R : ring_laws S.
Variable srt : sorter.
Hypothesis Hsrt : sorts srt.
Variable reorder : csr S -> csr S.
Hypothesis Hre : reorders reorder.
Variable A : csr S.
Hypothesis VA : csr_valid A.
Hypothesis Hsq : c_rows A = c_cols A.
Variables (part : list Z) (p : Z).
Notation n := (zlen part).
Notation pt := (zn 0 part).
Hypothesis Hn : n = c_rows A.
Hypothesis Hp : forall i, 0 <= i < n -> 0 <= pt i < p.

Let Rth : ring_theory (@s0 S) s1 sadd smul ssub sopp (@eq (car S)) := R.
Add Ring ParSplitAllRing : Rth.

(** What the rank that owns row i holds at (i, j): the diagonal block is built from the entries on
    and above its diagonal. *)
Definition split_value (i j : Z) : T := if pt i =? pt j then csr_mat A (Z.min i j) (Z.max i j) else csr_mat A i j.

Lemma local_min r a b i j : 0 <= i < n -> 0 <= j < n -> pt i = r -> pt j = r -> a = renumber part i - start part r -> b = renumber part j - start part r ->
  zn 0 (local_of part r) (Z.min a b) = Z.min i j /\ zn 0 (local_of part r) (Z.max a b) = Z.max i j.
Proof.
  intros Hi Hj Pi Pj -> ->. pose proof (local_number part i Hi) as (_ & Ni). pose proof (local_number part j Hj) as (_ & Nj). rewrite Pi in Ni. rewrite Pj in Nj. cbn zeta in *.
  destruct (Z.le_ge_cases i j) as [L|L].
  - pose proof (renumber_mono part i j ltac:(lia) ltac:(lia) ltac:(congruence)). rewrite (Z.min_l (_ - _)), (Z.max_r (_ - _)), (Z.min_l i j), (Z.max_r i j) by lia. auto.
  - pose proof (renumber_mono part j i ltac:(lia) ltac:(lia) ltac:(congruence)). rewrite (Z.min_r (_ - _)), (Z.max_l (_ - _)), (Z.min_r i j), (Z.max_l i j) by lia. auto.
Qed.

Lemma start_bounds r : 0 <= r < p -> 0 <= start part r /\ start part r <= start part (r + 1) /\ start part (r + 1) <= n /\ start part p = n /\ start part 0 = 0.
Proof.
  intros Hr. pose proof (n_nonneg part). 
  assert (start part 0 = 0) by (unfold start; apply count_none; [lia|]; intros k Hk; specialize (Hp k Hk); lia).
  assert (start part p = n) by (unfold start; apply count_all; [lia|]; intros k Hk; specialize (Hp k Hk); lia).
  pose proof (start_mono part 0 r ltac:(lia)). pose proof (start_mono part r (r + 1) ltac:(lia)). pose proof (start_mono part (r + 1) p ltac:(lia)). lia.
Qed.

Lemma split_local_ok r perm : 0 <= r < p -> zlen perm = n -> (forall v, 0 <= v < n -> zn 0 perm v = renumber part v) ->
  exists C, split_local srt reorder A (local_of part r) [start part r; start part (r + 1); n] perm = Ok C /\ pm_valid C /\
    pm_rs C = [start part r; start part (r + 1); n] /\ pm_cs C = [start part r; start part (r + 1); n] /\
    forall i j, 0 <= i < n -> 0 <= j < n -> pm_mat C (renumber part i) (renumber part j) = if pt i =? r then split_value i j else s0.
Proof.
  intros Hr Lperm Hperm. pose proof (n_nonneg part) as Hn0. set (lp := local_of part r). pose proof (zlen_nonneg lp) as Hl0.
  destruct (start_bounds r Hr) as (S1 & S2 & S3 & _). pose proof (start_S part r) as SS. fold lp in SS.
  unfold split_local. cbv zeta. rewrite <- Hn. rewrite !vec_ok by lia. cbn [bind].
  assert (G : exists li, for_ 0 (zlen lp) (repeat (-1) (Z.to_nat n)) (fun i l => v <- get lp i ;; q <- get perm v ;; set l q i) = Ok li /\
    (zlen li = n /\ forall i, 0 <= i < zlen lp -> zn 0 li (start part r + i) = i)).
  { apply returns_exists. apply (returns_for (fun k l => zlen l = n /\ forall i, 0 <= i < k -> zn 0 l (start part r + i) = i)).
    - lia.
    - split; [rewrite zlen_repeat; lia|]. intros; lia.
    - intros i l Hi (Ll & Hl). destruct (local_position part r i Hi) as (V1 & V2 & V3). cbn zeta in *. fold lp in V1, V2, V3. rewrite (get_ok 0) by lia. cbn [bind]. rewrite (get_ok 0) by lia. cbn [bind].
      rewrite Hperm, V3 by lia. rewrite set_ok by lia. cbn [returns]. split; [now rewrite zlen_upd|]. intros k Hk. rewrite zn_upd by lia.
      destruct (Z.eqb_spec (start part r + k) (start part r + i)); [lia|]. apply Hl. lia.
    - auto. }
  destruct G as (li & Eli & Lli & Hli). rewrite Eli. cbn [bind].
  change (get [start part r; start part (r + 1); n] 0) with (Ok (start part r)). change (get [start part r; start part (r + 1); n] 1) with (Ok (start part (r + 1))). cbn [bind].
  match goal with |- context [for_ 0 (zlen lp) ?s ?b] => set (loop := for_ 0 (zlen lp) s b) end.
  assert (EL : loop = foldM (fun st e => split_step part r (erow e) perm li (start part r) (start part (r + 1)) st (ecol e) (evalue e)) (items A part r) (coo_new, coo_new, [], repeat (-1) (Z.to_nat n))).
  { unfold loop, items. rewrite foldM_flat_map. fold lp. unfold for_ at 1. apply foldM_ext. intros st lv Hlv. apply In_zrange in Hlv.
    rewrite (get_ok 0) by lia. cbn [bind]. pose proof (lp_range A part Hn r lv Hlv) as Hv. fold lp in Hv. rewrite !get_ptr by (auto; lia). cbn [bind].
    rewrite foldM_map. apply row_loop; [exact VA|exact Hv|]. intros k s Hk. apply position_bounds in Hk; [|exact VA].
    destruct s as [[[d o] cm] cmi]. rewrite get_idx by (auto; tauto). cbn [bind]. rewrite get_val by tauto. cbn [bind]. unfold split_step, entry_at. cbn [erow ecol evalue fst snd]. reflexivity. }
  rewrite EL. clear loop EL.
  destruct (split_steps_ok E R part p Hp r Hr perm li Lperm Hperm Lli Hli (items A part r) [] [] (coo_new, coo_new, [], repeat (-1) (Z.to_nat n))) as ([[[dg offd] cm] cmi] & Ef & Ed & I).
  { split; [reflexivity|]. apply offd_inv_start; [rewrite zlen_repeat; lia|]. intros g Hg. now rewrite zn_repeat by lia. }
  { now apply items_shape. }
  rewrite Ef. cbn [bind app] in *. subst dg. destruct I as [J1 J2 J3 J4 J5 J6 J7]. cbn [fst snd] in *. rewrite (scaled_but_first_one R) in J6, J7. fold lp in J5.
  pose proof (zlen_nonneg cm). unfold coo_set_size. fold lp. destruct (Z.leb_spec 0 (zlen lp)); [|lia]. destruct (Z.leb_spec 0 (zlen cm)); [|lia]. cbn [assert_ bind o_entries].
  pose proof J4 as (K1 & K2 & K3 & K4).
  assert (Z0 : zn 0 [start part r; start part (r + 1); n] 0 = start part r) by reflexivity.
  assert (Z1 : zn 0 [start part r; start part (r + 1); n] 1 = start part (r + 1)) by reflexivity.
  assert (Z2 : zn 0 [start part r; start part (r + 1); n] 2 = n) by reflexivity.
  assert (Z3 : zlen [start part r; start part (r + 1); n] = 3) by reflexivity.
  set (ss := [start part r; start part (r + 1); n]) in *. clearbody ss.
  destruct (assemble srt Hsrt reorder Hre R ss ss
    (Coo (zlen lp) (zlen lp) true (flat_map (diag_items part r) (items A part r))) (Coo (zlen lp) (zlen cm) true (o_entries offd)) cm) as
    (cm' & offd' & D & O & C & F1 & F2 & F3 & F4 & F5 & F6 & F7 & F8 & F9 & F10).
  { exact Z3. } { exact Z3. } { lia. } { lia. } { reflexivity. } { cbn [o_rows]. lia. } { cbn [o_cols]. lia. }
  { refine (conj Hl0 (conj Hl0 _)). cbn [o_set o_rows o_cols o_entries]. now apply diag_items_shape. }
  { reflexivity. } { cbn [o_rows]. lia. } { reflexivity. }
  { refine (conj Hl0 (conj _ _)); [cbn; lia|]. exact J5. }
  { exact K2. }
  { rewrite Z0, Z1, Z2. intros g Hg. split; [now apply K3|]. apply J7 in Hg. destruct Hg as (e & He & <-). apply in_flat_map in He. destruct He as (e' & He' & He).
    pose proof (items_shape A VA Hsq part Hn r) as Hs. unfold in_shape in Hs. rewrite Forall_forall in Hs. specialize (Hs e' He').
    unfold offd_items in He. destruct (Z.eqb_spec (pt (ecol e')) r) as [|Q]; [destruct He|]. destruct He as [<-|[]]. cbn [ecol fst snd].
    change (snd (fst e')) with (ecol e'). rewrite (in_range_iff part (ecol e') r) by lia. exact Q. }
  { rewrite Z0 in F10.
    rewrite F1. cbn [bind]. rewrite F2. cbn [bind]. rewrite F3. cbn [bind]. exists C. split; [exact F4|]. split; [exact F5|]. split; [exact F6|]. split; [exact F7|].
    intros i j Hi Hj. rewrite F10. cbn [o_entries]. rewrite mat_of_shift, mat_of_shift_rows. rewrite J6. rewrite (offd_items_mat R A VA Hsq part Hn r) by exact Hj.
    pose proof (diag_items_shape A VA Hsq part Hn r) as DS. pose proof (items_shape A VA Hsq part Hn r) as IS. fold lp in DS, IS.
    pose proof (in_range_iff part i r Hi) as Ri. pose proof (in_range_iff part j r Hj) as Rj.
    destruct (Z.eqb_spec (pt i) r) as [Qi|Qi].
    + destruct (local_number part i Hi) as (Ni & Mi). rewrite Qi in Ni, Mi. fold lp in Ni, Mi. cbn zeta in *. unfold split_value. rewrite Qi.
      destruct (Z.eqb_spec (pt j) r) as [Qj|Qj].
      * rewrite Qj, Z.eqb_refl. destruct (local_number part j Hj) as (Nj & Mj). rewrite Qj in Nj, Mj. fold lp in Nj, Mj. cbn zeta in *.
        rewrite (diag_items_mat R A VA Hsq part Hn r) by (fold lp; lia). destruct (local_min r _ _ i j Hi Hj Qi Qj eq_refl eq_refl) as (-> & ->). ring.
      * destruct (Z.eqb_spec r (pt j)); [congruence|]. rewrite (mat_of_out R _ _ _ _ _ DS) by (intros (_ & H'); apply Qj, Rj; lia).
        rewrite (items_mat R A VA part Hn r) by (fold lp; lia). fold lp. rewrite Mi. ring.
    + rewrite (mat_of_out R _ _ _ _ _ DS) by (intros (H' & _); apply Qi, Ri; lia).
      destruct (pt j =? r); [ring|]. rewrite (mat_of_out R _ _ _ _ _ IS) by (intros (H' & _); apply Qi, Ri; lia). ring. }
Qed.

End SplitAll.

Section SplitWorld.
Context {S : scalar}.
Notation T := (car S).

Definition pm_none : parmat S := ParMat [] [] (CSR 0 0 [0] [] []) (CSR 0 0 [0] [] []) [].

Lemma world_mat_sum (R : ring_laws S) (As : list (parmat S)) i j : world_mat As i j = sum_range 0 (zlen As) (fun r => pm_mat (zn pm_none As r) i j).
Proof.
  unfold world_mat. rewrite (mat_of_flat_map R). unfold sum_range. rewrite <- (map_zn_zrange pm_none As) at 1. now rewrite map_map.
Qed.

Lemma par_split_ok (E : eqb_laws S) (R : ring_laws S) srt reorder (A : csr S) part p : sorts srt -> reorders reorder -> csr_valid A -> c_rows A = c_cols A ->
  0 < p -> zlen part = c_rows A -> (forall i, 0 <= i < zlen part -> 0 <= zn 0 part i < p) ->
  exists Cs, par_split srt reorder p A part = Ok Cs /\ zlen Cs = p /\
    (forall r, 0 <= r < p -> pm_valid (zn pm_none Cs r) /\
       pm_rs (zn pm_none Cs r) = [start part r; start part (r + 1); zlen part] /\ pm_cs (zn pm_none Cs r) = [start part r; start part (r + 1); zlen part]) /\
    forall i j, 0 <= i < zlen part -> 0 <= j < zlen part -> world_mat Cs (renumber part i) (renumber part j) = split_value A part i j.
Proof.
  intros Hsrt Hre VA Hsq Hp0 Hn Hp. pose proof (zlen_nonneg part) as Hn0. unfold par_split. rewrite Hsq, Z.eqb_refl. rewrite <- Hsq, <- Hn. cbn [assert_ bind].
  rewrite (ranks_ok p (split_part part) (local_of part)) by (intros; apply split_part_ok). cbn [bind].
  set (sizes := map zlen (map (local_of part) (zrange 0 p))).
  assert (Ls : zlen sizes = p) by (unfold sizes; rewrite zlen_map, zlen_map_zrange; lia).
  rewrite generate_offsets1_ok by lia. cbn [bind]. rewrite Ls.
  assert (Ef : forall r, 0 <= r <= p -> first_of sizes r = start part r) by (intros r Hr; apply start_first; [intros; now apply Hp|exact Hr]).
  assert (E0 : map (fun r => [first_of sizes r; first_of sizes (r + 1); first_of sizes p]) (zrange 0 p) = map (fun r => [start part r; start part (r + 1); zlen part]) (zrange 0 p)).
  { apply map_ext_in. intros r Hr. apply In_zrange in Hr. rewrite !Ef by lia. destruct (start_bounds part p Hp r Hr) as (_ & _ & _ & -> & _). reflexivity. }
  rewrite E0. clear E0.
  assert (Gl : forall r, 0 <= r < p -> get (map (local_of part) (zrange 0 p)) r = Ok (local_of part r)) by (intros r Hr; rewrite (get_ok []) by (rewrite zlen_map_zrange; lia); now rewrite zn_map_zrange).
  assert (Gs : forall r, 0 <= r < p -> get (map (fun r => [start part r; start part (r + 1); zlen part]) (zrange 0 p)) r = Ok [start part r; start part (r + 1); zlen part]) by (intros r Hr; rewrite (get_ok []) by (rewrite zlen_map_zrange; lia); now rewrite zn_map_zrange).
  destruct (ranks_ex [] (fun r t => zlen t = zlen part /\ forall v, 0 <= v < zlen part -> zn 0 t v = if zn 0 part v =? r then renumber part v else 0) p
     (fun r => l <- get (map (local_of part) (zrange 0 p)) r ;; s <- get (map (fun r => [start part r; start part (r + 1); zlen part]) (zrange 0 p)) r ;; split_tmp (zlen part) l s)) as (tmp & Et & Lt & Ht).
  { lia. }
  { intros r Hr. rewrite Gl by exact Hr. cbn [bind]. rewrite Gs by exact Hr. cbn [bind]. apply split_tmp_ok; reflexivity. }
  rewrite Et. cbn [bind]. unfold mpi_scan. rewrite (proj1 (Ht 0 ltac:(lia))). rewrite (proj2 (forallb_forall _ _)).
  2:{ intros b Hb. destruct (In_zn [] _ _ Hb) as (r & Hr & <-). apply Z.eqb_eq, Ht. lia. }
  cbn [bind]. rewrite Lt. unfold mpi_bcast. rewrite (get_ok []) by (rewrite zlen_map_zrange; lia). cbn [bind]. rewrite zn_map_zrange by lia.
  set (perm := map (fun i => zsum 0 (p - 1 + 1) (fun q => zn 0 (zn [] tmp q) i)) (zrange 0 (zlen part))).
  assert (Lp : zlen perm = zlen part) by (now apply zlen_map_zrange).
  assert (Hperm : forall v, 0 <= v < zlen part -> zn 0 perm v = renumber part v).
  { intros v Hv. unfold perm. rewrite zn_map_zrange by exact Hv. replace (p - 1 + 1) with p by lia.
    rewrite (zsum_ext 0 p _ (fun q => if q =? zn 0 part v then renumber part v else 0)); [apply zsum_delta, Hp, Hv|].
    intros q Hq. destruct (Ht q Hq) as (_ & H). rewrite H by exact Hv. now rewrite Z.eqb_sym. }
  match goal with |- context [ranks p ?f] => destruct (ranks_ex pm_none (fun r C => pm_valid C /\
    pm_rs C = [start part r; start part (r + 1); zlen part] /\ pm_cs C = [start part r; start part (r + 1); zlen part] /\
    forall i j, 0 <= i < zlen part -> 0 <= j < zlen part -> pm_mat C (renumber part i) (renumber part j) = if zn 0 part i =? r then split_value A part i j else s0) p f) as (Cs & EC & LC & HC) end.
  { lia. }
  { intros r Hr. rewrite Gl by exact Hr. cbn [bind]. rewrite Gs by exact Hr. cbn [bind]. rewrite map_map. rewrite (get_ok []) by (rewrite zlen_map_zrange; lia). rewrite zn_map_zrange by lia. cbn [bind].
    apply (split_local_ok E R srt Hsrt reorder Hre A VA Hsq part p Hn Hp r perm Hr Lp Hperm). }
  exists Cs. split; [exact EC|]. split; [exact LC|]. split.
  - intros r Hr. destruct (HC r Hr) as (V & V1 & V2 & _). auto.
  - intros i j Hi Hj. rewrite (world_mat_sum R), LC. rewrite (sum_range_ext 0 p _ (fun r => if r =? zn 0 part i then split_value A part i j else s0)).
    + apply (sum_range_delta R 0 p (zn 0 part i) (fun _ => split_value A part i j)), Hp, Hi.
    + intros r Hr. destruct (HC r Hr) as (_ & _ & _ & H). rewrite H by auto. now rewrite Z.eqb_sym.
Qed.

End SplitWorld.
