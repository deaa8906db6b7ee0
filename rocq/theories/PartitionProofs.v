(** Proofs about Partition.v *)

From Coq Require Import ZArith List Bool Lia.
From Verif Require Import Base Scalar Spec Sparse LoopFacts CsrFacts Rows SparseMore HistoryProofs Partition PartitionSpec.
Import ListNotations.
Open Scope Z_scope.

(* ---------------------------------------------------------------- labels below a bound *)

Definition has (part : list Z) (l : Z) : bool := existsb (Z.eqb l) part.

Lemma has_In part l : has part l = true <-> In l part.
Proof.
  unfold has. rewrite existsb_exists. split.
  - intros (x & Hx & E). apply Z.eqb_eq in E. now subst.
  - intros H. exists l. split; [exact H|apply Z.eqb_refl].
Qed.

(** number of labels in use below l *)
Definition below (part : list Z) (l : Z) : Z := zlen (filter (has part) (zrange 0 l)).
(** number of unused labels below l *)
Definition unused (part : list Z) (l : Z) : Z := zlen (filter (fun x => negb (has part x)) (zrange 0 l)).

Lemma below_0 part : below part 0 = 0. Proof. reflexivity. Qed.
Lemma unused_0 part : unused part 0 = 0. Proof. reflexivity. Qed.

Lemma below_succ part l : 0 <= l -> below part (l + 1) = below part l + (if has part l then 1 else 0).
Proof.
  intros H. unfold below. rewrite (zrange_snoc 0 (l + 1)) by lia. replace (l + 1 - 1) with l by lia.
  rewrite filter_app, zlen_app. cbn [filter]. destruct (has part l); reflexivity.
Qed.

Lemma unused_succ part l : 0 <= l -> unused part (l + 1) = unused part l + (if has part l then 0 else 1).
Proof.
  intros H. unfold unused. rewrite (zrange_snoc 0 (l + 1)) by lia. replace (l + 1 - 1) with l by lia.
  rewrite filter_app, zlen_app. cbn [filter]. destruct (has part l); reflexivity.
Qed.

Lemma below_unused part l : 0 <= l -> below part l + unused part l = l.
Proof.
  revert l. apply natlike_ind; [reflexivity|]. intros l Hl IH. unfold Z.succ.
  rewrite below_succ, unused_succ by lia. destruct (has part l); lia.
Qed.

Lemma below_mono part i j : 0 <= i <= j -> below part i <= below part j.
Proof.
  intros H. replace j with (i + Z.of_nat (Z.to_nat (j - i))) by lia.
  induction (Z.to_nat (j - i)) as [|k IH]; [replace (i + Z.of_nat 0) with i by lia; lia|].
  replace (i + Z.of_nat (Datatypes.S k)) with (i + Z.of_nat k + 1) by lia.
  rewrite below_succ by lia. destruct (has part _); lia.
Qed.

Lemma below_strict part i j : 0 <= i -> i < j -> has part i = true -> below part i < below part j.
Proof.
  intros Hi Hj Hh. pose proof (below_mono part (i + 1) j ltac:(lia)). rewrite below_succ, Hh in H by lia. lia.
Qed.

Lemma below_onto part n k : 0 <= n -> 0 <= k < below part n -> exists l, 0 <= l < n /\ has part l = true /\ below part l = k.
Proof.
  intros Hn. revert k. pattern n. revert n Hn. apply natlike_ind.
  - intros k. rewrite below_0. lia.
  - intros n Hn IH k Hk. unfold Z.succ in *. rewrite below_succ in Hk by lia.
    destruct (Z_lt_dec k (below part n)) as [Hlt|Hge].
    + destruct (IH k ltac:(lia)) as (l & Hl & Hh & E). exists l. repeat split; auto; lia.
    + destruct (has part n) eqn:Hh; [|lia]. exists n. repeat split; auto; lia.
Qed.

Lemma below_count part n : 0 <= n -> (forall l, In l part -> 0 <= l < n) -> below part n = distinct part.
Proof.
  intros Hn H. unfold below, distinct, zlen. f_equal.
  apply Nat.le_antisymm.
  - apply NoDup_incl_length; [apply NoDup_filter, NoDup_zrange|].
    intros x Hx. apply filter_In in Hx. apply nodup_In, has_In, Hx.
  - apply NoDup_incl_length; [apply NoDup_nodup|].
    intros x Hx. apply nodup_In in Hx. apply filter_In. split; [apply In_zrange, H, Hx|now apply has_In].
Qed.

(* ---------------------------------------------------------------- the loops *)

Lemma fold_max l : forall a x, In x (a :: l) -> x <= fold_left Z.max l a.
Proof.
  induction l as [|b l IH]; intros a x H; cbn [fold_left].
  - destruct H as [->|[]]. lia.
  - destruct H as [->|[->|H]].
    + transitivity (Z.max x b); [lia|]. apply IH. now left.
    + transitivity (Z.max a x); [lia|]. apply IH. now left.
    + apply IH. now right.
Qed.

Lemma fold_max_In l : forall a, In (fold_left Z.max l a) (a :: l).
Proof.
  induction l as [|b l IH]; intros a; cbn [fold_left]; [now left|].
  destruct (IH (Z.max a b)) as [E|H].
  - rewrite <- E. destruct (Z.max_spec a b) as [[_ ->]|[_ ->]]; [right; now left|now left].
  - right. now right.
Qed.

Lemma max_elem_ok part : part <> [] -> exists m, max_elem part = Ok m /\ In m part /\ forall x, In x part -> x <= m.
Proof.
  destruct part as [|a l]; [congruence|]. intros _. eexists. split; [reflexivity|].
  split; [apply fold_max_In|]. intros x Hx. now apply fold_max.
Qed.

Lemma counting part : forall (c : list Z), (forall l, In l part -> 0 <= l < zlen c) ->
  exists c', foldM (fun c i => x <- get c i ;; set c i (x + 1)) part c = Ok c' /\ zlen c' = zlen c /\
    forall l, 0 <= l < zlen c -> zn 0 c' l = zn 0 c l + zlen (filter (fun x => x =? l) part).
Proof.
  intros c H.
  destruct (scatter 0 (fun x : Z => x) (fun a _ => a + 1) (fun c i => x <- get c i ;; set c i (x + 1)) part c) as (c' & E & Hl & Hv).
  - exact H.
  - intros e o He Ho. rewrite (get_ok 0) by (rewrite Ho; auto). cbn [bind]. rewrite set_ok by (rewrite Ho; auto). reflexivity.
  - exists c'. split; [exact E|]. split; [exact Hl|]. intros l Hin. rewrite Hv by exact Hin.
    generalize (zn 0 c l). induction (filter _ part) as [|y r IH]; intros z; cbn [fold_left]; [change (zlen (@nil Z)) with 0; lia|].
    rewrite IH, zlen_cons. lia.
Qed.

Lemma counted part l : (zlen (filter (fun x => x =? l) part) =? 0) = negb (has part l).
Proof.
  destruct (has part l) eqn:E; cbn [negb].
  - apply has_In in E. apply Z.eqb_neq. intros H.
    assert (In l (filter (fun x => x =? l) part)) as Hin by (apply filter_In; split; [exact E|apply Z.eqb_refl]).
    destruct (filter (fun x => x =? l) part); [contradiction|]. rewrite zlen_cons in H. pose proof (zlen_nonneg l0). lia.
  - rewrite filter_none; [reflexivity|]. intros x Hx. apply Z.eqb_neq. intros ->.
    apply has_In in Hx. congruence.
Qed.

Lemma shifting counter part n : 0 <= n -> zlen counter = n ->
  (forall l, 0 <= l < n -> (zn 0 counter l =? 0) = negb (has part l)) ->
  for_ 0 n (0, repeat 0 (Z.to_nat n)) (fun i st =>
      let '(shift, shifter) := st in
      c <- get counter i ;;
      shifter <- set shifter i (if c =? 0 then shift + 1 else shift) ;;
      Ok (if c =? 0 then shift + 1 else shift, shifter))
  = Ok (unused part n, map (fun l => unused part (l + 1)) (zrange 0 n)).
Proof.
  intros Hn Hc Hz. apply res_of_returns.
  apply (returns_for (fun i st => fst st = unused part i /\ zlen (snd st) = n /\
     forall l, 0 <= l < i -> zn 0 (snd st) l = unused part (l + 1))); [lia| | |].
  - cbn [fst snd]. split; [reflexivity|]. split; [unfold zlen; rewrite repeat_length; lia|]. intros; lia.
  - intros i [sh sf] Hi (E1 & E2 & E3). cbn [fst snd] in *. rewrite (get_ok 0) by lia. cbn [bind]. rewrite Hz by lia.
    rewrite set_ok by lia. cbn [bind returns fst snd]. rewrite zlen_upd.
    assert (E : (if negb (has part i) then sh + 1 else sh) = unused part (i + 1)).
    { rewrite unused_succ by lia. destruct (has part i); cbn [negb]; lia. }
    rewrite E. split; [reflexivity|]. split; [exact E2|]. intros l Hl. rewrite zn_upd by lia.
    destruct (Z.eqb_spec l i); [now subst|]. apply E3. lia.
  - intros [sh sf] (E1 & E2 & E3). cbn [fst snd] in *. subst sh. f_equal.
    apply (list_ext 0); [rewrite zlen_map_zrange by lia; exact E2|]. intros i Hi. rewrite E3 by lia.
    now rewrite zn_map_zrange by lia.
Qed.

Lemma relabelling (f : Z -> Z) sf n part0 : zlen sf = n -> (forall l, 0 <= l < n -> zn 0 sf l = f l) ->
  (forall l, In l part0 -> 0 <= l < n) ->
  for_ 0 (zlen part0) part0 (fun i part => p <- get part i ;; s <- get sf p ;; set part i (p - s))
  = Ok (map (fun l => l - f l) part0).
Proof.
  intros Hs Hf Hin. apply res_of_returns.
  apply (returns_for (fun i o => zlen o = zlen part0 /\
     forall k, 0 <= k < zlen part0 -> zn 0 o k = if k <? i then zn 0 part0 k - f (zn 0 part0 k) else zn 0 part0 k)).
  - apply zlen_nonneg.
  - split; [reflexivity|]. intros k Hk. destruct (Z.ltb_spec k 0); [lia|reflexivity].
  - intros i o Hi (Ho & Hk). rewrite (get_ok 0) by lia. cbn [bind]. rewrite Hk by lia. rewrite Z.ltb_irrefl.
    pose proof (Hin _ (zn_In 0 part0 i Hi)) as Hl.
    rewrite (get_ok 0) by lia. cbn [bind]. rewrite Hf by lia. rewrite set_ok by lia. cbn [returns].
    rewrite zlen_upd. split; [exact Ho|]. intros k Hk'. rewrite zn_upd by lia.
    destruct (Z.eqb_spec k i).
    + subst. destruct (Z.ltb_spec i (i + 1)); [reflexivity|lia].
    + rewrite Hk by lia. destruct (Z.ltb_spec k i), (Z.ltb_spec k (i + 1)); try lia; reflexivity.
  - intros o (Ho & Hk). apply (list_ext 0); [rewrite zlen_map; exact Ho|]. intros i Hi.
    rewrite Ho in Hi. rewrite Hk by lia. rewrite (zn_map 0) by lia. destruct (Z.ltb_spec i (zlen part0)); [reflexivity|lia].
Qed.

Lemma remove_empty_eq part : part <> [] -> (forall l, In l part -> 0 <= l) ->
  remove_empty part = Ok (map (below part) part).
Proof.
  intros Hne Hp. unfold remove_empty.
  assert (0 < zlen part) by (destruct part; [congruence|]; rewrite zlen_cons; pose proof (zlen_nonneg part); lia).
  destruct (Z.ltb_spec 0 (zlen part)); [|lia]. cbn [assert_ bind].
  destruct (max_elem_ok part Hne) as (m & -> & Hm & Hmax). cbn [bind].
  pose proof (Hp m Hm) as Hm0. rewrite vec_ok by lia. cbn [bind].
  destruct (counting part (repeat 0 (Z.to_nat (m + 1)))) as (c & -> & Hl & Hv).
  { intros l Hin. unfold zlen. rewrite repeat_length. pose proof (Hp l Hin). pose proof (Hmax l Hin). lia. }
  cbn [bind]. assert (Hlen : zlen (repeat 0 (Z.to_nat (m + 1))) = m + 1) by (unfold zlen; rewrite repeat_length; lia).
  rewrite Hlen in *.
  rewrite (shifting c part (m + 1)); [|lia|exact Hl|].
  2:{ intros l Hin. rewrite Hv by lia. rewrite zn_repeat by lia. rewrite Z.add_0_l. apply counted. }
  cbn [bind]. rewrite (relabelling (fun l => unused part (l + 1)) _ (m + 1)).
  - f_equal. apply map_ext_in. intros l Hin. pose proof (Hp l Hin).
    pose proof (below_unused part (l + 1) ltac:(lia)) as E. rewrite below_succ in E by lia.
    apply has_In in Hin. rewrite Hin in E. lia.
  - rewrite zlen_map_zrange by lia. reflexivity.
  - intros l Hl'. now rewrite zn_map_zrange by lia.
  - intros l Hin. pose proof (Hp l Hin). pose proof (Hmax l Hin). lia.
Qed.

(* ---------------------------------------------------------------- C53 *)

Lemma remove_empty_spec part : part <> [] -> (forall l, In l part -> 0 <= l) ->
  exists new, remove_empty part = Ok new /\ labels_are new (distinct part) /\ same_partition part new.
Proof.
  intros Hne Hp. exists (map (below part) part). split; [now apply remove_empty_eq|].
  destruct (max_elem_ok part Hne) as (m & _ & Hm & Hmax).
  assert (Hr : forall l, In l part -> 0 <= l < m + 1) by (intros l Hl; pose proof (Hp l Hl); pose proof (Hmax l Hl); lia).
  pose proof (below_count part (m + 1) ltac:(specialize (Hp m Hm); lia) Hr) as Hd.
  split.
  - intros l. rewrite in_map_iff. split.
    + intros (x & <- & Hx). split; [unfold below; apply zlen_nonneg|]. rewrite <- Hd. apply below_strict; [now apply Hp|apply Hr, Hx|now apply has_In].
    + intros Hl. rewrite <- Hd in Hl. destruct (below_onto part (m + 1) l ltac:(specialize (Hp m Hm); lia) Hl) as (x & Hx & Hh & E).
      exists x. split; [exact E|now apply has_In].
  - split; [apply zlen_map|]. intros u v Hu Hv. rewrite !(zn_map 0) by lia.
    pose proof (zn_In 0 part u Hu) as Iu. pose proof (zn_In 0 part v Hv) as Iv.
    set (a := zn 0 part u) in *. set (b := zn 0 part v) in *. pose proof (Hp a Iu). pose proof (Hp b Iv).
    apply has_In in Iu, Iv.
    assert (L : forall a b, 0 <= a -> has part a = true -> a < b -> below part a < below part b) by (intros; apply below_strict; auto).
    pose proof (L a b) as L1. pose proof (L b a) as L2.
    destruct (Z.lt_trichotomy a b) as [Ho|[Ho|Ho]]; [specialize (L1 ltac:(lia) Iu Ho)| |specialize (L2 ltac:(lia) Iv Ho)]; try rewrite Ho; lia.
Qed.

Lemma remove_empty_iff part :
  (exists new, remove_empty part = Ok new) <-> (part <> [] /\ forall l, In l part -> 0 <= l).
Proof.
  split; [|intros (H1 & H2); destruct (remove_empty_spec part H1 H2) as (n & E & _); eauto].
  intros (new & E). unfold remove_empty in E.
  apply bind_Ok in E. destruct E as ([] & E0 & E). apply assert_Ok in E0.
  split; [intros ->; cbn in E0; discriminate|].
  apply bind_Ok in E. destruct E as (m & _ & E).
  apply bind_Ok in E. destruct E as (c0 & _ & E).
  apply bind_Ok in E. destruct E as (s0 & _ & E).
  apply bind_Ok in E. destruct E as (c & E & _). clear -E.
  revert c0 E. induction part as [|a part IH]; intros c0 E l Hl; [contradiction|].
  cbn [foldM] in E. apply bind_Ok in E. destruct E as (c1 & E1 & E2).
  apply bind_Ok in E1. destruct E1 as (x & Eg & _). destruct Hl as [->|Hl]; [|eapply IH; eauto].
  unfold get in Eg. destruct (Z.ltb_spec l 0); [discriminate|exact H].
Qed.

Lemma below_dense part k : 0 <= k -> labels_are part k -> forall l, 0 <= l <= k -> below part l = l.
Proof.
  intros Hk H l Hl. unfold below. rewrite filter_all; [rewrite zlen_zrange by lia; lia|].
  intros x Hx. apply In_zrange in Hx. apply has_In, H. lia.
Qed.

Lemma remove_empty_dense part k : part <> [] -> labels_are part k -> remove_empty part = Ok part.
Proof.
  intros Hne H. rewrite remove_empty_eq; [|exact Hne|intros l Hl; apply H in Hl; lia].
  f_equal. etransitivity; [|apply map_id]. apply map_ext_in. intros l Hl. apply H in Hl.
  apply (below_dense part k); [lia|exact H|lia].
Qed.

Lemma remove_empty_idempotent part new : remove_empty part = Ok new -> remove_empty new = Ok new.
Proof.
  intros E. destruct (proj1 (remove_empty_iff part)) as (H1 & H2); [eauto|].
  destruct (remove_empty_spec part H1 H2) as (n' & E' & L & P & _). rewrite E in E'. injection E' as <-.
  eapply remove_empty_dense; [|exact L]. intros ->. destruct part; [congruence|]. rewrite zlen_cons in P. change (zlen (@nil Z)) with 0 in P.
  pose proof (zlen_nonneg part). lia.
Qed.

(* ---------------------------------------------------------------- C54 *)

Section Graph.
Context {S : scalar}.
Notation T := (car S).

Definition off_row (w : T -> Z) (A : csr S) (i : Z) : list (Z * Z) :=
  map (fun p => (fst p, w (snd p))) (filter (fun p => negb (fst p =? i)) (row_of A i)).

Definition weight_of (to_idx : T -> Z) (weighted : bool) (v : T) : Z := to_idx (if weighted then sabs v else s1).

Lemma make_adjacency_rows to_idx (A : csr S) weighted : csr_valid A -> c_cols A = c_rows A -> c_rows A - 1 <= nnz A ->
  let G := csr_of_rows (S := Zs) (c_rows A) (c_rows A) (off_row (weight_of to_idx weighted) A) in
  make_adjacency to_idx A weighted = Ok (c_ptr G, c_idx G, c_val G).
Proof.
  intros V Hsq Hn G. unfold make_adjacency. rewrite Hsq, Z.eqb_refl. cbn [assert_ bind]. pose proof (cv_rows V) as Hr.
  rewrite vec_ok by lia. cbn [bind].
  assert (Hq : 0 <= Z.quot (sp_nnz A - c_rows A) 2).
  { change (sp_nnz A) with (nnz A). destruct (Z_lt_dec (nnz A) (c_rows A)).
    - replace (nnz A - c_rows A) with (-1) by lia. cbn. lia.
    - apply Z.quot_pos; lia. }
  destruct (Z.ltb_spec (Z.quot (sp_nnz A - c_rows A) 2) 0); [lia|]. cbn [bind].
  set (w := weight_of to_idx weighted). set (f := off_row w A).
  assert (Hlen : zlen (repeat 0 (Z.to_nat (c_rows A + 1))) = c_rows A + 1) by (unfold zlen; rewrite repeat_length; lia).
  rewrite set_ok by (rewrite Hlen; lia). cbn [bind].
  apply res_of_returns.
  apply (returns_for (fun i st => let '(ip, ix, d) := st in zlen ip = c_rows A + 1 /\
     (forall k, 0 <= k <= i -> zn 0 ip k = off f k) /\ ix = map fst (cat f i) /\ d = map snd (cat f i))); [lia| | |].
  - rewrite zlen_upd, Hlen. split; [reflexivity|]. split; [|split; reflexivity].
    intros k Hk. assert (k = 0) by lia. subst. rewrite zn_upd by (rewrite ?Hlen; lia). rewrite Z.eqb_refl, off_0. reflexivity.
  - intros i [[ip ix] d] Hi (E1 & E2 & -> & ->). rewrite !get_ptr by (auto; lia). cbn [bind].
    rewrite (row_loop A i _ _ (fun st e => let '(ip, ix, d) := st in
         if negb (ecol e =? i) then Ok (ip, ix ++ [ecol e], d ++ [w (evalue e)]) else Ok (ip, ix, d))); auto.
    2:{ intros k [[ip' ix'] d'] Hk. apply position_bounds in Hk; auto. rewrite get_idx by (auto; tauto).
        cbn [bind entry_at evalue ecol fst snd]. destruct (negb (idx A k =? i)); [|reflexivity].
        unfold w, weight_of. destruct weighted; [rewrite get_val by tauto|]; reflexivity. }
    rewrite <- row_of_entries. unfold row_to_entries. rewrite foldM_map. cbn [ecol evalue fst snd].
    assert (G' : forall l ip ix d, foldM (fun (st : list Z * list Z * list Z) (p : Z * T) => let '(ip, ix, d) := st in
         if negb (fst p =? i) then Ok (ip, ix ++ [fst p], d ++ [w (snd p)]) else Ok (ip, ix, d)) l (ip, ix, d)
         = Ok (ip, ix ++ map fst (map (fun p => (fst p, w (snd p))) (filter (fun p => negb (fst p =? i)) l)),
                   d ++ map snd (map (fun p => (fst p, w (snd p))) (filter (fun p => negb (fst p =? i)) l)))).
    { induction l as [|p l IH]; intros ip' ix' d'; cbn [foldM filter map].
      - now rewrite !app_nil_r.
      - destruct (negb (fst p =? i)); cbn [bind]; rewrite IH; cbn [map fst snd]; now rewrite <- ?app_assoc. }
    rewrite G'. cbn [bind]. fold (off_row w A i). change (off_row w A i) with (f i).
    rewrite <- !map_app, <- cat_succ by lia. rewrite set_ok by lia. cbn [bind returns].
    rewrite zlen_upd. split; [exact E1|]. split; [|split; reflexivity].
    intros k Hk. rewrite zn_upd by lia. destruct (Z.eqb_spec k (i + 1)); [subst; now rewrite zlen_map|]. apply E2. lia.
  - intros [[ip ix] d] (E1 & E2 & -> & ->). 
    assert (E : ip = map (off f) (zrange 0 (c_rows A + 1))); [|rewrite E; reflexivity].
    apply (list_ext 0); [rewrite zlen_map_zrange by lia; exact E1|]. intros k Hk. rewrite E1 in Hk.
    rewrite E2 by lia. now rewrite zn_map_zrange by lia.
Qed.

Lemma make_adjacency_spec to_idx (A : csr S) weighted : csr_valid A -> c_cols A = c_rows A -> c_rows A - 1 <= nnz A ->
  exists g, make_adjacency to_idx A weighted = Ok g /\
    adjacency (c_rows A) g (off_diagonal (fun v : T => to_idx (if weighted then sabs v else s1)) A).
Proof.
  intros V Hsq Hn. eexists. split; [now apply make_adjacency_rows|].
  set (f := off_row (weight_of to_idx weighted) A). cbn [adjacency].
  change (csr_valid (csr_of_rows (S := Zs) (c_rows A) (c_rows A) f) /\
    entries (csr_of_rows (S := Zs) (c_rows A) (c_rows A) f) = off_diagonal (fun v : T => to_idx (if weighted then sabs v else s1)) A).
  pose proof (cv_rows V) as Hr. split.
  - apply csr_of_rows_valid; [lia|lia|]. intros i [c v] Hi Hp. unfold f, off_row in Hp. apply in_map_iff in Hp.
    destruct Hp as ([c' v'] & E & Hp). cbn [fst snd] in E. injection E as -> <-. apply filter_In in Hp. destruct Hp as (Hp & _).
    assert (H : In (i, c, v') (entries A)) by (apply In_row_of; auto).
    pose proof (entries_in_shape A V) as Sh. unfold in_shape in Sh. rewrite Forall_forall in Sh. apply Sh in H. cbn in H. cbn. lia.
  - rewrite csr_of_rows_entries. unfold off_diagonal, entries. rewrite filter_flat_map, map_flat_map. apply flat_map_ext_in. intros i Hi.
    rewrite <- row_of_entries. unfold f, off_row, row_to_entries. rewrite filter_map, !map_map. cbn [erow ecol evalue fst snd].
    rewrite (filter_ext (fun p : Z * T => negb (i =? fst p)) (fun p => negb (fst p =? i))); [reflexivity|].
    intros p. now rewrite Z.eqb_sym.
Qed.

(** The reserve call of a graph with too few stored entries. *)
Lemma make_adjacency_throws to_idx (A : csr S) weighted : csr_valid A -> c_cols A = c_rows A -> nnz A < c_rows A - 1 ->
  make_adjacency to_idx A weighted = Fail FThrow.
Proof.
  intros V Hsq Hn. unfold make_adjacency. rewrite Hsq, Z.eqb_refl. cbn [assert_ bind]. pose proof (cv_rows V) as Hr.
  rewrite vec_ok by lia. cbn [bind]. change (sp_nnz A) with (nnz A).
  assert (Hq : Z.quot (nnz A - c_rows A) 2 < 0).
  { pose proof (Z.quot_opp_l (c_rows A - nnz A) 2 ltac:(lia)) as E.
    replace (- (c_rows A - nnz A)) with (nnz A - c_rows A) in E by lia. rewrite E.
    pose proof (Z.quot_str_pos (c_rows A - nnz A) 2 ltac:(lia)). lia. }
  destruct (Z.ltb_spec (Z.quot (nnz A - c_rows A) 2) 0); [reflexivity|lia].
Qed.

(* ---------------------------------------------------------------- Partition *)

Lemma partition_spec (to_idx : T -> Z) (call : metis (S := S)) (A : csr S) (num_parts : Z) (ub : T) (contig weighted : bool) :
  csr_valid A -> c_cols A = c_rows A -> 1 <= num_parts <= c_rows A -> c_rows A - 1 <= nnz A ->
  (forall xadj adjncy adjwgt : list Z, adjacency (c_rows A) ((xadj, adjncy), adjwgt) (off_diagonal (fun v : T => to_idx (if weighted then sabs v else s1)) A) ->
     let p := call (c_rows A) xadj adjncy adjwgt num_parts ub contig in zlen p = c_rows A /\ forall l, In l p -> 0 <= l < num_parts) ->
  exists part k, partition to_idx call A num_parts ub contig weighted = Ok part /\ zlen part = c_rows A /\
    1 <= k <= num_parts /\ labels_are part k /\
    (num_parts = 1 \/ exists xadj adjncy adjwgt : list Z,
       adjacency (c_rows A) ((xadj, adjncy), adjwgt) (off_diagonal (fun v : T => to_idx (if weighted then sabs v else s1)) A) /\
       same_partition (call (c_rows A) xadj adjncy adjwgt num_parts ub contig) part).
Proof.
  intros V Hsq Hp Hn C. unfold partition.
  destruct (Z.ltb_spec 0 num_parts); [|lia]. destruct (Z.leb_spec num_parts (c_rows A)); [|lia].
  rewrite Hsq, Z.eqb_refl. cbn [assert_ bind].
  destruct (Z.ltb_spec num_parts 2).
  - rewrite vec_ok by lia. exists (repeat 0 (Z.to_nat (c_rows A))), 1. split; [reflexivity|].
    split; [unfold zlen; rewrite repeat_length; lia|]. split; [lia|]. split; [|left; lia].
    intros l. split; [intros Hl; apply repeat_spec in Hl; lia|]. intros Hl. assert (l = 0) by lia. subst.
    destruct (Z.to_nat (c_rows A)) eqn:E; [lia|]. now left.
  - destruct (make_adjacency_spec to_idx A weighted V Hsq Hn) as ([[xadj adjncy] adjwgt] & E & Had). rewrite E. cbn [bind].
    destruct (C _ _ _ Had) as (Hlen & Hlab). set (p := call _ _ _ _ _ _ _) in *.
    assert (Hne : p <> []) by (intros Hnil; rewrite Hnil in Hlen; change (zlen (@nil Z)) with 0 in Hlen; lia).
    destruct (remove_empty_spec p Hne) as (new & E' & L & P); [intros l Hl; now apply Hlab|].
    exists new, (distinct p). split; [exact E'|]. split; [rewrite (proj1 P); exact Hlen|]. split; [|split; [exact L|right; eauto]].
    split.
    + assert (0 < distinct p); [|lia]. destruct p as [|a p']; [congruence|]. unfold distinct.
      assert (In a (nodup Z.eq_dec (a :: p'))) by (apply nodup_In; now left).
      destruct (nodup Z.eq_dec (a :: p')) as [|b r]; [contradiction|]. rewrite zlen_cons. pose proof (zlen_nonneg r). lia.
    + rewrite <- (below_count p num_parts); [|lia|exact Hlab]. unfold below.
      pose proof (below_unused p num_parts ltac:(lia)) as Hb. unfold below, unused in Hb.
      pose proof (zlen_nonneg (filter (fun x => negb (has p x)) (zrange 0 num_parts))). lia.
Qed.

Lemma partition_refuses (to_idx : car S -> Z) (call : metis (S := S)) (A : csr S) num_parts ub contig weighted :
  ~ (1 <= num_parts <= c_rows A /\ c_cols A = c_rows A) ->
  partition to_idx call A num_parts ub contig weighted = Fail FAssert.
Proof.
  intros H. unfold partition. destruct (Z.ltb_spec 0 num_parts); cbn [assert_ bind]; [|reflexivity].
  destruct (Z.leb_spec num_parts (c_rows A)); cbn [assert_ bind]; [|reflexivity].
  destruct (Z.eqb_spec (c_cols A) (c_rows A)); cbn [assert_ bind]; [|reflexivity]. lia.
Qed.

End Graph.
