(** Proofs about CooMatrix. *)

From Coq Require Import ZArith List Lia Bool Permutation.
From Verif Require Import Base Scalar Spec Dense Sparse LoopFacts SumFacts CsrFacts Rows Accum SparseProofs DenseFacts DenseProofs Coo CooSpec.
Import ListNotations.
Open Scope Z_scope.

(* ---------------------------------------------------------------- maps *)

Lemma zrange_snoc' a n : 0 <= n -> zrange a (a + (n + 1)) = zrange a (a + n) ++ [a + n].
Proof. intros H. rewrite zrange_snoc by lia. replace (a + (n + 1) - 1) with (a + n) by lia. reflexivity. Qed.

Lemma combine_snoc {A B} (l1 : list A) (l2 : list B) a b : length l1 = length l2 ->
  combine (l1 ++ [a]) (l2 ++ [b]) = combine l1 l2 ++ [(a, b)].
Proof.
  revert l2. induction l1; intros [|b' l2] H; cbn in *; try discriminate; [reflexivity|].
  f_equal. apply IHl1. lia.
Qed.

Definition imap (K : list Z) : umap := combine K (zrange 0 (zlen K)).

Lemma imap_snoc K c : imap (K ++ [c]) = imap K ++ [(c, zlen K)].
Proof.
  unfold imap. rewrite zlen_app, zlen_cons, zlen_nil. pose proof (zlen_nonneg K).
  replace (zlen K + (0 + 1)) with (0 + (zlen K + 1)) by lia. rewrite zrange_snoc' by lia.
  rewrite combine_snoc; [reflexivity|]. rewrite zrange_length. unfold zlen. lia.
Qed.

Lemma zlen_imap K : zlen (imap K) = zlen K.
Proof. unfold imap, zlen. rewrite combine_length, zrange_length. lia. Qed.

Lemma umap_find_app_new m k v c : umap_find (m ++ [(k, v)]) c = match umap_find m c with Some w => Some w | None => if k =? c then Some v else None end.
Proof. induction m as [|[k' v'] m IH]; cbn; [reflexivity|]. destruct (k' =? c); [reflexivity|exact IH]. Qed.

Lemma umap_find_In m c : umap_find m c = None <-> ~ In c (map fst m).
Proof.
  induction m as [|[k v] m IH]; cbn; [tauto|]. destruct (Z.eqb_spec k c).
  - subst. split; [discriminate|]. intros H. exfalso. apply H. now left.
  - rewrite IH. tauto.
Qed.

Lemma umap_put_new m k v : ~ In k (map fst m) -> umap_put m k v = m ++ [(k, v)].
Proof.
  induction m as [|[k' v'] m IH]; cbn; intros H; [reflexivity|]. destruct (Z.eqb_spec k' k); [subst; tauto|].
  rewrite IH by tauto. reflexivity.
Qed.

Lemma imap_fst K : map fst (imap K) = K.
Proof.
  induction K as [|c K IH] using rev_ind; [reflexivity|]. rewrite imap_snoc, map_app, IH. reflexivity.
Qed.

Lemma imap_find K c : In c K -> NoDup K -> exists t, umap_find (imap K) c = Some t /\ 0 <= t < zlen K /\ zn 0 K t = c.
Proof.
  intros Hc. induction K as [|b K IH] using rev_ind; [destruct Hc|]. intros ND.
  rewrite imap_snoc, umap_find_app_new. pose proof (zlen_nonneg K).
  destruct (umap_find (imap K) c) as [w|] eqn:E.
  - destruct IH as (t & E' & Ht & Hz).
    + destruct (in_dec Z.eq_dec c K) as [|n]; [assumption|]. exfalso.
      rewrite (proj2 (umap_find_In _ _)) in E; [discriminate|]. now rewrite imap_fst.
    + apply NoDup_remove_1 in ND. now rewrite app_nil_r in ND.
    + exists t. rewrite zlen_app, zlen_cons, zlen_nil. injection E' as ->. split; [reflexivity|]. split; [lia|]. now rewrite zn_app_l by lia.
  - apply umap_find_In in E. rewrite imap_fst in E. apply in_app_iff in Hc. destruct Hc as [Hc|[<-|[]]]; [tauto|].
    rewrite Z.eqb_refl. exists (zlen K). rewrite zlen_app, zlen_cons, zlen_nil. split; [reflexivity|]. split; [lia|].
    rewrite zn_app_r by lia. now rewrite Z.sub_diag.
Qed.

Lemma keys_NoDup l : NoDup (keys l).
Proof.
  induction l as [|c l IH] using rev_ind; [constructor|]. rewrite keys_snoc.
  destruct (existsb (Z.eqb c) (keys l)) eqn:E; [exact IH|]. apply existsb_not_In in E. now apply NoDup_snoc.
Qed.

(* ---------------------------------------------------------------- partial sums *)

Lemma partial_sum_off {X} (f : Z -> list X) n : forall k, 0 <= k ->
  partial_sum_from (off f k) (map (fun i => zlen (f i)) (zrange k (k + Z.of_nat n))) = map (fun i => off f (i + 1)) (zrange k (k + Z.of_nat n)).
Proof.
  induction n; intros k Hk.
  - rewrite zrange_empty by lia. reflexivity.
  - rewrite (zrange_cons k) by lia. cbn [map partial_sum_from]. rewrite off_succ by lia. f_equal.
    specialize (IHn (k + 1) ltac:(lia)). rewrite off_succ in IHn by lia.
    replace (k + 1 + Z.of_nat n) with (k + Z.of_nat (Datatypes.S n)) in IHn by lia. exact IHn.
Qed.

Lemma zrange_map_succ lo hi : map (fun i => i + 1) (zrange lo hi) = zrange (lo + 1) (hi + 1).
Proof.
  destruct (Z_lt_le_dec hi lo); [rewrite !zrange_empty by lia; reflexivity|].
  apply (list_ext 0).
  - rewrite zlen_map, !zlen_zrange by lia. lia.
  - intros i Hi. rewrite zlen_map, zlen_zrange in Hi by lia. rewrite (zn_map 0) by (rewrite zlen_zrange by lia; lia).
    rewrite !zn_zrange by lia. lia.
Qed.

Lemma partial_sum_rows {X} (f : Z -> list X) n : 0 <= n ->
  partial_sum (0 :: map (fun i => zlen (f i)) (zrange 0 n)) = map (off f) (zrange 0 (n + 1)).
Proof.
  intros Hn. unfold partial_sum. cbn [partial_sum_from]. rewrite (zrange_cons 0 (n + 1)) by lia. cbn [map].
  change (0 + 0) with 0. rewrite off_0. f_equal.
  pose proof (partial_sum_off f (Z.to_nat n) 0 ltac:(lia)) as H. rewrite Z2Nat.id in H by lia.
  change (0 + n) with n in H. rewrite off_0 in H. rewrite H. rewrite <- zrange_map_succ, map_map. reflexivity.
Qed.

Lemma foldM_pair {X A B} (f : A -> X -> res A) (g : B -> X -> res B) (body : A * B -> X -> res (A * B)) l a b a' b' :
  (forall a b x, body (a, b) x = (a1 <- f a x ;; b1 <- g b x ;; Ok (a1, b1))) ->
  foldM f l a = Ok a' -> foldM g l b = Ok b' -> foldM body l (a, b) = Ok (a', b').
Proof.
  intros H. revert a b. induction l as [|x l IH]; intros a b; cbn.
  - intros E1 E2. injection E1 as ->. injection E2 as ->. reflexivity.
  - destruct (f a x) as [a1|] eqn:E1; cbn; [|discriminate]. destruct (g b x) as [b1|] eqn:E2; cbn; [|discriminate].
    rewrite H, E1, E2. cbn. apply IH.
Qed.

Section CooProofs.
Context {S : scalar}.
Notation T := (car S).
Implicit Types (M : coo S) (l : list (entry S)).

(* ---------------------------------------------------------------- sizes *)

Lemma find_size_fold l : forall r c, fold_left (fun '(r, c) (e : entry S) => (Z.max r (erow e), Z.max c (ecol e))) l (r, c)
  = (fold_left (fun r e => Z.max r (erow e)) l r, fold_left (fun c e => Z.max c (ecol e)) l c).
Proof. induction l as [|e l IH]; intros r c; cbn; [reflexivity|apply IH]. Qed.

Lemma fold_max_ge (f : entry S -> Z) l : forall r, r <= fold_left (fun r e => Z.max r (f e)) l r /\ forall e, In e l -> f e <= fold_left (fun r e => Z.max r (f e)) l r.
Proof.
  induction l as [|e l IH]; intros r; cbn; [split; [lia|contradiction]|].
  destruct (IH (Z.max r (f e))) as (H1 & H2). split; [lia|]. intros e' [<-|H]; [lia|auto].
Qed.

Lemma fold_max_bound (f : entry S -> Z) l : forall r, 0 <= r -> fold_left (fun r e => Z.max r (f e)) l r + 1 = Z.max (r + 1) (bound f l).
Proof.
  induction l as [|e l IH]; intros r Hr; [unfold bound; cbn; lia|]. cbn [fold_left]. rewrite IH by lia. unfold bound. cbn [fold_right]. lia.
Qed.

Lemma coo_size_shape M : coo_ok M ->
  0 <= fst (coo_find_size M) /\ 0 <= snd (coo_find_size M) /\ in_shape (fst (coo_find_size M)) (snd (coo_find_size M)) (o_entries M).
Proof.
  intros (Hr & Hc & H). unfold coo_find_size. destruct (o_set M); [cbn; auto|].
  rewrite find_size_fold. cbn [fst snd].
  destruct (fold_max_ge erow (o_entries M) 0) as (H1 & H2). destruct (fold_max_ge ecol (o_entries M) 0) as (H3 & H4).
  split; [lia|]. split; [lia|]. apply Forall_forall. intros e He. rewrite Forall_forall in H.
  specialize (H e He). specialize (H2 e He). specialize (H4 e He). lia.
Qed.

(* ---------------------------------------------------------------- ToDense *)

Lemma coo_to_dense_exact M out : coo_ok M ->
  d_gives (coo_to_dense_into M out) (fst (coo_find_size M)) (snd (coo_find_size M))
    (fun i j => fold_left (fun s e => sadd s (evalue e)) (filter (at_pos i j) (o_entries M)) s0).
Proof.
  intros H. destruct (coo_size_shape M H) as (Hr & Hc & Hs). unfold coo_to_dense_into.
  destruct (coo_find_size M) as [r c]. cbn [fst snd] in *.
  destruct (d_set_size_ok out r c Hr Hc) as (D & -> & HD & Er & Ec & _). cbn [bind].
  pose proof (d_fill_ok D s0 HD) as HF.
  destruct (dense_scatter erow ecol (fun o (e : entry S) => sadd o (evalue e))
    (fun out e => d_mod out (erow e) (ecol e) (fun o => sadd o (evalue e))) (o_entries M) (d_fill D s0) HF) as (R & E & HR & R1 & R2 & Rv).
  - intros e He. unfold in_shape in Hs. rewrite Forall_forall in Hs. specialize (Hs e He). cbn. lia.
  - intros e D' He H1 H2 H3. unfold in_shape in Hs. rewrite Forall_forall in Hs. specialize (Hs e He). cbn in H2, H3. rewrite d_mod_ok by (auto; lia). reflexivity.
  - rewrite E. exists R. cbn in R1, R2. split; [reflexivity|]. split; [exact HR|]. split; [lia|]. split; [lia|].
    intros i j Hi Hj. rewrite Rv by (cbn; lia). rewrite d_fill_mat by (auto; lia). f_equal.
Qed.

(* ---------------------------------------------------------------- ToSparse *)

Definition row_cols i l : list Z := map ecol (filter (fun e => erow e =? i) l).
Definition ks l i : list Z := keys (row_cols i l).

(** Row i of the result: the distinct columns in first-seen order, each with the sum
    of its values in order of addition. *)
Definition crow l (i : Z) : list (Z * T) :=
  map (fun c => (c, fold_left (fun s e => sadd s (evalue e)) (filter (at_pos i c) l) s0)) (ks l i).

Lemma zlen_crow l i : zlen (crow l i) = zlen (ks l i).
Proof. apply zlen_map. Qed.

Lemma row_cols_snoc i l e : row_cols i (l ++ [e]) = row_cols i l ++ (if erow e =? i then [ecol e] else []).
Proof. unfold row_cols. rewrite filter_app, map_app. cbn. destruct (erow e =? i); reflexivity. Qed.

Lemma ks_snoc l e i : ks (l ++ [e]) i =
  if (erow e =? i) && negb (existsb (Z.eqb (ecol e)) (ks l i)) then ks l i ++ [ecol e] else ks l i.
Proof.
  unfold ks. rewrite row_cols_snoc. destruct (erow e =? i); cbn [andb]; [|now rewrite app_nil_r].
  rewrite keys_snoc. destruct (existsb _ _); reflexivity.
Qed.

Lemma In_ks l i c : In c (ks l i) <-> exists e, In e l /\ erow e = i /\ ecol e = c.
Proof.
  unfold ks. rewrite keys_In. unfold row_cols. rewrite in_map_iff. split.
  - intros (e & E & H). apply filter_In in H. destruct H as (H & E'). apply Z.eqb_eq in E'. eauto.
  - intros (e & H & E1 & E2). exists e. split; [exact E2|]. apply filter_In. split; [exact H|]. now apply Z.eqb_eq.
Qed.

Lemma map_const_zrange {A} (a : A) n : map (fun _ => a) (zrange 0 n) = repeat a (Z.to_nat n).
Proof.
  unfold zrange. rewrite map_map. replace (n - 0) with n by lia.
  generalize 0%nat. induction (Z.to_nat n) as [|m IH]; intros k; cbn; [reflexivity|]. f_equal. apply IH.
Qed.

Definition pass1_ip rows l : list Z := 0 :: map (fun i => zlen (ks l i)) (zrange 0 rows).
Definition pass1_im rows l : list umap := map (fun i => imap (ks l i)) (zrange 0 rows).

Lemma zn_pass1_ip rows l i : 0 <= i < rows -> zn 0 (pass1_ip rows l) (i + 1) = zlen (ks l i).
Proof. intros H. unfold pass1_ip. rewrite zn_cons_pos by lia. replace (i + 1 - 1) with i by lia. now rewrite zn_map_zrange by lia. Qed.

Lemma zlen_pass1_ip rows l : 0 <= rows -> zlen (pass1_ip rows l) = rows + 1.
Proof. intros H. unfold pass1_ip. rewrite zlen_cons, zlen_map_zrange by lia. lia. Qed.

Lemma pass1 rows cols l : 0 <= rows -> in_shape rows cols l ->
  foldM (fun (st : list Z * list umap) (e : entry S) =>
          let (ip, im) := st in
          m <- get im (erow e) ;;
          match umap_find m (ecol e) with
          | Some _ => Ok (ip, im)
          | None => n <- get ip (erow e + 1) ;; ip <- set ip (erow e + 1) (n + 1) ;;
                    im <- set im (erow e) (umap_put m (ecol e) (zlen m)) ;;
                    Ok (ip, im)
          end) l (repeat 0 (Z.to_nat (rows + 1)), @repeat umap [] (Z.to_nat rows))
  = Ok (pass1_ip rows l, pass1_im rows l).
Proof.
  intros Hr Hs. apply res_of_returns.
  apply (returns_foldM (fun pre st => st = (pass1_ip rows pre, pass1_im rows pre))).
  - unfold pass1_ip, pass1_im, ks. cbn [row_cols filter map keys fold_left imap]. rewrite !map_const_zrange.
    replace (Z.to_nat (rows + 1)) with (Datatypes.S (Z.to_nat rows)) by lia. reflexivity.
  - intros pre e post st El ->. assert (He : 0 <= erow e < rows).
    { unfold in_shape in Hs. rewrite Forall_forall in Hs. apply Hs. rewrite El. apply in_elt. }
    cbv beta iota.
    rewrite (get_ok ([] : umap)) by (unfold pass1_im; rewrite zlen_map_zrange by lia; lia). cbn [bind].
    assert (Ez : zn ([] : umap) (pass1_im rows pre) (erow e) = imap (ks pre (erow e))) by (unfold pass1_im; now rewrite zn_map_zrange by lia). rewrite Ez.
    destruct (umap_find (imap (ks pre (erow e))) (ecol e)) as [t|] eqn:Ef.
    + cbn [returns]. assert (Hin : In (ecol e) (ks pre (erow e))).
      { destruct (in_dec Z.eq_dec (ecol e) (ks pre (erow e))); [assumption|]. rewrite (proj2 (umap_find_In _ _)) in Ef by (now rewrite imap_fst). discriminate. }
      assert (E : forall i, ks (pre ++ [e]) i = ks pre i).
      { intros i. rewrite ks_snoc. destruct (Z.eqb_spec (erow e) i); [|reflexivity]. subst i.
        apply existsb_In in Hin. rewrite Hin. reflexivity. }
      unfold pass1_ip, pass1_im. f_equal; [f_equal|]; apply map_ext; intros i; now rewrite E.
    + apply umap_find_In in Ef. rewrite imap_fst in Ef.
      assert (E : forall i, ks (pre ++ [e]) i = if i =? erow e then ks pre i ++ [ecol e] else ks pre i).
      { intros i. rewrite ks_snoc, (Z.eqb_sym i). destruct (Z.eqb_spec (erow e) i); [|reflexivity]. subst i.
        apply existsb_not_In in Ef. rewrite Ef. reflexivity. }
      rewrite (get_ok 0) by (rewrite zlen_pass1_ip by lia; lia). cbn [bind].
      rewrite set_ok by (rewrite zlen_pass1_ip by lia; lia). cbn [bind].
      rewrite set_ok by (unfold pass1_im; rewrite zlen_map_zrange by lia; lia). cbn [bind returns].
      rewrite umap_put_new by (now rewrite imap_fst). rewrite zlen_imap, <- imap_snoc.
      f_equal.
      * apply (list_ext 0).
        -- rewrite zlen_upd, !zlen_pass1_ip by lia. reflexivity.
        -- rewrite zlen_upd, zlen_pass1_ip by lia. intros k Hk.
           rewrite zn_upd by (rewrite ?zlen_pass1_ip by lia; lia).
           rewrite zn_pass1_ip by lia.
           destruct (Z.eqb_spec k (erow e + 1)) as [->|Hne].
           ++ rewrite zn_pass1_ip by lia. rewrite E, Z.eqb_refl, zlen_app, zlen_cons, zlen_nil. lia.
           ++ destruct (Z.eqb_spec k 0) as [->|]; [reflexivity|].
              replace k with (k - 1 + 1) by lia. rewrite !zn_pass1_ip by lia. rewrite E.
              destruct (Z.eqb_spec (k - 1) (erow e)); [lia|reflexivity].
      * apply (list_ext ([] : umap)).
        -- rewrite zlen_upd. unfold pass1_im. now rewrite !zlen_map_zrange by lia.
        -- rewrite zlen_upd. intros k Hk. unfold pass1_im in *. rewrite zlen_map_zrange in Hk by lia.
           rewrite zn_upd by (rewrite ?zlen_map_zrange by lia; lia). rewrite !zn_map_zrange by lia. rewrite E.
           destruct (Z.eqb_spec k (erow e)); [subst|]; reflexivity.
  - intros st ->. reflexivity.
Qed.

Lemma zn_ks_inj l i a b : 0 <= a < zlen (ks l i) -> 0 <= b < zlen (ks l i) -> zn 0 (ks l i) a = zn 0 (ks l i) b -> a = b.
Proof.
  intros Ha Hb E. unfold zn in E. pose proof (keys_NoDup (row_cols i l)) as ND. fold (ks l i) in ND.
  assert (Z.to_nat a = Z.to_nat b) by (apply (proj1 (NoDup_nth (ks l i) 0) ND); unfold zlen in *; [lia|lia|exact E]). lia.
Qed.

(** Where entry e goes. *)
Definition slot l (e : entry S) : Z :=
  off (crow l) (erow e) + match umap_find (imap (ks l (erow e))) (ecol e) with Some t => t | None => 0 end.

Lemma slot_spec l e : In e l -> exists t, umap_find (imap (ks l (erow e))) (ecol e) = Some t /\ slot l e = off (crow l) (erow e) + t /\ 0 <= t < zlen (crow l (erow e)) /\ zn 0 (ks l (erow e)) t = ecol e.
Proof.
  intros He. destruct (imap_find (ks l (erow e)) (ecol e)) as (t & E & Ht & Hz).
  - apply In_ks. eauto.
  - apply keys_NoDup.
  - exists t. unfold slot. rewrite E, zlen_crow. auto.
Qed.

Lemma off_slot_inj {X} (f : Z -> list X) n i j s t : 0 <= i < n -> 0 <= j < n -> 0 <= s < zlen (f i) -> 0 <= t < zlen (f j) ->
  off f i + s = off f j + t -> i = j /\ s = t.
Proof.
  intros Hi Hj Hs Ht E.
  assert (i = j).
  { destruct (Z.lt_trichotomy i j) as [H|[H|H]]; [|exact H|].
    - pose proof (off_mono f (i + 1) j ltac:(lia)) as H1. rewrite off_succ in H1 by lia. lia.
    - pose proof (off_mono f (j + 1) i ltac:(lia)) as H1. rewrite off_succ in H1 by lia. lia. }
  subst. split; [reflexivity|lia].
Qed.

Lemma slot_inv rows cols l e i t : in_shape rows cols l -> In e l -> 0 <= i < rows -> 0 <= t < zlen (crow l i) ->
  (slot l e =? off (crow l) i + t) = at_pos i (zn 0 (ks l i) t) e.
Proof.
  intros Hs He Hi Ht. destruct (slot_spec l e He) as (t' & _ & E & Ht' & Hz).
  assert (Hr : 0 <= erow e < rows) by (unfold in_shape in Hs; rewrite Forall_forall in Hs; now apply Hs).
  unfold at_pos. rewrite E.
  destruct (Z.eqb_spec (off (crow l) (erow e) + t') (off (crow l) i + t)) as [E1|N].
  - destruct (off_slot_inj (crow l) rows _ _ _ _ Hr Hi Ht' Ht E1) as (E2 & ->). rewrite E2, Z.eqb_refl. subst i. rewrite Hz, Z.eqb_refl. reflexivity.
  - destruct (Z.eqb_spec (erow e) i) as [E1|]; [|reflexivity]. cbn [andb]. subst i.
    destruct (Z.eqb_spec (ecol e) (zn 0 (ks l (erow e)) t)) as [E2|]; [|reflexivity].
    exfalso. apply N. f_equal. apply (zn_ks_inj l (erow e)); rewrite <- ?zlen_crow; auto. congruence.
Qed.

Lemma fold_left_snd {X A} (g : X -> A) L (d : A) : L <> [] -> (forall x y, In x L -> In y L -> g x = g y) ->
  forall x, In x L -> fold_left (fun _ y => g y) L d = g x.
Proof.
  intros HL Hg x Hx. destruct L as [|a L] using rev_ind; [congruence|]. rewrite fold_left_app. cbn.
  apply Hg; [apply in_elt|exact Hx].
Qed.

Lemma coo_to_sparse_rows M : coo_ok M ->
  coo_to_sparse M = Ok (csr_of_rows (fst (coo_find_size M)) (snd (coo_find_size M)) (crow (o_entries M))).
Proof.
  intros H. destruct (coo_size_shape M H) as (Hr & Hc & Hs). unfold coo_to_sparse.
  destruct (coo_find_size M) as [rows cols]. cbn [fst snd] in *.
  remember (o_entries M) as l eqn:El. destruct l as [|e0 l0].
  - unfold sp_zero. rewrite !(proj2 (Z.leb_le _ _)) by lia. cbn [assert_ bind]. rewrite vec_ok by lia. cbn [bind]. f_equal. unfold csr_of_rows.
    assert (E : cat (crow []) rows = []) by (unfold cat, crow, ks; cbn; apply flat_map_nil; reflexivity).
    rewrite E. cbn. f_equal. apply (list_ext 0).
    + rewrite zlen_repeat, zlen_map_zrange by lia. lia.
    + intros i Hi. rewrite zlen_repeat in Hi. rewrite zn_repeat by lia. rewrite zn_map_zrange by lia.
      unfold off, cat, crow, ks. rewrite flat_map_nil by reflexivity. reflexivity.
  - remember (e0 :: l0) as l eqn:El'. clear El El' e0 l0 H M.
    rewrite !vec_ok by lia. cbn [bind]. rewrite (pass1 rows cols l Hr Hs). cbn [bind].
    assert (Eip : partial_sum (pass1_ip rows l) = map (off (crow l)) (zrange 0 (rows + 1))).
    { rewrite <- partial_sum_rows by lia. unfold pass1_ip. do 2 f_equal. apply map_ext. intros i. now rewrite zlen_crow. }
    rewrite Eip. rewrite zlen_map_zrange by lia. replace (rows + 1 - 1) with rows by lia.
    rewrite (get_ok 0) by (rewrite zlen_map_zrange by lia; lia). cbn [bind]. rewrite zn_map_zrange by lia.
    pose proof (off_nonneg (crow l) rows). rewrite !vec_ok by lia. cbn [bind].
    assert (Hin : forall e, In e l -> 0 <= erow e < rows /\ 0 <= ecol e < cols).
    { unfold in_shape in Hs. rewrite Forall_forall in Hs. exact Hs. }
    assert (Hslot : forall e, In e l -> 0 <= slot l e < off (crow l) rows).
    { intros e He. destruct (slot_spec l e He) as (t & _ & -> & Ht & _). pose proof (off_nonneg (crow l) (erow e)).
      destruct (Hin e He) as (Hre & _).
      pose proof (off_mono (crow l) (erow e + 1) rows ltac:(lia)) as H1. rewrite off_succ in H1 by lia. lia. }
    set (n := off (crow l) rows) in *.
    destruct (scatter 0 (slot l) (fun _ e => ecol e) (fun ix e => if existsb (fun x => (slot l x =? slot l e)) l then set ix (slot l e) (ecol e) else Fail FUB) l (repeat 0 (Z.to_nat n))) as (ix & Eix & Lix & Vix).
    { intros e He. rewrite zlen_repeat. specialize (Hslot e He). lia. }
    { intros e o He Ho. rewrite zlen_repeat in Ho. specialize (Hslot e He).
      assert (Hex : existsb (fun x => slot l x =? slot l e) l = true) by (apply existsb_exists; exists e; split; [exact He|apply Z.eqb_refl]).
      rewrite Hex. apply set_ok. lia. }
    destruct (scatter s0 (slot l) (fun o e => sadd o (evalue e)) (fun d e => o <- get d (slot l e) ;; set d (slot l e) (sadd o (evalue e))) l (repeat s0 (Z.to_nat n))) as (d & Ed & Ld & Vd).
    { intros e He. rewrite zlen_repeat. specialize (Hslot e He). lia. }
    { intros e o He Ho. rewrite zlen_repeat in Ho. specialize (Hslot e He). rewrite (get_ok s0) by lia. cbn [bind]. apply set_ok. lia. }
    assert (Efold : foldM (fun (st : list Z * list T) (e : entry S) =>
          let (ix, d) := st in
          p <- get (map (off (crow l)) (zrange 0 (rows + 1))) (erow e) ;; m <- get (pass1_im rows l) (erow e) ;; q <- umap_at m (ecol e) ;;
          ix <- set ix (p + q) (ecol e) ;;
          o <- get d (p + q) ;; d <- set d (p + q) (sadd o (evalue e)) ;;
          Ok (ix, d)) l (repeat 0 (Z.to_nat n), repeat s0 (Z.to_nat n)) = Ok (ix, d)).
    { assert (G : forall L, incl L l -> forall a b, 
         foldM (fun (st : list Z * list T) (e : entry S) =>
          let (ix, d) := st in
          p <- get (map (off (crow l)) (zrange 0 (rows + 1))) (erow e) ;; m <- get (pass1_im rows l) (erow e) ;; q <- umap_at m (ecol e) ;;
          ix <- set ix (p + q) (ecol e) ;;
          o <- get d (p + q) ;; d <- set d (p + q) (sadd o (evalue e)) ;;
          Ok (ix, d)) L (a, b) =
         foldM (fun (st : list Z * list T) (e : entry S) =>
          ix1 <- (if existsb (fun x => (slot l x =? slot l e)) l then set (fst st) (slot l e) (ecol e) else Fail FUB) ;;
          d1 <- (o <- get (snd st) (slot l e) ;; set (snd st) (slot l e) (sadd o (evalue e))) ;; Ok (ix1, d1)) L (a, b)).
      { intros L HL. induction L as [|e L IH]; intros a b; [reflexivity|]. cbn [foldM fst snd].
        assert (He : In e l) by (apply HL; now left). destruct (Hin e He) as (Hre & Hce).
        rewrite (get_ok 0) by (rewrite zlen_map_zrange by lia; lia). cbn [bind]. rewrite zn_map_zrange by lia.
        rewrite (get_ok ([] : umap)) by (unfold pass1_im; rewrite zlen_map_zrange by lia; lia). cbn [bind]. unfold pass1_im. rewrite zn_map_zrange by lia. fold (pass1_im rows l).
        unfold umap_at. destruct (slot_spec l e He) as (t & -> & Esl & _ & _). cbn [bind]. rewrite <- Esl.
        assert (Hex : existsb (fun x => slot l x =? slot l e) l = true) by (apply existsb_exists; exists e; split; [exact He|apply Z.eqb_refl]).
        rewrite Hex. destruct (set a (slot l e) (ecol e)) as [a1|]; cbn [bind]; [|reflexivity].
        destruct (get b (slot l e)) as [o|]; cbn [bind]; [|reflexivity].
        destruct (set b (slot l e) (sadd o (evalue e))) as [b1|]; cbn [bind]; [|reflexivity].
        apply IH. intros x Hx. apply HL. now right. }
      rewrite G by (intros x Hx; exact Hx). eapply foldM_pair; [|exact Eix|exact Ed]. reflexivity. }
    rewrite Efold. cbn [bind]. assert (En : zlen (repeat 0 (Z.to_nat n)) = n) by (rewrite zlen_repeat; lia). assert (En0 : zlen (repeat (@s0 S) (Z.to_nat n)) = n) by (rewrite zlen_repeat; lia). rewrite En in Lix, Vix. rewrite En0 in Ld, Vd.
    assert (Hkey : forall i t, 0 <= i < rows -> 0 <= t < zlen (crow l i) ->
              filter (fun e => slot l e =? off (crow l) i + t) l = filter (at_pos i (zn 0 (ks l i) t)) l).
    { intros i t Hi Ht. apply filter_ext_in. intros e He. now apply (slot_inv rows cols). }
    assert (Hpos : forall i t, 0 <= i < rows -> 0 <= t < zlen (crow l i) -> 0 <= off (crow l) i + t < n).
    { intros i t Hi Ht. pose proof (off_nonneg (crow l) i). pose proof (off_mono (crow l) (i + 1) rows ltac:(lia)) as H1. rewrite off_succ in H1 by lia. unfold n. lia. }
    apply sp_make_rows; [lia|lia| |reflexivity| |].
    + intros i p Hi Hp. unfold crow in Hp. apply in_map_iff in Hp. destruct Hp as (c & <- & Hk). cbn.
      apply In_ks in Hk. destruct Hk as (e & He & _ & <-). now apply Hin.
    + rewrite map_cat. apply (cat_ext_zn 0); [lia| |].
      * rewrite off_map. fold n. lia.
      * intros i t Hi Ht. rewrite zlen_map in Ht. rewrite off_map. rewrite Vix by (apply Hpos; auto).
        rewrite Hkey by auto.
        assert (Ek : map fst (crow l i) = ks l i) by (unfold crow; rewrite map_map; cbn; apply map_id). rewrite Ek.
        assert (Hk : In (zn 0 (ks l i) t) (ks l i)) by (apply zn_In; rewrite <- zlen_crow; exact Ht).
        apply In_ks in Hk. destruct Hk as (e & He & Ee1 & Ee2).
        rewrite (fold_left_snd ecol _ _) with (x := e); [exact Ee2| | |].
        -- intros E. assert (In e []) as []. rewrite <- E. apply filter_In. split; [exact He|]. unfold at_pos. now rewrite Ee1, Ee2, !Z.eqb_refl.
        -- intros x y Hx Hy. apply filter_In in Hx, Hy. destruct Hx as (_ & Hx), Hy as (_ & Hy). unfold at_pos in *.
           apply andb_true_iff in Hx, Hy. destruct Hx as (_ & Hx), Hy as (_ & Hy). apply Z.eqb_eq in Hx, Hy. congruence.
        -- apply filter_In. split; [exact He|]. unfold at_pos. now rewrite Ee1, Ee2, !Z.eqb_refl.
    + rewrite map_cat. apply (cat_ext_zn s0); [lia| |].
      * rewrite off_map. fold n. lia.
      * intros i t Hi Ht. rewrite zlen_map in Ht. rewrite off_map. rewrite Vd by (apply Hpos; auto).
        rewrite Hkey by auto. rewrite zn_repeat by (pose proof (Hpos i t Hi Ht); lia).
        rewrite (zn_map (0, s0)) by exact Ht. unfold crow. rewrite (zn_map 0) by (rewrite <- zlen_crow; exact Ht). reflexivity.
Qed.

End CooProofs.
