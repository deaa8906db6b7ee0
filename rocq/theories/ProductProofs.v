(** The two-pass sparse matrix product. *)

From Coq Require Import ZArith List Lia Bool Permutation.
From Verif Require Import Base Scalar Spec Dense Sparse LoopFacts CsrFacts SumFacts Rows Accum SparseProofs.
Import ListNotations.
Open Scope Z_scope.

Section Product.
Context {S : scalar}.
Notation T := (car S).
Implicit Types (A B : csr S).

(** The products contributing to row i, in the order they are formed. *)
Definition prods (A B : csr S) (i : Z) : list (Z * T) :=
  flat_map (fun e => map (fun p => (fst p, smul (evalue e) (snd p))) (row_of B (ecol e))) (row_entries A i).

Definition keep (v : T) : T := v.
Definition prod_row (A B : csr S) (i : Z) : list (Z * T) := acc sadd keep (prods A B i).

Lemma prods_loop {St} A B i (st : St) body g :
  csr_valid A -> csr_valid B -> c_rows B = c_cols A -> 0 <= i < c_rows A ->
  (forall j k st, 0 <= j < nnz A -> 0 <= k < nnz B -> body j k st = g st (idx B k, smul (val A j) (val B k))) ->
  for_ (ptr A i) (ptr A (i + 1)) st (fun j st =>
     c <- get (c_idx A) j ;;
     lo2 <- get (c_ptr B) c ;; hi2 <- get (c_ptr B) (c + 1) ;;
     for_ lo2 hi2 st (fun k st => body j k st)) = foldM g (prods A B i) st.
Proof.
  intros VA VB Hs Hi Hb. unfold prods. rewrite foldM_flat_map.
  apply (row_loop A i st _ (fun s x => foldM g (map (fun p => (fst p, smul (evalue x) (snd p))) (row_of B (ecol x))) s) VA Hi).
  intros j s Hj. apply position_bounds in Hj; auto. destruct Hj as (_ & Hj).
  rewrite get_idx by auto. cbn [bind]. pose proof (idx_bounds A j VA Hj).
  rewrite !get_ptr by (auto; lia). cbn [bind]. cbn. rewrite foldM_map.
  unfold row_of. rewrite foldM_map. unfold for_. apply foldM_ext. intros s' k Hk.
  apply In_zrange in Hk. cbn. apply Hb; [exact Hj|].
  assert (Hp : In (idx A j, k) (positions B)) by (apply In_positions; split; [lia|exact Hk]).
  apply position_bounds in Hp; tauto.
Qed.

Lemma prods_cols A B i p :
  csr_valid A -> csr_valid B -> c_rows B = c_cols A -> 0 <= i < c_rows A ->
  In p (prods A B i) -> 0 <= fst p < c_cols B.
Proof.
  intros VA VB Hs Hi Hp. unfold prods in Hp. apply in_flat_map in Hp. destruct Hp as (e & He & Hp).
  unfold row_entries in He. apply in_map_iff in He. destruct He as (j & <- & Hj). apply In_zrange in Hj.
  cbn in Hp. apply in_map_iff in Hp. destruct Hp as (q & <- & Hq). cbn.
  unfold row_of in Hq. apply in_map_iff in Hq. destruct Hq as (k & <- & Hk). apply In_zrange in Hk. cbn.
  assert (Hpj : In (i, j) (positions A)) by (apply In_positions; auto).
  apply position_bounds in Hpj; auto. pose proof (idx_bounds A j VA ltac:(tauto)).
  assert (Hpk : In (idx A j, k) (positions B)) by (apply In_positions; split; [lia|exact Hk]).
  apply position_bounds in Hpk; auto. apply idx_bounds; tauto.
Qed.

(** One row of the counting pass. *)
Lemma count_row i (cols : list (Z * T)) (marker : list Z) n :
  (forall p, In p cols -> 0 <= fst p < zlen marker) ->
  (forall c, 0 <= c < zlen marker -> zn 0 marker c < i) ->
  exists marker',
    foldM (fun (st : list Z * Z) p => let (marker, n) := st in
             m <- get marker (fst p) ;;
             if m =? i then Ok (marker, n) else marker <- set marker (fst p) i ;; Ok (marker, n + 1)) cols (marker, n)
    = Ok (marker', n + zlen (keys (map fst cols))) /\ zlen marker' = zlen marker /\
    (forall c, 0 <= c < zlen marker -> zn 0 marker' c <= i).
Proof.
  intros Hc Hm.
  set (body := fun (st : list Z * Z) (p : Z * T) => _).
  assert (H : returns (foldM body cols (marker, n)) (fun st => exists m', st = (m', n + zlen (keys (map fst cols))) /\
     zlen m' = zlen marker /\ (forall c, 0 <= c < zlen marker -> zn 0 m' c <= i))).
  2:{ apply returns_exists in H. destruct H as (st & E & m' & -> & Hl & Hv). exists m'. auto. }
  apply (returns_foldM (fun pre st => zlen (fst st) = zlen marker /\ snd st = n + zlen (keys (map fst pre)) /\
    (forall c, 0 <= c < zlen marker -> if existsb (Z.eqb c) (map fst pre) then zn 0 (fst st) c = i else zn 0 (fst st) c < i))).
  - cbn. rewrite zlen_nil. repeat split; [lia|exact Hm].
  - intros pre [c v] post [mk k] E (Hl & Hk & Hv). cbn in Hl, Hk, Hv.
    assert (Hcr : 0 <= c < zlen marker).
    { apply (Hc (c, v)). rewrite E. apply in_elt. }
    unfold body. cbn [fst]. rewrite (get_ok 0) by lia. cbn [bind].
    rewrite map_app. cbn [map fst]. rewrite keys_snoc.
    pose proof (Hv c Hcr) as Hvc.
    destruct (existsb (Z.eqb c) (map fst pre)) eqn:Ex.
    + rewrite Hvc, Z.eqb_refl. cbn. split; [exact Hl|].
      assert (Hk' : existsb (Z.eqb c) (keys (map fst pre)) = true).
      { apply existsb_In. apply keys_In. now apply existsb_In. }
      rewrite Hk'. split; [exact Hk|]. intros c' Hc'. rewrite existsb_app. cbn. rewrite orb_false_r.
      specialize (Hv c' Hc'). destruct (existsb (Z.eqb c') (map fst pre)) eqn:E'; cbn; [exact Hv|].
      destruct (Z.eqb_spec c' c) as [->|]; [congruence|exact Hv].
    + destruct (Z.eqb_spec (zn 0 mk c) i) as [|_]; [lia|]. rewrite set_ok by lia. cbn.
      rewrite zlen_upd. split; [exact Hl|].
      assert (Hk' : existsb (Z.eqb c) (keys (map fst pre)) = false).
      { apply existsb_not_In. rewrite keys_In. now apply existsb_not_In. }
      rewrite Hk', zlen_app, zlen_cons, zlen_nil. split; [lia|]. intros c' Hc'.
      rewrite existsb_app. cbn. rewrite orb_false_r. rewrite zn_upd by lia.
      specialize (Hv c' Hc'). destruct (Z.eqb_spec c' c) as [->|].
      * rewrite orb_true_r. reflexivity.
      * rewrite orb_false_r. exact Hv.
  - intros [mk k] (Hl & Hk & Hv). cbn in *. exists mk. subst k. split; [reflexivity|].
    split; [exact Hl|]. intros c Hc'. specialize (Hv c Hc').
    destruct (existsb (Z.eqb c) (map fst cols)); lia.
Qed.

(** One row of the numeric pass. *)
Definition num_step (row_nnz : Z) (st : list Z * list Z * list T * Z) (p : Z * T) :
    res (list Z * list Z * list T * Z) :=
  let '(marker, ix, d, total) := st in
  m <- get marker (fst p) ;;
  if m <? row_nnz
  then marker <- set marker (fst p) total ;;
       ix <- set ix total (fst p) ;;
       d <- set d total (snd p) ;;
       Ok (marker, ix, d, total + 1)
  else o <- get d m ;; d <- set d m (sadd o (snd p)) ;; Ok (marker, ix, d, total).

Lemma num_row (row : list (Z * T)) (marker ix : list Z) (d : list T) base :
  0 <= base ->
  (forall p, In p row -> 0 <= fst p < zlen marker) ->
  (forall c, 0 <= c < zlen marker -> zn 0 marker c < base) ->
  zlen ix = zlen d -> base + zlen (acc sadd keep row) <= zlen ix ->
  returns (foldM (num_step base) row (marker, ix, d, base)) (fun st => let '(marker', ix', d', total) := st in
    total = base + zlen (acc sadd keep row) /\
    zlen marker' = zlen marker /\ zlen ix' = zlen ix /\ zlen d' = zlen d /\
    (forall c, 0 <= c < zlen marker -> zn 0 marker' c < total) /\
    (forall k, 0 <= k < base -> zn 0 ix' k = zn 0 ix k /\ zn s0 d' k = zn s0 d k) /\
    (forall t, 0 <= t < zlen (acc sadd keep row) ->
       zn 0 ix' (base + t) = fst (zn (0, s0) (acc sadd keep row) t) /\
       zn s0 d' (base + t) = snd (zn (0, s0) (acc sadd keep row) t))).
Proof.
  intros Hb0 Hc Hm Hld Hcap.
  apply (returns_foldM (fun pre st => let '(marker', ix', d', total) := st in
    let a := acc sadd keep pre in
    total = base + zlen a /\
    zlen marker' = zlen marker /\ zlen ix' = zlen ix /\ zlen d' = zlen d /\
    (forall c, 0 <= c < zlen marker -> ~ In c (map fst a) -> zn 0 marker' c < base) /\
    (forall t, 0 <= t < zlen a -> zn 0 marker' (fst (zn (0, s0) a t)) = base + t) /\
    (forall k, 0 <= k < base -> zn 0 ix' k = zn 0 ix k /\ zn s0 d' k = zn s0 d k) /\
    (forall t, 0 <= t < zlen a ->
       zn 0 ix' (base + t) = fst (zn (0, s0) a t) /\ zn s0 d' (base + t) = snd (zn (0, s0) a t)))).
  - cbn. rewrite zlen_nil. repeat split; auto; try lia.
  - intros pre [c v] post [[[mk ix'] d'] total] E H. cbn zeta in H.
    set (a := acc sadd keep pre) in *. destruct H as (Ht & Hlm & Hlx & Hld' & Hnew & Hold & Hlow & Hval).
    assert (Hcr : 0 <= c < zlen marker) by (apply (Hc (c, v)); rewrite E; apply in_elt).
    assert (Hcap' : base + zlen (acc sadd keep (pre ++ [(c, v)])) <= zlen ix).
    { etransitivity; [|exact Hcap]. apply Z.add_le_mono_l. rewrite E.
      replace (pre ++ (c, v) :: post) with ((pre ++ [(c, v)]) ++ post) by (rewrite <- app_assoc; reflexivity).
      apply acc_app_len. }
    rewrite acc_snoc in *. fold a in Hcap' |- *.
    pose proof (acc_NoDup sadd keep pre) as Hnd. fold a in Hnd.
    pose proof (zlen_nonneg a) as Hza.
    unfold num_step. cbn [fst snd]. rewrite (get_ok 0) by lia. cbn [bind].
    destruct (in_dec Z.eq_dec c (map fst a)) as [Hin|Hnin].
    + destruct (acc_add_old sadd keep a c v (0, s0) Hin) as (t & Htr & Hft & Eacc).
      pose proof (Hold t Htr) as Hmk. rewrite Hft in Hmk. rewrite Hmk.
      destruct (Z.ltb_spec (base + t) base); [lia|]. rewrite Eacc, zlen_upd in Hcap'.
      rewrite (get_ok s0) by lia. cbn [bind]. rewrite set_ok by lia. cbn [bind returns].
      rewrite Eacc, !zlen_upd.
      assert (Hkeys : map fst (upd a (Z.to_nat t) (c, sadd (snd (zn (0, s0) a t)) v)) = map fst a).
      { rewrite <- Eacc, acc_add_keys. apply existsb_In in Hin. now rewrite Hin. }
      assert (Hfst : forall u, 0 <= u < zlen a ->
        fst (zn (0, s0) (upd a (Z.to_nat t) (c, sadd (snd (zn (0, s0) a t)) v)) u) = fst (zn (0, s0) a u)).
      { intros u Hu. rewrite zn_upd by lia. destruct (Z.eqb_spec u t) as [->|]; [now rewrite Hft|reflexivity]. }
      do 4 (split; [assumption|]). rewrite Hkeys.
      split; [exact Hnew|]. split; [intros u Hu; rewrite Hfst by exact Hu; now apply Hold|].
      split.
      * intros k Hk. rewrite zn_upd by lia. destruct (Z.eqb_spec k (base + t)); [lia|]. now apply Hlow.
      * intros u Hu. rewrite Hfst by exact Hu. destruct (Hval u Hu) as (H1 & H2). split; [exact H1|].
        rewrite !zn_upd by lia.
        destruct (Z.eqb_spec (base + u) (base + t)), (Z.eqb_spec u t); try lia; [|exact H2].
        cbn. destruct (Hval t Htr) as (_ & H3). now rewrite H3.
    + pose proof (Hnew c Hcr Hnin) as Hlt. destruct (Z.ltb_spec (zn 0 mk c) base) as [_|]; [|lia].
      rewrite acc_add_new in * by exact Hnin. rewrite zlen_app, zlen_cons, zlen_nil in *.
      do 3 (rewrite set_ok by lia; cbn [bind]). cbn [returns]. rewrite !zlen_upd.
      split; [lia|]. do 3 (split; [assumption|]).
      assert (Happ : forall u, 0 <= u < zlen a -> zn (0, s0) (a ++ [(c, keep v)]) u = zn (0, s0) a u) by (intros; now apply zn_app_l).
      assert (Hlast : zn (0, s0) (a ++ [(c, keep v)]) (zlen a) = (c, v)).
      { rewrite zn_app_r by lia. now rewrite Z.sub_diag. }
      assert (Hmem : forall u, 0 <= u < zlen a -> In (fst (zn (0, s0) a u)) (map fst a)) by (intros; apply in_map, zn_In; assumption).
      split.
      { intros c' Hc' Hn'. rewrite map_app, in_app_iff in Hn'. cbn in Hn'. rewrite zn_upd by lia.
        destruct (Z.eqb_spec c' c); [subst; tauto|]. apply Hnew; tauto. }
      split.
      { intros u Hu. destruct (Z.eq_dec u (zlen a)) as [->|].
        - rewrite Hlast. cbn. rewrite zn_upd by lia. rewrite Z.eqb_refl. lia.
        - rewrite Happ by lia. pose proof (Hmem u ltac:(lia)) as Hm'.
          rewrite zn_upd; [|lia|].
          + destruct (Z.eqb_spec (fst (zn (0, s0) a u)) c) as [Eq|]; [rewrite Eq in Hm'; tauto|]. apply Hold. lia.
          + unfold a in Hm' at 2. rewrite acc_In_keys in Hm'. apply in_map_iff in Hm'. destruct Hm' as (p & <- & Hp).
            apply (Hc p). rewrite E, in_app_iff. tauto. }
      split.
      { intros k Hk. rewrite !zn_upd by lia. destruct (Z.eqb_spec k total); [lia|]. now apply Hlow. }
      intros u Hu. rewrite !zn_upd by lia. destruct (Z.eq_dec u (zlen a)) as [->|].
      * rewrite Hlast. destruct (Z.eqb_spec (base + zlen a) total); [split; reflexivity|lia].
      * rewrite Happ by lia. destruct (Z.eqb_spec (base + u) total); [lia|]. apply Hval. lia.
  - intros [[[mk ix'] d'] total] (Ht & Hlm & Hlx & Hld' & Hnew & Hold & Hlow & Hval).
    do 4 (split; [assumption|]). split; [|split; assumption].
    intros c Hcr. destruct (in_dec Z.eq_dec c (map fst (acc sadd keep row))) as [Hin|Hnin].
    + apply in_map_iff in Hin. destruct Hin as (p & <- & Hp).
      destruct (In_zn (0, s0) _ _ Hp) as (t & Htr & <-). rewrite Hold by exact Htr. lia.
    + specialize (Hnew c Hcr Hnin). pose proof (zlen_nonneg (acc sadd keep row)). lia.
Qed.

Lemma sp_spmult_rows A B marker :
  csr_valid A -> csr_valid B -> c_rows B = c_cols A ->
  sp_spmult_marker A B marker = Ok (csr_of_rows (c_rows A) (c_cols B) (prod_row A B)).
Proof.
  intros VA VB Hs. unfold sp_spmult_marker. rewrite Hs, Z.eqb_refl. cbn [assert_ bind].
  pose proof (cv_rows VA) as Hr. pose proof (cv_cols VB) as Hc.
  set (rows := prod_row A B). set (marker0 := repeat (-1) (Z.to_nat (c_cols B))).
  assert (Lm0 : zlen marker0 = c_cols B) by (unfold marker0; rewrite zlen_repeat; lia).
  assert (Vm0 : forall c, 0 <= c < c_cols B -> zn 0 marker0 c = -1).
  { intros c Hc'. unfold marker0. apply zn_repeat. lia. }
  clearbody marker0. clear marker.
  rewrite vec_ok by lia. cbn [bind]. rewrite set_ok by (rewrite zlen_repeat; lia). cbn [bind].
  set (ip0 := upd _ _ _). assert (Lip0 : zlen ip0 = c_rows A + 1) by (unfold ip0; rewrite zlen_upd, zlen_repeat; lia).
  assert (Vip0 : zn 0 ip0 0 = 0) by (unfold ip0; rewrite zn_upd by (rewrite ?zlen_repeat; lia); reflexivity).
  clearbody ip0.
  apply res_of_returns. apply returns_bind.
  apply (returns_for (fun i st => let '(mk, ip, n) := st in
    zlen mk = c_cols B /\ (forall c, 0 <= c < c_cols B -> zn 0 mk c < i) /\
    zlen ip = c_rows A + 1 /\ n = off rows i /\ (forall j, 0 <= j <= i -> zn 0 ip j = off rows j))).
  { exact Hr. }
  { split; [exact Lm0|]. split; [intros c Hc'; rewrite Vm0 by exact Hc'; lia|]. split; [exact Lip0|].
    split; [reflexivity|]. intros j Hj. replace j with 0 by lia. exact Vip0. }
  { intros i [[mk ip] n] Hi (Hl & Hv & Hlip & Hn & Hip).
    rewrite !get_ptr by (auto; lia). cbn [bind].
    rewrite (prods_loop A B i (mk, n) _ (fun st p => let (marker, n) := st in
             m <- get marker (fst p) ;;
             if m =? i then Ok (marker, n) else marker <- set marker (fst p) i ;; Ok (marker, n + 1))); auto.
    2:{ intros j k [mk' n'] Hj Hk. rewrite get_idx by auto. reflexivity. }
    destruct (count_row i (prods A B i) mk n) as (mk' & -> & Hl' & Hv').
    { intros p Hp. rewrite Hl. apply (prods_cols A B i p); auto. }
    { intros c Hc'. apply Hv. lia. }
    cbn [bind]. rewrite set_ok by lia. cbn [bind returns]. rewrite zlen_upd.
    split; [lia|]. split; [intros c Hc'; specialize (Hv' c ltac:(lia)); lia|]. split; [exact Hlip|].
    assert (Hk : zlen (keys (map fst (prods A B i))) = zlen (rows i)).
    { unfold rows, prod_row. rewrite <- (acc_keys sadd keep). apply zlen_map. }
    split; [rewrite off_succ by lia; lia|]. intros j Hj. rewrite zn_upd by lia.
    destruct (Z.eqb_spec j (i + 1)) as [->|]; [rewrite off_succ by lia; lia|]. apply Hip. lia. }
  intros [[mk1 ip1] n1] (Lm1 & _ & Lip1 & -> & Hip1).
  pose proof (off_nonneg rows (c_rows A)) as Hoff.
  rewrite !vec_ok by lia. cbn [bind]. apply returns_bind.
  apply (returns_for (fun i st => let '(mk, ix, d, total) := st in
    total = off rows i /\ zlen mk = c_cols B /\ zlen ix = off rows (c_rows A) /\ zlen d = off rows (c_rows A) /\
    (forall c, 0 <= c < c_cols B -> zn 0 mk c < total) /\
    (forall j t, 0 <= j < i -> 0 <= t < zlen (rows j) ->
       zn 0 ix (off rows j + t) = fst (zn (0, s0) (rows j) t) /\
       zn s0 d (off rows j + t) = snd (zn (0, s0) (rows j) t)))).
  { exact Hr. }
  { split; [reflexivity|]. rewrite zlen_map, !zlen_repeat. split; [exact Lm1|]. split; [lia|]. split; [lia|].
    split; [|intros; lia]. intros c Hc'. rewrite zn_map_const by lia. lia. }
  { intros i [[[mk ix] d] total] Hi (Ht & Hl & Hlx & Hld & Hv & Hval).
    cbn [snd]. rewrite !get_ptr by (auto; lia). cbn [bind].
    rewrite (prods_loop A B i (mk, ix, d, total) _ (num_step total)); auto.
    2:{ intros j k [[[mk' ix'] d'] t'] Hj Hk. rewrite get_idx by auto. cbn [bind]. unfold num_step. cbn [fst snd].
        rewrite !get_val by auto. cbn [bind]. reflexivity. }
    pose proof (off_nonneg rows i) as Hoi.
    pose proof (off_mono rows (i + 1) (c_rows A) ltac:(lia)) as Hmono. rewrite off_succ in Hmono by lia.
    eapply returns_weaken; [apply num_row|].
    - lia.
    - intros p Hp. rewrite Hl. apply (prods_cols A B i p); auto.
    - intros c Hc'. apply Hv. lia.
    - lia.
    - change (acc sadd keep (prods A B i)) with (rows i). lia.
    - intros [[[mk' ix'] d'] t'] (Ht' & Hl' & Hlx' & Hld' & Hv' & Hlow & Hhi).
      change (acc sadd keep (prods A B i)) with (rows i) in Ht', Hhi.
      split; [rewrite off_succ by lia; lia|]. do 3 (split; [lia|]). split; [intros; apply Hv'; lia|].
      intros j t Hj Ht0. destruct (Z.eq_dec j i) as [->|].
      + rewrite <- Ht. apply Hhi. exact Ht0.
      + pose proof (off_mono rows (j + 1) i ltac:(lia)) as Hm. rewrite off_succ in Hm by lia.
        pose proof (off_nonneg rows j).
        destruct (Hlow (off rows j + t) ltac:(lia)) as (-> & ->). apply Hval; lia. }
  intros [[[mk2 ix2] d2] t2] (_ & _ & Lx2 & Ld2 & _ & Hval).
  rewrite (sp_make_rows (c_rows A) (c_cols B) rows); [reflexivity|lia|lia| | | | ].
  - intros i p Hi Hp. assert (Hk : In (fst p) (map fst (rows i))) by (apply in_map; exact Hp).
    unfold rows, prod_row in Hk. rewrite acc_In_keys in Hk. apply in_map_iff in Hk.
    destruct Hk as (q & <- & Hq). apply (prods_cols A B i q); auto.
  - apply (list_ext 0).
    + rewrite zlen_map_zrange by lia. exact Lip1.
    + intros i Hi. rewrite zn_map_zrange by lia. apply Hip1. lia.
  - rewrite map_cat. apply (cat_ext_zn 0); [lia|rewrite off_map; lia|].
    intros i t Hi Ht. rewrite off_map. rewrite zlen_map in Ht.
    rewrite (zn_map (0, s0)) by exact Ht. apply Hval; auto.
  - rewrite map_cat. apply (cat_ext_zn s0); [lia|rewrite off_map; lia|].
    intros i t Hi Ht. rewrite off_map. rewrite zlen_map in Ht.
    rewrite (zn_map (0, s0)) by exact Ht. apply Hval; auto.
Qed.

Lemma sp_spmult_eq A B : 
  csr_valid A -> csr_valid B -> c_rows B = c_cols A ->
  sp_spmult A B = Ok (csr_of_rows (c_rows A) (c_cols B) (prod_row A B)).
Proof.
  intros VA VB Hs. unfold sp_spmult. rewrite vec_ok by apply (cv_cols VB). cbn [bind].
  now apply sp_spmult_rows.
Qed.

End Product.

Section ProductRing.
Context {S : scalar}.
Hypothesis R : ring_laws S.
Notation T := (car S).
Implicit Types (A B : csr S).

Lemma mat_of_row_to_entries i (l : list (Z * T)) i' j :
  mat_of (row_to_entries i l) i' j = if i =? i' then key_sum l j else s0.
Proof.
  rewrite mat_of_if by exact R. unfold row_to_entries. rewrite map_map. unfold at_pos. cbn.
  destruct (Z.eqb_spec i i'); cbn; [reflexivity|]. apply sum_map_0; [exact R|reflexivity].
Qed.

Lemma csr_of_rows_mat rows cols (f : Z -> list (Z * T)) i j :
  0 <= i < rows -> csr_mat (csr_of_rows rows cols f) i j = key_sum (f i) j.
Proof.
  intros Hi. unfold csr_mat. rewrite csr_of_rows_entries, mat_of_flat_map by exact R.
  rewrite (sum_map_ext _ (fun k => if k =? i then key_sum (f k) j else s0)).
  - apply (sum_range_delta R 0 rows i (fun k => key_sum (f k) j) Hi).
  - intros k _. apply mat_of_row_to_entries.
Qed.

Lemma key_sum_row_of A i j : csr_valid A -> 0 <= i < c_rows A -> key_sum (row_of A i) j = csr_mat A i j.
Proof. intros V Hi. rewrite (csr_eta A V) at 2. now rewrite csr_of_rows_mat. Qed.

Lemma prods_sum A B i j :
  csr_valid A -> csr_valid B -> c_rows B = c_cols A -> 0 <= i < c_rows A ->
  key_sum (prods A B i) j = mat_mul (csr_mat A) (csr_mat B) (c_cols A) i j.
Proof.
  intros VA VB Hs Hi. unfold prods, key_sum. rewrite sum_flat_map by exact R.
  rewrite (sum_map_ext _ (fun e => smul (evalue e) (csr_mat B (ecol e) j))).
  - rewrite <- filter_row_entries by auto. unfold csr_mat at 1.
    rewrite (sum_entries_row_filter R (c_cols A) (entries A) i (fun k => mat_of (entries B) k j)).
    + reflexivity.
    + intros e He _. pose proof (entries_in_shape A VA) as Sh. unfold in_shape in Sh.
      rewrite Forall_forall in Sh. apply Sh in He. tauto.
  - intros e He. rewrite map_map. cbn.
    assert (Hc : 0 <= ecol e < c_rows B).
    { rewrite <- filter_row_entries in He by auto. apply filter_In in He. destruct He as (He & _).
      pose proof (entries_in_shape A VA) as Sh. unfold in_shape in Sh. rewrite Forall_forall in Sh.
      apply Sh in He. rewrite Hs. tauto. }
    rewrite <- key_sum_row_of by auto. unfold key_sum. rewrite <- sum_map_scale by exact R.
    apply sum_map_ext. intros p _. destruct (fst p =? j); [reflexivity|]. now rewrite smul_0_r by exact R.
Qed.

Lemma row_to_entries_no_dup (f : Z -> list (Z * T)) rows :
  (forall i, 0 <= i < rows -> NoDup (map fst (f i))) ->
  no_dup_coords (flat_map (fun i => row_to_entries i (f i)) (zrange 0 rows)).
Proof.
  intros H. unfold no_dup_coords. rewrite map_flat_map.
  assert (Hz : forall lo, 0 <= lo -> NoDup (flat_map (fun i => map fst (row_to_entries i (f i))) (zrange lo rows))).
  2: { apply Hz. lia. }
  intros lo Hlo. remember (Z.to_nat (rows - lo)) as n eqn:En. revert lo Hlo En.
  induction n; intros lo Hlo En.
  - rewrite zrange_empty by lia. constructor.
  - rewrite zrange_cons by lia. cbn [flat_map].
    assert (Hm : forall k, map fst (row_to_entries k (f k)) = map (fun c => (k, c)) (map fst (f k))).
    { intros k. unfold row_to_entries. rewrite !map_map. reflexivity. }
    rewrite Hm. specialize (IHn (lo + 1) ltac:(lia) ltac:(lia)).
    assert (Hd : NoDup (map (fun c => (lo, c)) (map fst (f lo)))).
    { apply FinFun.Injective_map_NoDup; [|apply H; lia]. intros a b E. congruence. }
    assert (Hdis : forall a, In a (map (fun c => (lo, c)) (map fst (f lo))) ->
       ~ In a (flat_map (fun i => map fst (row_to_entries i (f i))) (zrange (lo + 1) rows))).
    { intros a Ha Hb. apply in_map_iff in Ha. destruct Ha as (c & <- & _). apply in_flat_map in Hb.
      destruct Hb as (k & Hk & Hb). apply In_zrange in Hk. rewrite Hm in Hb. apply in_map_iff in Hb.
      destruct Hb as (c' & E & _). injection E as E _. lia. }
    clear - Hd Hdis IHn. induction (map (fun c => (lo, c)) (map fst (f lo))) as [|a l IHl]; [exact IHn|].
    cbn. inversion Hd; subst. constructor.
    + rewrite in_app_iff. intros [|Hx]; [contradiction|]. apply (Hdis a); [left; reflexivity|exact Hx].
    + apply IHl; [assumption|]. intros b Hb. apply Hdis. right; exact Hb.
Qed.

Lemma sp_spmult_spec A B :
  csr_valid A -> csr_valid B -> c_rows B = c_cols A ->
  exists C, sp_spmult A B = Ok C /\ csr_valid C /\ c_rows C = c_rows A /\ c_cols C = c_cols B /\
    no_dup_coords (entries C) /\
    forall i j, 0 <= i < c_rows A -> csr_mat C i j = mat_mul (csr_mat A) (csr_mat B) (c_cols A) i j.
Proof.
  intros VA VB Hs. eexists. split; [now apply sp_spmult_eq|].
  split; [|split; [reflexivity|split; [reflexivity|split]]].
  - apply csr_of_rows_valid; [apply (cv_rows VA)|apply (cv_cols VB)|].
    intros i p Hi Hp. assert (Hk : In (fst p) (map fst (prod_row A B i))) by (apply in_map; exact Hp).
    unfold prod_row in Hk. rewrite acc_In_keys in Hk. apply in_map_iff in Hk.
    destruct Hk as (q & <- & Hq). apply (prods_cols A B i q); auto.
  - rewrite csr_of_rows_entries. apply row_to_entries_no_dup. intros i _. apply acc_NoDup.
  - intros i j Hi. rewrite csr_of_rows_mat by exact Hi. unfold prod_row.
    rewrite acc_sum by (auto; reflexivity). now apply prods_sum.
Qed.

End ProductRing.

Section ProductMore.
Context {S : scalar}.
Notation T := (car S).
Implicit Types (A B C : csr S).

Lemma In_fst {X Y} (l : list (X * Y)) c : (exists v, In (c, v) l) <-> In c (map fst l).
Proof.
  rewrite in_map_iff. split.
  - intros (v & H). exists (c, v). auto.
  - intros ([c' v] & <- & H). exists v. exact H.
Qed.

Lemma sp_spmult_safe A B :
  csr_valid A -> csr_valid B -> c_rows B = c_cols A ->
  exists C, sp_spmult A B = Ok C /\ csr_valid C /\ c_rows C = c_rows A /\ c_cols C = c_cols B /\
    no_dup_coords (entries C) /\
    forall i j, (exists v, In (i, j, v) (entries C)) <->
                (exists k v w, In (i, k, v) (entries A) /\ In (k, j, w) (entries B)).
Proof.
  intros VA VB Hs. eexists. split; [now apply sp_spmult_eq|].
  split; [|split; [reflexivity|split; [reflexivity|split]]].
  - apply csr_of_rows_valid; [apply (cv_rows VA)|apply (cv_cols VB)|].
    intros i p Hi Hp. assert (Hk : In (fst p) (map fst (prod_row A B i))) by (apply in_map; exact Hp).
    unfold prod_row in Hk. rewrite acc_In_keys in Hk. apply in_map_iff in Hk.
    destruct Hk as (q & <- & Hq). apply (prods_cols A B i q); auto.
  - rewrite csr_of_rows_entries. apply row_to_entries_no_dup. intros i _. apply acc_NoDup.
  - intros i j.
    assert (H1 : (exists v, In (i, j, v) (entries (csr_of_rows (c_rows A) (c_cols B) (prod_row A B))))
                 <-> 0 <= i < c_rows A /\ In j (map fst (prods A B i))).
    { transitivity (0 <= i < c_rows A /\ exists v, In (j, v) (prod_row A B i)).
      - split; [intros (v & H)|intros (Hi & v & H)].
        + apply In_csr_of_rows in H. split; [tauto|exists v; tauto].
        + exists v. apply In_csr_of_rows. auto.
      - rewrite In_fst. unfold prod_row. rewrite acc_In_keys. reflexivity. }
    rewrite H1. unfold prods. rewrite map_flat_map, in_flat_map. split.
    + intros (Hi & e & He & Hj). rewrite map_map in Hj. cbn in Hj. rewrite <- In_fst in Hj.
      destruct Hj as (w & Hw).
      assert (Hi2 : In e (entries A) /\ erow e = i) by (apply In_row_entries; auto).
      destruct e as [[r k] v]. cbn in *. destruct Hi2 as (Hi2 & ->).
      exists k, v, w. split; [exact Hi2|]. apply In_row_of; auto. split; [|exact Hw].
      pose proof (entries_in_shape A VA) as Sh. unfold in_shape in Sh. rewrite Forall_forall in Sh.
      apply Sh in Hi2. cbn in Hi2. lia.
    + intros (k & v & w & HA & HB).
      pose proof (proj2 (In_row_entries A i (i, k, v) VA) (conj HA eq_refl)) as (Hr & Hi).
      split; [exact Hi|]. exists (i, k, v). split; [exact Hr|]. rewrite map_map. cbn. apply In_fst.
      exists w. apply In_row_of in HB; tauto.
Qed.

Hypothesis R : ring_laws S.

Lemma sp_mult_inv A (x out y : list T) :
  sp_mult A x out = Ok y -> zlen x = c_cols A /\ zlen out = c_rows A.
Proof.
  unfold sp_mult. destruct (Z.eqb_spec (zlen x) (c_cols A)), (Z.eqb_spec (zlen out) (c_rows A)); cbn; try discriminate; auto.
Qed.

Lemma sp_spmult_compose A B C (x y z w o1 o2 o3 : list T) :
  csr_valid A -> csr_valid B -> sp_spmult A B = Ok C ->
  sp_mult B x o1 = Ok y -> sp_mult A y o2 = Ok z -> sp_mult C x o3 = Ok w -> w = z.
Proof.
  intros VA VB EC E1 E2 E3.
  destruct (sp_mult_inv _ _ _ _ E1) as (B1 & B2). destruct (sp_mult_inv _ _ _ _ E2) as (A1 & A2).
  destruct (sp_mult_inv _ _ _ _ E3) as (C1 & C2).
  destruct (sp_mult_spec R B x o1 VB B1 B2) as (y' & F1 & Ly & Hy). rewrite E1 in F1. injection F1 as <-.
  destruct (sp_mult_spec R A y o2 VA A1 A2) as (z' & F2 & Lz & Hz). rewrite E2 in F2. injection F2 as <-.
  destruct (sp_spmult_spec R A B VA VB ltac:(lia)) as (C' & F & VC & RC & CC & _ & HC).
  rewrite EC in F. injection F as <-.
  destruct (sp_mult_spec R C x o3 VC C1 C2) as (w' & F3 & Lw & Hw). rewrite E3 in F3. injection F3 as <-.
  apply (list_ext s0); [lia|]. intros i Hi. change (vec_of w i = vec_of z i).
  rewrite Hw, Hz by lia.
  rewrite (mat_vec_ext (csr_mat C) (mat_mul (csr_mat A) (csr_mat B) (c_cols A)) _ (vec_of x) (vec_of x)) by
    (intros; auto; apply HC; lia).
  rewrite mat_vec_mul by exact R. apply mat_vec_ext; [reflexivity|]. intros j Hj. rewrite CC. symmetry. apply Hy. lia.
Qed.

End ProductMore.
