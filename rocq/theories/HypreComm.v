(** The communication of ParMatrix::Transpose and its loops that do not sort. *)

From Coq Require Import ZArith List Bool Lia.
From Verif Require Import Base Scalar Spec Dense Sparse SumFacts LoopFacts CsrFacts Rows SortProofs CooMore Accum ProductProofs TransposeProofs Par ParSpec ParProofs ParSplitProofs HypreOps HypreSpec HypreExt HypreProofs HypreValue HypreTranspose HypreTransposeSpec HypreSort.
Import ListNotations.
Open Scope Z_scope.

(* ---------------------------------------------------------------- messages *)

Lemma index_of_ok l x : forall i j, NoDup l -> 0 <= i < zlen l -> zn 0 l i = x -> index_of l x j = Ok (j + i).
Proof.
  induction l as [|y l IH]; intros i j N Hi E; [change (zlen (@nil Z)) with 0 in Hi; lia|]. rewrite zlen_cons in Hi. cbn [index_of]. inversion_clear N as [|? ? Ny Nl].
  destruct (Z.eq_dec i 0) as [->|Ni]; [change (zn 0 (y :: l) 0) with y in E; subst; rewrite Z.eqb_refl; f_equal; lia|].
  rewrite zn_cons_pos in E by lia. destruct (Z.eqb_spec y x) as [->|_]; [exfalso; apply Ny; rewrite <- E; apply zn_In; lia|].
  rewrite (IH (i - 1)) by (auto; lia). f_equal. lia.
Qed.

Lemma slice_ok {V} (d : V) (l : list V) lo hi : 0 <= lo -> hi <= zlen l -> slice l lo hi = Ok (map (zn d l) (zrange lo hi)).
Proof.
  intros Hlo Hhi. unfold slice. rewrite (foldM_snoc_map (get l) (zn d l)); [reflexivity|]. intros x Hx. apply In_zrange in Hx. apply get_ok. lia.
Qed.

Lemma message_ok {V} (d : V) (rp rs : list (list Z)) (bufs : list (list V)) q r i : 0 <= q < zlen rp -> zlen rs = zlen rp -> zlen bufs = zlen rp ->
  NoDup (zn [] rp q) -> 0 <= i < zlen (zn [] rp q) -> zn 0 (zn [] rp q) i = r -> i + 1 < zlen (zn [] rs q) ->
  let lo := zn 0 (zn [] rs q) i in let hi := zn 0 (zn [] rs q) (i + 1) in let b := zn [] bufs q in
  0 <= lo -> hi <= zlen b -> message rp rs bufs q r = Ok (map (zn d b) (zrange lo hi)).
Proof.
  intros Hq L1 L2 N Hi E Hs lo hi b Hlo Hhi. unfold message. rewrite (get_ok []) by lia. cbn [bind]. rewrite (index_of_ok _ _ i 0 N Hi E). cbn [bind]. rewrite Z.add_0_l.
  rewrite (get_ok []) by lia. cbn [bind]. rewrite !(get_ok 0) by lia. cbn [bind]. rewrite (get_ok []) by lia. cbn [bind]. now apply slice_ok.
Qed.

Lemma receive_ok {V} (d : V) rp rs bufs sp ss r (msgs : Z -> list V) :
  (forall i, 0 <= i < zlen sp -> message rp rs bufs (zn 0 sp i) r = Ok (msgs i)) -> zlen ss = zlen sp + 1 -> (forall i, 0 <= i <= zlen sp -> zn 0 ss i = off msgs i) ->
  receive d rp rs bufs sp ss r = Ok (cat msgs (zlen sp)).
Proof.
  intros Hm Hl Hs. unfold receive. set (ns := zlen sp) in *. assert (Hns : 0 <= ns) by apply zlen_nonneg. rewrite (get_ok 0) by lia. cbn [bind]. rewrite Hs by lia. pose proof (off_nonneg msgs ns) as H0. rewrite vec_ok by lia. cbn [bind].
  apply res_of_returns. apply (returns_for (fun i buf => zlen buf = off msgs ns /\ forall x, 0 <= x < off msgs i -> zn d buf x = zn d (cat msgs ns) x)).
  - exact Hns.
  - rewrite zlen_repeat. split; [lia|]. intros x Hx. change (off msgs 0) with 0 in Hx. lia.
  - intros i buf Hi (Lb & Vb). rewrite (get_ok 0) by lia. cbn [bind]. rewrite Hm by exact Hi. cbn [bind]. rewrite !(get_ok 0) by lia. cbn [bind]. rewrite !Hs by lia. rewrite off_succ by lia.
    destruct (Z.eqb_spec (zlen (msgs i)) (off msgs i + zlen (msgs i) - off msgs i)); [|lia]. pose proof (off_nonneg msgs i) as Hi0.
    assert (Hb : off msgs i + zlen (msgs i) <= off msgs ns) by (rewrite <- off_succ by lia; apply off_mono; lia).
    apply (returns_for (fun k b => zlen b = off msgs ns /\ forall x, 0 <= x < off msgs i + k -> zn d b x = zn d (cat msgs ns) x)).
    + apply zlen_nonneg.
    + split; [exact Lb|]. intros x Hx. apply Vb. lia.
    + intros k b Hk (L & Vk). rewrite (get_ok d) by lia. cbn [bind]. apply returns_set; [lia|]. rewrite zlen_upd. split; [exact L|]. intros x Hx. rewrite zn_upd by lia.
      destruct (Z.eqb_spec x (off msgs i + k)) as [->|]; [symmetry; apply zn_cat; lia|]. apply Vk. lia.
    + intros b H. rewrite ?off_succ by lia. exact H.
  - intros buf (Lb & Vb). apply (list_ext d); [exact Lb|]. intros x Hx. apply Vb. lia.
Qed.

(* ---------------------------------------------------------------- slices of concatenations *)

Lemma cat_slice {X} (d : X) (f : Z -> list X) n lo hi : 0 <= lo <= hi -> hi <= n -> map (zn d (cat f n)) (zrange (off f lo) (off f hi)) = flat_map f (zrange lo hi).
Proof.
  intros Hlo Hhi. assert (E : cat f n = cat f lo ++ flat_map f (zrange lo hi) ++ flat_map f (zrange hi n)).
  { unfold cat. rewrite (zrange_app 0 lo n), (zrange_app lo hi n) by lia. now rewrite !flat_map_app. }
  assert (L : off f hi = off f lo + zlen (flat_map f (zrange lo hi))).
  { unfold off. rewrite <- zlen_app. f_equal. unfold cat. rewrite (zrange_app 0 lo hi) by lia. apply flat_map_app. }
  set (m := flat_map f (zrange lo hi)) in *. rewrite L, E. pose proof (zlen_nonneg m) as Hm. pose proof (off_nonneg f lo).
  apply (list_ext d); [rewrite zlen_map, zlen_zrange by lia; lia|]. intros x Hx. rewrite zlen_map, zlen_zrange in Hx by lia. rewrite (zn_map 0 d) by (rewrite zlen_zrange by lia; lia). rewrite zn_zrange by lia.
  rewrite zn_app_r by (fold (off f lo); lia). fold (off f lo). rewrite zn_app_l by lia. f_equal. lia.
Qed.

Lemma cat_segments {X} (g : Z -> X) st n total : 0 <= n -> segments st n total -> forall m, 0 <= m <= n ->
  cat (fun i => map g (zrange (zn 0 st i) (zn 0 st (i + 1)))) m = map g (zrange 0 (zn 0 st m)).
Proof.
  intros Hn H m (Hm & Hmn). revert Hmn. pattern m. revert m Hm. apply natlike_ind; [intros _; destruct H as (_ & -> & _); reflexivity|]. intros m Hm IH Hmn. unfold Z.succ in *. rewrite cat_succ, IH by lia.
  rewrite <- map_app, <- zrange_app; [reflexivity|]. pose proof (segments_bounds st n total m H ltac:(lia)). pose proof (segments_mono st n total m (m + 1) H ltac:(lia) ltac:(lia)). lia.
Qed.

Lemma cat_segments_flat {X} (f : Z -> list X) st n total : 0 <= n -> segments st n total -> forall m, 0 <= m <= n ->
  cat (fun i => flat_map f (zrange (zn 0 st i) (zn 0 st (i + 1)))) m = cat f (zn 0 st m).
Proof.
  intros Hn H m (Hm & Hmn). revert Hmn. pattern m. revert m Hm. apply natlike_ind; [intros _; destruct H as (_ & -> & _); reflexivity|]. intros m Hm IH Hmn. unfold Z.succ in *. rewrite cat_succ, IH by lia.
  unfold cat. rewrite <- flat_map_app, <- zrange_app; [reflexivity|]. pose proof (segments_bounds st n total m H ltac:(lia)). pose proof (segments_mono st n total m (m + 1) H ltac:(lia) ltac:(lia)). lia.
Qed.

(* ---------------------------------------------------------------- local loops *)

Section Local.
Context {S : scalar}.
Notation T := (car S).

(** Column k of the offd block with global row numbers *)
Definition column (A : parmat S) (k : Z) : list (Z * T) := map (fun p => (fst p + zn 0 (pm_rs A) 0, snd p)) (col_row (pm_offd A) k).

Definition sizes (A : parmat S) : list Z := let n := zlen (pm_map A) in map (fun k => if k <? n then zlen (column A k) else off (column A) n) (zrange 0 (n + 1)).

Lemma outgoing_ok (A : parmat S) : pm_valid A ->
  outgoing A = Ok (sizes A, map fst (cat (column A) (zlen (pm_map A))), map snd (cat (column A) (zlen (pm_map A)))).
Proof.
  intros V. unfold outgoing. rewrite (sp_transpose_rows _ (pv_offd A V)). cbn [bind]. destruct (get3 _ (pv_rs A V)) as (R0 & _). rewrite R0. cbn [bind]. unfold csr_of_rows. cbn [c_ptr c_idx c_val]. rewrite (pv_ocols A V).
  set (n := zlen (pm_map A)) in *. assert (Hn : 0 <= n) by apply zlen_nonneg. set (f := col_row (pm_offd A)). set (c0 := zn 0 (pm_rs A) 0).
  rewrite (get_ok 0) by (rewrite zlen_map_zrange; lia). cbn [bind]. rewrite zn_map_zrange by lia. pose proof (off_nonneg f n) as Ho.
  assert (EC : column A = fun k => map (fun p => (fst p + c0, snd p)) (f k)) by reflexivity.
  assert (E1 : for_ 0 (off f n) (map fst (cat f n)) (fun i tj => x <- get tj i ;; set tj i (x + c0)) = Ok (map fst (cat (column A) n))).
  { apply res_of_returns. apply (returns_for (fun i l => zlen l = off f n /\ (forall k, 0 <= k < i -> zn 0 l k = fst (zn (0, s0) (cat f n) k) + c0) /\ (forall k, i <= k < off f n -> zn 0 l k = fst (zn (0, s0) (cat f n) k)))).
    - exact Ho.
    - split; [now rewrite zlen_map|]. split; [intros; lia|]. intros k Hk. now rewrite (zn_map (0, s0) 0) by (fold (off f n); lia).
    - intros i l Hi (L & Va & Vb). rewrite (get_ok 0) by lia. cbn [bind]. apply returns_set; [lia|]. rewrite zlen_upd. split; [exact L|]. split; intros k Hk; rewrite zn_upd by lia; destruct (Z.eqb_spec k i) as [->|]; try lia.
      + rewrite Vb by lia. reflexivity.
      + apply Va. lia.
      + apply Vb. lia.
    - intros l (L & Va & _). rewrite EC, <- map_cat, map_map. cbn [fst]. apply (list_ext 0); [rewrite zlen_map; exact L|]. intros k Hk. rewrite Va by lia. now rewrite (zn_map (0, s0) 0) by (fold (off f n); lia). }
  rewrite E1. cbn [bind].
  assert (E2 : for_ 0 n (map (off f) (zrange 0 (n + 1))) (fun i ti => b <- get ti (i + 1) ;; a <- get ti i ;; set ti i (b - a)) = Ok (sizes A)).
  { apply res_of_returns. apply (returns_for (fun i l => zlen l = n + 1 /\ (forall k, 0 <= k < i -> zn 0 l k = zlen (f k)) /\ (forall k, i <= k <= n -> zn 0 l k = off f k))).
    - exact Hn.
    - split; [rewrite zlen_map_zrange; lia|]. split; [intros; lia|]. intros k Hk. now rewrite zn_map_zrange by lia.
    - intros i l Hi (L & Va & Vb). rewrite !(get_ok 0) by lia. cbn [bind]. apply returns_set; [lia|]. rewrite zlen_upd. split; [exact L|]. split; intros k Hk; rewrite zn_upd by lia; destruct (Z.eqb_spec k i) as [->|]; try lia.
      + rewrite !Vb, off_succ by lia. lia.
      + apply Va. lia.
      + apply Vb. lia.
    - intros l (L & Va & Vb). unfold sizes. fold n. apply (list_ext 0); [rewrite zlen_map_zrange; lia|]. intros k Hk. rewrite zn_map_zrange by lia. rewrite EC. destruct (Z.ltb_spec k n); [rewrite zlen_map; apply Va; lia|].
      rewrite off_map. replace k with n by lia. apply Vb. lia. }
  rewrite E2. cbn [bind]. rewrite EC, <- (map_cat (fun p => (fst p + c0, snd p))), !map_map. cbn [snd]. reflexivity.
Qed.

Lemma sizes_len A : zlen (sizes A) = zlen (pm_map A) + 1.
Proof. unfold sizes. pose proof (zlen_nonneg (pm_map A)). rewrite zlen_map_zrange; lia. Qed.

Lemma sizes_at A k : 0 <= k < zlen (pm_map A) -> zn 0 (sizes A) k = zlen (column A k).
Proof. intros Hk. unfold sizes. rewrite zn_map_zrange by lia. destruct (Z.ltb_spec k (zlen (pm_map A))); [reflexivity|lia]. Qed.

Lemma message_starts_ok (A : parmat S) (k : commpkg) : segments (k_rs k) (zlen (k_rp k)) (zlen (pm_map A)) ->
  message_starts k (sizes A) = Ok (map (fun i => off (column A) (zn 0 (k_rs k) i)) (zrange 0 (zlen (k_rp k) + 1))).
Proof.
  intros Hseg. unfold message_starts. set (nr := zlen (k_rp k)) in *. assert (Hnr : 0 <= nr) by apply zlen_nonneg. rewrite vec_ok by lia. cbn [bind]. pose proof Hseg as (HL & H0 & Ht & _).
  rewrite (get_ok 0) by lia. cbn [bind]. rewrite set_ok by (rewrite zlen_repeat; lia). cbn [bind]. pose proof (sizes_len A) as Ls.
  apply res_of_returns. apply (returns_for (fun i l => zlen l = nr + 1 /\ forall q, 0 <= q <= i -> zn 0 l q = off (column A) (zn 0 (k_rs k) q))).
  - exact Hnr.
  - rewrite zlen_upd, zlen_repeat. split; [lia|]. intros q Hq. replace q with 0 by lia. rewrite zn_upd by (rewrite ?zlen_repeat; lia). rewrite Z.eqb_refl, H0. reflexivity.
  - intros i l Hi (L & Vl). rewrite (get_ok 0) by lia. cbn [bind]. rewrite set_ok by lia. cbn [bind]. rewrite !(get_ok 0) by lia. cbn [bind].
    pose proof (segments_bounds _ _ _ i Hseg ltac:(lia)) as B1. pose proof (segments_bounds _ _ _ (i + 1) Hseg ltac:(lia)) as B2. pose proof (segments_mono _ _ _ i (i + 1) Hseg ltac:(lia) ltac:(lia)) as B3.
    apply (returns_for (fun j l => zlen l = nr + 1 /\ (forall q, 0 <= q <= i -> zn 0 l q = off (column A) (zn 0 (k_rs k) q)) /\ zn 0 l (i + 1) = off (column A) j)).
    + exact B3.
    + rewrite zlen_upd. split; [exact L|]. split; [intros q Hq; rewrite zn_upd by lia; destruct (Z.eqb_spec q (i + 1)); [lia|]; apply Vl; lia|]. rewrite zn_upd by lia. rewrite Z.eqb_refl. apply Vl. lia.
    + intros j l' Hj (L' & Vl' & Wl'). rewrite (get_ok 0) by lia. cbn [bind]. rewrite sizes_at by lia. rewrite (get_ok 0) by lia. cbn [bind]. apply returns_set; [lia|]. rewrite zlen_upd. split; [exact L'|]. split.
      * intros q Hq. rewrite zn_upd by lia. destruct (Z.eqb_spec q (i + 1)); [lia|]. now apply Vl'.
      * rewrite zn_upd by lia. rewrite Z.eqb_refl, Wl', off_succ by lia. reflexivity.
    + intros l' (L' & Vl' & Wl'). split; [exact L'|]. intros q Hq. destruct (Z.eq_dec q (i + 1)) as [->|]; [exact Wl'|]. apply Vl'. lia.
  - intros l (L & Vl). apply (list_ext 0); [rewrite zlen_map_zrange; lia|]. intros q Hq. rewrite zn_map_zrange by lia. apply Vl. lia.
Qed.

Lemma sorted_columns_ok (srt : sorter) L : sorts srt -> exists cm, sorted_columns srt L (zlen L) = Ok cm /\ increasing cm /\ forall g, In g cm <-> In g L.
Proof.
  intros Hsrt. destruct (unique_columns_ok srt Hsrt L [] [] eq_refl) as (cm & E & Inc & Hin). exists cm. split; [|split; [exact Inc|]].
  - rewrite <- E. unfold unique_columns, sorted_columns. rewrite app_nil_r. change (zlen (@nil Z)) with 0. change (for_ 0 0 ?s ?f) with (Ok (A := (list Z * Z)) s). cbn [negb Z.eqb].
    rewrite orb_false_r. destruct (zlen L =? 0) eqn:E0; cbn [negb bind]; [apply Z.eqb_eq in E0; now rewrite vec_ok by lia|]. rewrite E0. reflexivity.
  - intros g. rewrite Hin. split; [intros [H|[]]; exact H|auto].
Qed.

Lemma renumber_columns_ok bsearch cm (l : list (Z * T)) :
  renumber_columns bsearch cm (map fst l) (zlen l) = Ok (map fst (renamed (fun c => bsearch cm c (zlen cm)) l)).
Proof.
  unfold renumber_columns. pose proof (zlen_nonneg l) as Hl. apply res_of_returns.
  apply (returns_for (fun i o => zlen o = zlen l /\ (forall k, 0 <= k < i -> zn 0 o k = bsearch cm (fst (zn (0, s0) l k)) (zlen cm)) /\ (forall k, i <= k < zlen l -> zn 0 o k = fst (zn (0, s0) l k)))).
  - exact Hl.
  - split; [apply zlen_map|]. split; [intros; lia|]. intros k Hk. now rewrite (zn_map (0, s0) 0) by lia.
  - intros i o Hi (L & Va & Vb). rewrite (get_ok 0) by lia. cbn [bind]. apply returns_set; [lia|]. rewrite zlen_upd. split; [exact L|]. split; intros k Hk; rewrite zn_upd by lia; destruct (Z.eqb_spec k i) as [->|]; try lia.
    + rewrite Vb by lia. reflexivity.
    + apply Va. lia.
    + apply Vb. lia.
  - intros o (L & Va & _). unfold renamed. rewrite map_map. cbn [fst]. apply (list_ext 0); [rewrite zlen_map; exact L|]. intros k Hk. rewrite Va by lia. now rewrite (zn_map (0, s0) 0) by lia.
Qed.

End Local.
