(** The local loops of ParMatrix::Transpose: a counting sort of rows of entries. *)

From Coq Require Import ZArith List Bool Lia.
From Verif Require Import Base Scalar Spec Dense Sparse LoopFacts CsrFacts Rows SortProofs CooMore ProductProofs TransposeProofs Par ParSpec HypreOps HypreSpec HypreExt HypreValue HypreTranspose HypreTransposeSpec.
Import ListNotations.
Open Scope Z_scope.

(* ---------------------------------------------------------------- off and cat *)

Section Off.
Context {X : Type}.

Lemma off_app (g h : Z -> list X) n : 0 <= n -> off (fun e => g e ++ h e) n = off g n + off h n.
Proof.
  intros Hn. pattern n. revert n Hn. apply natlike_ind; [reflexivity|]. intros n Hn IH. unfold Z.succ. rewrite !off_succ, IH, zlen_app by lia. lia.
Qed.

Lemma off_one k (l : list X) n : 0 <= n -> off (fun e => if k =? e then l else []) n = if (0 <=? k) && (k <? n) then zlen l else 0.
Proof.
  intros Hn. pattern n. revert n Hn. apply natlike_ind.
  - replace ((0 <=? k) && (k <? 0)) with false by lia. reflexivity.
  - intros n Hn IH. unfold Z.succ. rewrite off_succ, IH by lia. destruct (Z.eqb_spec k n) as [->|N].
    + replace ((0 <=? n) && (n <? n)) with false by lia. replace ((0 <=? n) && (n <? n + 1)) with true by lia. lia.
    + rewrite zlen_nil. replace (k <? n + 1) with (k <? n) by lia. lia.
Qed.

(** The lists of the items fall into the rows of their keys. *)
Lemma off_keys (key : Z -> Z) (pay : Z -> list X) cols n : 0 <= n -> 0 <= cols -> (forall j, 0 <= j < n -> 0 <= key j < cols) ->
  off (fun e => cat (fun j => if key j =? e then pay j else []) n) cols = off pay n.
Proof.
  intros Hn Hc. pattern n. revert n Hn. apply natlike_ind.
  - intros _. change (off pay 0) with 0. pattern cols. revert cols Hc. apply natlike_ind; [reflexivity|]. intros c Hc IH. unfold Z.succ. rewrite off_succ, IH by lia. reflexivity.
  - intros n Hn IH H. unfold Z.succ in *. rewrite off_succ by lia. rewrite <- IH by (intros; apply H; lia).
    rewrite (off_ext _ (fun e => cat (fun j => if key j =? e then pay j else []) n ++ (if key n =? e then pay n else []))) by (intros; rewrite cat_succ by lia; reflexivity).
    rewrite off_app, off_one by lia. specialize (H n ltac:(lia)). replace ((0 <=? key n) && (key n <? cols)) with true by lia. reflexivity.
Qed.

Lemma cat_app_at (f : Z -> list X) n m : 0 <= n <= m -> exists l, cat f m = cat f n ++ l.
Proof.
  intros H. exists (flat_map f (zrange n m)). unfold cat. rewrite (zrange_app 0 n m) by lia. apply flat_map_app.
Qed.

Lemma zn_cat_prefix (f : Z -> list X) d n m t : 0 <= n <= m -> 0 <= t < off f n -> zn d (cat f m) t = zn d (cat f n) t.
Proof. intros H Ht. destruct (cat_app_at f n m H) as (l & ->). apply zn_app_l. exact Ht. Qed.
End Off.

(* ---------------------------------------------------------------- segments *)

Lemma segments_mono st n total i j : segments st n total -> 0 <= i <= j -> j <= n -> zn 0 st i <= zn 0 st j.
Proof.
  intros (_ & _ & _ & H) (Hi & Hij) Hj. replace j with (i + (j - i)) in * by lia. assert (Hd : 0 <= j - i) by lia. remember (j - i) as d eqn:E. clear E Hij.
  revert Hj. pattern d. revert d Hd. apply natlike_ind; [intros _; rewrite Z.add_0_r; lia|]. intros d Hd IH Hj. unfold Z.succ in *. specialize (H (i + d) ltac:(lia)). rewrite Z.add_assoc in *. specialize (IH ltac:(lia)). lia.
Qed.

Lemma segments_bounds st n total i : segments st n total -> 0 <= i <= n -> 0 <= zn 0 st i <= total.
Proof.
  intros H Hi. pose proof (segments_mono st n total 0 i H ltac:(lia) ltac:(lia)). pose proof (segments_mono st n total i n H ltac:(lia) ltac:(lia)). destruct H as (_ & HZ & Ht & _). lia.
Qed.

Lemma segments_owner st n total j : 0 <= n -> segments st n total -> 0 <= j < total -> exists i, 0 <= i < n /\ zn 0 st i <= j < zn 0 st (i + 1).
Proof.
  intros Hn H Hj. assert (G : forall m, 0 <= m -> m <= n -> j < zn 0 st m -> exists i, 0 <= i < m /\ zn 0 st i <= j < zn 0 st (i + 1)).
  { intros m Hm. pattern m. revert m Hm. apply natlike_ind; [destruct H as (_ & H0 & _); rewrite H0; lia|]. intros m Hm IH Hmn Hjm. unfold Z.succ in *.
    destruct (Z_lt_ge_dec j (zn 0 st m)) as [L|L]; [destruct (IH ltac:(lia) L) as (i & Hi & E); exists i; split; [lia|exact E]|exists m; split; [lia|]; lia]. }
  destruct (G n Hn ltac:(lia)) as (i & Hi & E); [destruct H as (_ & _ & -> & _); lia|]. exists i. auto.
Qed.

(** Loops over segments are loops over their elements. *)
Lemma for_segments {St} st n total (s : St) (body : Z -> St -> res St) : 0 <= n -> segments st n total ->
  for_ 0 n s (fun i s => lo <- get st i ;; hi <- get st (i + 1) ;; for_ lo hi s body) = for_ 0 total s body.
Proof.
  intros Hn H. pose proof H as (HL & H0 & Ht & _). rewrite <- Ht.
  assert (G : forall m, 0 <= m -> m <= n -> for_ 0 m s (fun i s => lo <- get st i ;; hi <- get st (i + 1) ;; for_ lo hi s body) = for_ 0 (zn 0 st m) s body).
  { intros m Hm. pattern m. revert m Hm. apply natlike_ind; [intros _; rewrite H0; reflexivity|]. intros m Hm IH Hmn. unfold Z.succ in *. rewrite (for_split 0 m (m + 1)) by lia. rewrite IH by lia.
    rewrite (for_split 0 (zn 0 st m) (zn 0 st (m + 1))).
    - destruct (for_ 0 (zn 0 st m) s body) as [s'|]; [|reflexivity]. cbn [bind]. unfold for_ at 1. rewrite zrange_cons, zrange_empty by lia. cbn [foldM].
      rewrite !(get_ok 0) by lia. cbn [bind]. destruct (for_ (zn 0 st m) (zn 0 st (m + 1)) s' body); reflexivity.
    - pose proof (segments_bounds st n total m H ltac:(lia)). pose proof (segments_mono st n total m (m + 1) H ltac:(lia) ltac:(lia)). lia. }
  apply G; lia.
Qed.

(* ---------------------------------------------------------------- counting sort *)

Section CountingSort.
Context {S : scalar}.
Notation T := (car S).
Variables (k : commpkg) (cols n : Z) (pay : Z -> list (Z * T)).
Hypothesis Hcols : 0 <= cols.
Hypothesis Hn : n = zlen (k_se k).
Hypothesis Hseg : segments (k_ss k) (zlen (k_sp k)) n.
Let key (j : Z) : Z := zn 0 (k_se k) j.
Hypothesis Hkey : forall j, 0 <= j < n -> 0 <= key j < cols.
Let part (e j : Z) : list (Z * T) := if key j =? e then pay j else [].
Definition sorted_row (e : Z) : list (Z * T) := cat (part e) n.
Let bi := map (fun j => zlen (pay j)) (zrange 0 n).

Lemma sort_n : 0 <= n. Proof. rewrite Hn. apply zlen_nonneg. Qed.

Lemma row_starts_ok : row_starts cols k bi = Ok (map (fun i => off pay (zn 0 (k_ss k) i)) (zrange 0 (zlen (k_sp k) + 1)), map (off sorted_row) (zrange 0 (cols + 1))).
Proof.
  pose proof sort_n as Hn0. unfold row_starts. rewrite vec_ok by lia. cbn [bind]. set (ns := zlen (k_sp k)) in *. assert (Hns : 0 <= ns) by apply zlen_nonneg. rewrite vec_ok by lia. cbn [bind].
  destruct Hseg as (HL & HS0 & HSn & _). rewrite (get_ok 0) by lia. cbn [bind]. rewrite set_ok by (rewrite zlen_repeat; lia). cbn [bind]. apply res_of_returns. apply returns_bind.
  apply (returns_for (fun i st => zlen (fst st) = ns + 1 /\ (forall q, 0 <= q <= i -> zn 0 (fst st) q = off pay (zn 0 (k_ss k) q)) /\
     zlen (snd st) = cols + 1 /\ zn 0 (snd st) 0 = 0 /\ forall e, 0 <= e < cols -> zn 0 (snd st) (e + 1) = off (part e) (zn 0 (k_ss k) i))).
  { exact Hns. }
  { cbn [fst snd]. rewrite zlen_upd, !zlen_repeat. split; [lia|]. split.
    - intros q Hq. replace q with 0 by lia. rewrite zn_upd by (rewrite ?zlen_repeat; lia). rewrite Z.eqb_refl, HS0. reflexivity.
    - split; [lia|]. split; [rewrite zn_repeat by lia; reflexivity|]. intros e He. rewrite zn_repeat, HS0 by lia. reflexivity. }
  { intros i [tss oi] Hi (L1 & V1 & L2 & Z2 & V2). cbn [fst snd] in *. rewrite (get_ok 0) by lia. cbn [bind]. rewrite set_ok by lia. cbn [bind]. rewrite !(get_ok 0) by lia. cbn [bind].
    pose proof (segments_bounds _ _ _ i Hseg ltac:(lia)) as B1. pose proof (segments_bounds _ _ _ (i + 1) Hseg ltac:(lia)) as B2. pose proof (segments_mono _ _ _ i (i + 1) Hseg ltac:(lia) ltac:(lia)) as B3.
    eapply returns_weaken.
    - apply (returns_for (fun j st => zlen (fst st) = ns + 1 /\ (forall q, 0 <= q <= i -> zn 0 (fst st) q = off pay (zn 0 (k_ss k) q)) /\ zn 0 (fst st) (i + 1) = off pay j /\
         zlen (snd st) = cols + 1 /\ zn 0 (snd st) 0 = 0 /\ forall e, 0 <= e < cols -> zn 0 (snd st) (e + 1) = off (part e) j)).
      + exact B3.
      + cbn [fst snd]. rewrite zlen_upd. split; [exact L1|]. split; [|split; [|auto]].
        * intros q Hq. rewrite zn_upd by lia. destruct (Z.eqb_spec q (i + 1)); [lia|]. now apply V1.
        * rewrite zn_upd by lia. rewrite Z.eqb_refl. apply V1. lia.
      + intros j [tss' oi'] Hj (L1' & V1' & W1' & L2' & Z2' & V2'). cbn [fst snd] in *. pose proof (Hkey j ltac:(lia)) as Kj. unfold key in Kj.
        unfold bi. rewrite (get_ok 0) by (rewrite zlen_map_zrange; lia). cbn [bind]. rewrite zn_map_zrange by lia. rewrite (get_ok 0) by lia. cbn [bind]. rewrite set_ok by lia. cbn [bind].
        rewrite (get_ok 0) by lia. cbn [bind]. rewrite (get_ok 0) by lia. cbn [bind]. rewrite set_ok by lia. cbn [bind returns fst snd].
        rewrite !zlen_upd. split; [exact L1'|]. split; [|split; [|split; [exact L2'|split]]].
        * intros q Hq. rewrite zn_upd by lia. destruct (Z.eqb_spec q (i + 1)); [lia|]. now apply V1'.
        * rewrite zn_upd by lia. rewrite Z.eqb_refl, W1', off_succ by lia. reflexivity.
        * rewrite zn_upd by lia. destruct (Z.eqb_spec 0 (zn 0 (k_se k) j + 1)); [lia|exact Z2'].
        * intros e He. rewrite zn_upd by lia. rewrite off_succ by lia. unfold part at 2. unfold key. destruct (Z.eqb_spec (e + 1) (zn 0 (k_se k) j + 1)) as [Ee|Ne], (Z.eqb_spec (zn 0 (k_se k) j) e) as [Ek|Nk]; try lia.
          -- rewrite Ek, V2' by lia. lia.
          -- rewrite V2' by lia. rewrite zlen_nil. lia.
      + intros st HS. exact HS.
    - intros [tss' oi'] (L1' & V1' & W1' & L2' & Z2' & V2'). cbn [fst snd] in *. split; [exact L1'|]. split; [|auto]. intros q Hq. destruct (Z.eq_dec q (i + 1)) as [->|]; [exact W1'|]. apply V1'. lia. }
  intros [tss oi] (L1 & V1 & L2 & Z2 & V2). cbn [fst snd] in *. rewrite HSn in V2.
  apply returns_bind.
  apply (returns_for (fun i ip => zlen ip = cols + 1 /\ (forall j, 0 <= j <= i -> zn 0 ip j = off sorted_row j) /\ (forall j, i < j <= cols -> zn 0 ip j = zlen (sorted_row (j - 1))))).
  { exact Hcols. }
  { split; [exact L2|]. split.
    - intros j Hj. replace j with 0 by lia. rewrite Z2. reflexivity.
    - intros j Hj. replace j with (j - 1 + 1) at 1 by lia. rewrite V2 by lia. reflexivity. }
  { intros i ip Hi (Hl & Ha & Hb). rewrite !(get_ok 0) by lia. cbn [bind]. apply returns_set; [lia|]. rewrite zlen_upd. split; [exact Hl|]. split.
    - intros j Hj. rewrite zn_upd by lia. destruct (Z.eqb_spec j (i + 1)) as [->|].
      + rewrite (Hb (i + 1)), (Ha i), off_succ by lia. replace (i + 1 - 1) with i by lia. lia.
      + apply Ha. lia.
    - intros j Hj. rewrite zn_upd by lia. destruct (Z.eqb_spec j (i + 1)); [lia|]. apply Hb. lia. }
  intros ip (Lp & Vp & _). cbn [returns]. f_equal.
  - apply (list_ext 0); [rewrite zlen_map_zrange; lia|]. intros q Hq. rewrite zn_map_zrange by lia. apply V1. lia.
  - apply (list_ext 0); [rewrite zlen_map_zrange; lia|]. intros q Hq. rewrite zn_map_zrange by lia. apply Vp. lia.
Qed.

Lemma sorted_total : off sorted_row cols = off pay n.
Proof. apply off_keys; auto using sort_n. Qed.

Let bj := map fst (cat pay n).
Let bd := map snd (cat pay n).

Lemma place_ok : place cols k bi bj bd (map (off sorted_row) (zrange 0 (cols + 1))) =
  Ok (map (off sorted_row) (zrange 0 (cols + 1)), map fst (cat sorted_row cols), map snd (cat sorted_row cols), off pay n).
Proof.
  pose proof sort_n as Hn0. pose proof (off_nonneg pay n) as Hp0. unfold place. rewrite (get_ok 0) by (rewrite zlen_map_zrange; lia). cbn [bind]. rewrite zn_map_zrange by lia. rewrite sorted_total.
  rewrite !vec_ok by lia. cbn [bind]. rewrite (for_segments (k_ss k) (zlen (k_sp k)) n) by (auto using zlen_nonneg).
  apply res_of_returns. apply returns_bind.
  assert (Mono : forall e j, 0 <= e -> 0 <= j <= n -> off (part e) j <= zlen (sorted_row e)).
  { intros e j He Hj. change (zlen (sorted_row e)) with (off (part e) n). apply off_mono. lia. }
  pose (I := fun j (st : list Z * list Z * list T * Z) => let '(oi, oj, od, cnt) := st in
     cnt = off pay j /\ zlen oi = cols + 1 /\ zlen oj = off pay n /\ zlen od = off pay n /\
     (forall e, 0 <= e < cols -> zn 0 oi e = off sorted_row e + off (part e) j) /\
     forall e t, 0 <= e < cols -> 0 <= t < off (part e) j ->
       zn 0 oj (off sorted_row e + t) = fst (zn (0, s0) (sorted_row e) t) /\ zn s0 od (off sorted_row e + t) = snd (zn (0, s0) (sorted_row e) t)).
  apply (returns_for I).
  { exact Hn0. }
  { unfold I. rewrite zlen_map_zrange by lia. rewrite !zlen_repeat. split; [reflexivity|]. split; [lia|]. split; [lia|]. split; [lia|]. split.
    - intros e He. rewrite zn_map_zrange by lia. change (off (part e) 0) with 0. lia.
    - intros e t He Ht. change (off (part e) 0) with 0 in Ht. lia. }
  { intros j [[[oi oj] od] cnt] Hj (Hc & Li & Lj & Ld & Vi & Vv). pose proof (Hkey j Hj) as Kj. unfold key in Kj.
    rewrite (get_ok 0) by lia. cbn [bind]. set (e := zn 0 (k_se k) j) in *. rewrite (get_ok 0) by lia. cbn [bind]. rewrite Vi by lia.
    unfold bi. rewrite (get_ok 0) by (rewrite zlen_map_zrange; lia). cbn [bind]. rewrite zn_map_zrange by lia.
    assert (Pe : part e j = pay j) by (unfold part, key; fold e; now rewrite Z.eqb_refl).
    assert (He1 : off (part e) j + zlen (pay j) <= zlen (sorted_row e)) by (rewrite <- Pe, <- off_succ by lia; apply Mono; lia).
    assert (He2 : off sorted_row e + zlen (sorted_row e) <= off pay n) by (rewrite <- off_succ, <- sorted_total by lia; apply off_mono; lia).
    assert (Hcn : off pay j + zlen (pay j) <= off pay n) by (rewrite <- off_succ by lia; apply off_mono; lia).
    pose proof (off_nonneg sorted_row e) as N1. pose proof (off_nonneg (part e) j) as N2. pose proof (off_nonneg pay j) as N3.
    set (p0 := off sorted_row e + off (part e) j) in *.
    apply returns_bind.
    apply (returns_for (fun s (st : list Z * list T * Z * Z) => let '(oj', od', p, cnt') := st in
      p = p0 + s /\ cnt' = off pay j + s /\ zlen oj' = off pay n /\ zlen od' = off pay n /\
      (forall x, 0 <= x -> ~ (p0 <= x < p0 + s) -> zn 0 oj' x = zn 0 oj x /\ zn s0 od' x = zn s0 od x) /\
      forall t, 0 <= t < s -> zn 0 oj' (p0 + t) = fst (zn (0, s0) (pay j) t) /\ zn s0 od' (p0 + t) = snd (zn (0, s0) (pay j) t))).
    - apply zlen_nonneg.
    - split; [lia|]. split; [lia|]. split; [exact Lj|]. split; [exact Ld|]. split; [auto|]. intros t Ht. lia.
    - intros s [[[oj' od'] p] cnt'] Hs (E1 & E2 & Lj' & Ld' & Fr & Vn). subst p cnt'.
      assert (Zc : zn (0, s0) (cat pay n) (off pay j + s) = zn (0, s0) (pay j) s) by (apply zn_cat; lia).
      unfold bd, bj. rewrite (get_ok s0) by (rewrite zlen_map; fold (off pay n); lia). cbn [bind]. rewrite set_ok by lia. cbn [bind].
      rewrite (get_ok 0) by (rewrite zlen_map; fold (off pay n); lia). cbn [bind]. rewrite set_ok by lia. cbn [bind returns].
      rewrite !zlen_upd. split; [lia|]. split; [lia|]. split; [exact Lj'|]. split; [exact Ld'|].
      rewrite (zn_map (0, s0) s0), (zn_map (0, s0) 0), Zc by (fold (off pay n); lia). split.
      + intros x Hx Nx. rewrite !zn_upd by lia. destruct (Z.eqb_spec x (p0 + s)); [lia|]. apply Fr; lia.
      + intros t Ht. rewrite !zn_upd by lia. destruct (Z.eqb_spec (p0 + t) (p0 + s)) as [Et|Nt]; [replace t with s by lia; auto|]. apply Vn. lia.
    - intros [[[oj' od'] p] cnt'] (E1 & E2 & Lj' & Ld' & Fr & Vn). subst p cnt'. rewrite set_ok by lia. cbn [bind returns]. unfold I.
      split; [now rewrite off_succ by lia|]. rewrite zlen_upd. split; [exact Li|]. split; [exact Lj'|]. split; [exact Ld'|]. split.
      + intros e' He'. rewrite zn_upd by lia. rewrite off_succ by lia. destruct (Z.eqb_spec e' e) as [->|Ne]; [rewrite Pe; unfold p0; lia|].
        assert (Pe' : zlen (part e' j) = 0) by (unfold part, key; fold e; destruct (Z.eqb_spec e e'); [lia|reflexivity]). rewrite Vi, Pe' by lia. lia.
      + intros e' t He' Ht. rewrite off_succ in Ht by lia. destruct (Z.eq_dec e' e) as [->|Ne].
        * rewrite Pe in Ht. destruct (Z_lt_ge_dec t (off (part e) j)) as [Lt|Ge].
          -- destruct (Fr (off sorted_row e + t)) as (F1 & F2); [lia|unfold p0; lia|]. rewrite F1, F2. apply Vv; lia.
          -- replace (off sorted_row e + t) with (p0 + (t - off (part e) j)) by (unfold p0; lia). destruct (Vn (t - off (part e) j) ltac:(lia)) as (F1 & F2). rewrite F1, F2.
             assert (Zs : zn (0, s0) (sorted_row e) (off (part e) j + (t - off (part e) j)) = zn (0, s0) (part e j) (t - off (part e) j)) by (apply zn_cat; rewrite ?Pe; lia).
             replace (off (part e) j + (t - off (part e) j)) with t in Zs by lia. rewrite Zs, Pe. auto.
        * assert (Pe' : zlen (part e' j) = 0) by (unfold part, key; fold e; destruct (Z.eqb_spec e e'); [lia|reflexivity]).
          assert (Hd : ~ (p0 <= off sorted_row e' + t < p0 + zlen (pay j))).
          { pose proof (Mono e' j ltac:(lia) ltac:(lia)) as M'. destruct (Z.lt_trichotomy e' e) as [L|[L|L]]; [|lia|].
            - pose proof (off_mono sorted_row (e' + 1) e ltac:(lia)) as O1. rewrite off_succ in O1 by lia. unfold p0. lia.
            - pose proof (off_mono sorted_row (e + 1) e' ltac:(lia)) as O1. rewrite off_succ in O1 by lia. unfold p0. lia. }
          pose proof (off_nonneg sorted_row e'). destruct (Fr (off sorted_row e' + t)) as (F1 & F2); [lia|exact Hd|]. rewrite F1, F2. apply Vv; lia. }
  intros [[[oi oj] od] cnt] (Hc & Li & Lj & Ld & Vi & Vv).
  (* shift back *)
  apply returns_bind.
  apply (returns_for_down (fun i ip => zlen ip = cols + 1 /\ (forall j, i < j <= cols -> zn 0 ip j = off sorted_row j) /\ (forall j, 0 <= j < i -> zn 0 ip j = off sorted_row (j + 1)))).
  { exact Hcols. }
  { split; [exact Li|]. split; [intros; lia|]. intros j Hj. rewrite Vi by lia. rewrite off_succ by lia. reflexivity. }
  { intros i ip Hi (Hl & Ha & Hb). rewrite (get_ok 0) by lia. cbn [bind]. apply returns_set; [lia|]. rewrite zlen_upd. split; [exact Hl|]. split.
    - intros j Hj. rewrite zn_upd by lia. destruct (Z.eqb_spec j i) as [->|]; [rewrite Hb by lia; f_equal; lia|apply Ha; lia].
    - intros j Hj. rewrite zn_upd by lia. destruct (Z.eqb_spec j i); [lia|]. apply Hb. lia. }
  intros ip (Lp & Vp & _). rewrite set_ok by lia. cbn [bind returns]. subst cnt.
  assert (X1 : upd ip (Z.to_nat 0) 0 = map (off sorted_row) (zrange 0 (cols + 1))).
  { apply (list_ext 0); [rewrite zlen_upd, zlen_map_zrange by lia; lia|]. intros q Hq. rewrite zlen_upd in Hq. rewrite zn_upd, zn_map_zrange by lia. destruct (Z.eqb_spec q 0) as [->|]; [reflexivity|]. apply Vp. lia. }
  assert (X2 : forall x, 0 <= x < off pay n -> zn 0 oj x = fst (zn (0, s0) (cat sorted_row cols) x) /\ zn s0 od x = snd (zn (0, s0) (cat sorted_row cols) x)).
  { intros x Hx. rewrite <- sorted_total in Hx. destruct (off_find sorted_row cols x Hx Hcols) as (e & t & He & Ht & Et).
    destruct (Vv e (x - off sorted_row e) He) as (F1 & F2); [change (off (part e) n) with (zlen (sorted_row e)); lia|].
    replace (off sorted_row e + (x - off sorted_row e)) with x in F1, F2 by lia. rewrite F1, F2.
    assert (Zc : zn (0, s0) (cat sorted_row cols) (off sorted_row e + (x - off sorted_row e)) = zn (0, s0) (sorted_row e) (x - off sorted_row e)) by (apply zn_cat; lia).
    replace (off sorted_row e + (x - off sorted_row e)) with x in Zc by lia. rewrite Zc. auto. }
  assert (Lc : zlen (cat sorted_row cols) = off pay n) by (rewrite <- sorted_total; reflexivity).
  assert (X3 : oj = map fst (cat sorted_row cols)).
  { apply (list_ext 0); [rewrite zlen_map; lia|]. intros q Hq. rewrite (zn_map (0, s0) 0) by lia. apply X2. lia. }
  assert (X4 : od = map snd (cat sorted_row cols)).
  { apply (list_ext s0); [rewrite zlen_map; lia|]. intros q Hq. rewrite (zn_map (0, s0) s0) by lia. apply X2. lia. }
  rewrite X1, X3, X4. reflexivity.
Qed.

End CountingSort.
