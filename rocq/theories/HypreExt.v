(** Splitting the external rows: the arrays B_ext_diag, B_ext_offd, col_map_offd_C and
    map_B_to_C in closed form. *)

From Coq Require Import ZArith List Bool Lia Permutation Sorted.
From Verif Require Import Base Scalar Spec Dense Sparse LoopFacts CsrFacts Rows SortProofs Par Threads ThreadProofs HypreOps HypreSpec HypreThreads.
Import ListNotations.
Open Scope Z_scope.

Section RowRules.
Context {S : scalar}.
Notation T := (car S).
Notation V := (Z + T)%type.

Lemma over_row_eq {A} (M : csr S) i (a : A) f : csr_valid M -> 0 <= i < c_rows M ->
  over_row M i a f = foldM (fun a p => f (fst p) a) (row_of M i) a.
Proof.
  intros VM Hi. unfold over_row. rewrite !get_ptr by (auto; lia). cbn [bind]. unfold row_of. rewrite foldM_map. unfold for_. apply foldM_ext.
  intros s k Hk. apply In_zrange in Hk. assert (Hp : In (i, k) (positions M)) by (apply In_positions; auto). apply position_bounds in Hp; [|exact VM].
  rewrite get_idx by tauto. reflexivity.
Qed.

Lemma wp_over_row {A} (W R : Z -> Z -> Prop) (I : list (Z * T) -> A -> mem V -> Prop) (M : csr S) i (a : A) f m (Q : A -> mem V -> Prop) :
  csr_valid M -> 0 <= i < c_rows M -> I [] a m ->
  (forall pre c v post a m, row_of M i = pre ++ (c, v) :: post -> I pre a m -> wp W R (f c v a) m (I (pre ++ [(c, v)]))) ->
  (forall a m, I (row_of M i) a m -> Q a m) ->
  wp W R (pover_row M i a f) m Q.
Proof.
  intros VM Hi H0 Hs HQ. unfold pover_row. rewrite !get_ptr by (auto; lia). cbn [lift pbind]. unfold pfor.
  apply (wp_pfold W R (fun pre a m => I (map (fun k => (idx M k, val M k)) pre) a m)); [exact H0| |exact HQ].
  intros pre k post a' m' E Hp. assert (Hk : In k (zrange (ptr M i) (ptr M (i + 1)))) by (rewrite E; apply in_elt).
  assert (Hpos : In (i, k) (positions M)) by (apply In_positions; split; [exact Hi|now apply In_zrange in Hk]). apply position_bounds in Hpos; [|exact VM].
  rewrite get_idx, get_val by tauto. cbn [lift pbind]. rewrite map_app. cbn [map]. apply (Hs _ _ _ (map (fun k => (idx M k, val M k)) post)); [|exact Hp].
  unfold row_of. rewrite E, map_app. reflexivity.
Qed.

End RowRules.

(* ---------------------------------------------------------------- the columns of C *)

Lemma increasing_inj l i j : increasing l -> 0 <= i < zlen l -> 0 <= j < zlen l -> zn 0 l i = zn 0 l j -> i = j.
Proof. intros H Hi Hj E. destruct (Z.lt_trichotomy i j) as [L|[L|L]]; [|exact L|]; [pose proof (H i j)|pose proof (H j i)]; lia. Qed.

Lemma sorted_le (l : list Z) : StronglySorted (fun a b => (b <? a) = false) l -> forall i j, 0 <= i <= j -> j < zlen l -> zn 0 l i <= zn 0 l j.
Proof.
  induction 1 as [|a l _ IH H]; intros i j Hij Hj; [change (zlen (@nil Z)) with 0 in Hj; lia|]. rewrite zlen_cons in Hj.
  destruct (Z.eq_dec i 0) as [->|Hi].
  - destruct (Z.eq_dec j 0) as [->|]; [lia|]. rewrite (zn_cons_pos _ _ _ j) by lia. change (zn 0 (a :: l) 0) with a.
    rewrite Forall_forall in H. specialize (H (zn 0 l (j - 1)) ltac:(apply zn_In; lia)). lia.
  - rewrite !zn_cons_pos by lia. apply IH; lia.
Qed.

Section Unique.
Variable srt : sorter.
Hypothesis Hsrt : sorts srt.

Lemma append_loop (L mapB pad : list Z) : zlen pad = zlen mapB ->
  for_ 0 (zlen mapB) (L ++ pad, zlen L) (fun i st => let '(temp, cnt) := st in g <- get mapB i ;; temp <- set temp cnt g ;; Ok (temp, cnt + 1))
  = Ok (L ++ mapB, zlen L + zlen mapB).
Proof.
  intros Hp. pose proof (zlen_nonneg L). pose proof (zlen_nonneg mapB). apply res_of_returns.
  apply (returns_for (fun i st => snd st = zlen L + i /\ zlen (fst st) = zlen L + zlen mapB /\ forall k, 0 <= k < zlen L + i -> zn 0 (fst st) k = zn 0 (L ++ mapB) k)).
  - lia.
  - cbn [fst snd]. split; [lia|]. split; [rewrite zlen_app; lia|]. intros k Hk. rewrite !zn_app_l by lia. reflexivity.
  - intros i [temp cnt] Hi (Hc & Hl & Hv). cbn [fst snd] in *. rewrite (get_ok 0) by lia. cbn [bind]. rewrite set_ok by lia. cbn [bind returns fst snd].
    rewrite zlen_upd. split; [lia|]. split; [exact Hl|]. intros k Hk. rewrite zn_upd by lia. destruct (Z.eqb_spec k cnt) as [->|]; [|apply Hv; lia].
    rewrite zn_app_r by lia. f_equal. lia.
  - intros [temp cnt] (Hc & Hl & Hv). cbn [fst snd] in *. f_equal; [|exact Hc]. apply (list_ext 0); [rewrite zlen_app; exact Hl|]. intros k Hk. apply Hv. lia.
Qed.

Lemma compact_loop (s : list Z) : 0 < zlen s -> (forall i j, 0 <= i <= j -> j < zlen s -> zn 0 s i <= zn 0 s j) ->
  exists temp k v, for_ 1 (zlen s) (s, 1, zn 0 s 0) (fun i st => let '(temp, k, v) := st in
      x <- get temp i ;; if v <? x then temp <- set temp k x ;; Ok (temp, k + 1, x) else Ok st) = Ok (temp, k, v) /\
    1 <= k <= zlen temp /\ (forall i j, 0 <= i < j -> j < k -> zn 0 temp i < zn 0 temp j) /\
    (forall g, In g s <-> exists j, 0 <= j < k /\ zn 0 temp j = g).
Proof.
  intros Hp Hs.
  assert (G : returns (for_ 1 (zlen s) (s, 1, zn 0 s 0) (fun i st => let '(temp, k, v) := st in
      x <- get temp i ;; if v <? x then temp <- set temp k x ;; Ok (temp, k + 1, x) else Ok st)) (fun st => let '(temp, k, v) := st in
    1 <= k <= zlen temp /\ (forall i j, 0 <= i < j -> j < k -> zn 0 temp i < zn 0 temp j) /\
    (forall g, In g s <-> exists j, 0 <= j < k /\ zn 0 temp j = g))).
  2:{ apply returns_exists in G. destruct G as ([[temp k] v] & E & H). exists temp, k, v. auto. }
  apply (returns_for (fun i st => let '(temp, k, v) := st in
    zlen temp = zlen s /\ 1 <= k <= i /\ v = zn 0 s (i - 1) /\ v = zn 0 temp (k - 1) /\
    (forall j, i <= j < zlen s -> zn 0 temp j = zn 0 s j) /\
    (forall a b, 0 <= a < b -> b < k -> zn 0 temp a < zn 0 temp b) /\
    (forall j, 0 <= j < k -> exists q, 0 <= q < i /\ zn 0 temp j = zn 0 s q) /\
    (forall q, 0 <= q < i -> exists j, 0 <= j < k /\ zn 0 temp j = zn 0 s q))).
  - lia.
  - split; [reflexivity|]. split; [lia|]. split; [reflexivity|]. split; [reflexivity|]. split; [reflexivity|]. split; [intros; lia|].
    split; intros q Hq; exists 0; (split; [lia|]); replace q with 0 by lia; reflexivity.
  - intros i [[temp k] v] Hi (Hl & Hk & Hv & Hv' & Hrest & Hinc & Hfrom & Hto). rewrite (get_ok 0) by lia. cbn [bind]. rewrite (Hrest i) by lia.
    pose proof (Hs (i - 1) i ltac:(lia) ltac:(lia)) as Hle. replace (i + 1 - 1) with i by lia.
    destruct (Z.ltb_spec v (zn 0 s i)) as [Hlt|Hge].
    + rewrite set_ok by lia. cbn [bind returns]. rewrite zlen_upd. split; [exact Hl|]. split; [lia|]. split; [reflexivity|].
      replace (k + 1 - 1) with k by lia. split; [rewrite zn_upd by lia; now rewrite Z.eqb_refl|].
      split; [intros j Hj; rewrite zn_upd by lia; destruct (Z.eqb_spec j k); [lia|]; apply Hrest; lia|].
      split.
      { intros a b Hab Hb. rewrite !zn_upd by lia. destruct (Z.eqb_spec a k); [lia|]. destruct (Z.eqb_spec b k) as [->|]; [|apply Hinc; lia].
        destruct (Z.eq_dec a (k - 1)) as [->|]; [rewrite <- Hv'; exact Hlt|]. pose proof (Hinc a (k - 1) ltac:(lia) ltac:(lia)). lia. }
      split.
      * intros j Hj. rewrite zn_upd by lia. destruct (Z.eqb_spec j k); [exists i; split; [lia|reflexivity]|]. destruct (Hfrom j ltac:(lia)) as (q & Hq & E). exists q. split; [lia|exact E].
      * intros q Hq. destruct (Z.eq_dec q i) as [->|]; [exists k; split; [lia|]; rewrite zn_upd by lia; now rewrite Z.eqb_refl|].
        destruct (Hto q ltac:(lia)) as (j & Hj & E). exists j. split; [lia|]. rewrite zn_upd by lia. destruct (Z.eqb_spec j k); [lia|exact E].
    + cbn [returns]. split; [exact Hl|]. split; [lia|]. split; [lia|]. split; [exact Hv'|]. split; [intros; apply Hrest; lia|]. split; [exact Hinc|]. split.
      * intros j Hj. destruct (Hfrom j Hj) as (q & Hq & E). exists q. split; [lia|exact E].
      * intros q Hq. destruct (Z.eq_dec q i) as [->|]; [|destruct (Hto q ltac:(lia)) as (j & Hj & E); exists j; auto].
        exists (k - 1). split; [lia|]. lia.
  - intros [[temp k] v] (Hl & Hk & _ & _ & _ & Hinc & Hfrom & Hto). split; [lia|]. split; [exact Hinc|]. intros g. split.
    + intros Hg. destruct (In_zn 0 _ _ Hg) as (q & Hq & <-). now apply Hto.
    + intros (j & Hj & <-). destruct (Hfrom j Hj) as (q & Hq & ->). now apply zn_In.
Qed.

Lemma unique_columns_ok (L : list Z) mapB pad : zlen pad = zlen mapB ->
  exists cmC, unique_columns srt (L ++ pad) (zlen L) mapB = Ok cmC /\ increasing cmC /\ (forall g, In g cmC <-> In g L \/ In g mapB).
Proof.
  intros Hp. unfold unique_columns. pose proof (zlen_nonneg L) as PL. pose proof (zlen_nonneg mapB) as PB.
  destruct (negb (zlen L =? 0) || negb (zlen mapB =? 0)) eqn:Eb.
  - assert (N : zlen L + zlen mapB <> 0) by (intros N; replace (zlen L) with 0 in Eb by lia; replace (zlen mapB) with 0 in Eb by lia; discriminate). clear Eb.
    rewrite append_loop by exact Hp. cbn [bind]. destruct (Z.eqb_spec (zlen L + zlen mapB) 0); [lia|]. cbn [negb].
    unfold sort_range. rewrite zlen_app. replace (zlen L + zlen mapB - 1 + 1) with (zlen L + zlen mapB) by lia.
    destruct (Z.leb_spec 0 0); [|lia]. destruct (Z.leb_spec 0 (zlen L + zlen mapB)); [|lia]. destruct (Z.leb_spec (zlen L + zlen mapB) (zlen L + zlen mapB)); [|lia]. cbn [andb bind].
    rewrite Z.sub_0_r. change (Z.to_nat 0) with 0%nat. cbn [firstn skipn app].
    rewrite firstn_all2 by (rewrite app_length; unfold zlen; lia). rewrite skipn_all2 by (rewrite app_length; unfold zlen; lia). rewrite app_nil_r.
    destruct (Hsrt Z.ltb (L ++ mapB) (key_order (fun i => i))) as (HP & HS). set (s := srt Z.ltb (L ++ mapB)) in *.
    assert (Ls : zlen s = zlen L + zlen mapB) by (rewrite <- zlen_app; unfold zlen; now rewrite (Permutation_length HP)).
    rewrite (get_ok 0) by lia. cbn [bind]. rewrite <- Ls.
    destruct (compact_loop s ltac:(lia) (sorted_le s HS)) as (temp & k & v & E & Hk & Hinc & Hin). rewrite E. cbn [bind].
    rewrite vec_ok by lia. cbn [bind]. rewrite (for_fill 0 (zn 0 temp)); [|rewrite zlen_repeat; lia|intros i o Hi; apply get_ok; lia].
    eexists. split; [reflexivity|]. assert (Lk : zlen (map (zn 0 temp) (zrange 0 k)) = k) by (rewrite zlen_map_zrange; lia). split.
    + intros i j Hi Hj. rewrite Lk in Hj. rewrite !zn_map_zrange by lia. now apply Hinc.
    + intros g. rewrite <- in_app_iff. transitivity (In g s).
      * rewrite Hin, in_map_iff. split; [intros (j & E1 & Hj); apply In_zrange in Hj; exists j; auto|intros (j & Hj & E1); exists j; split; [exact E1|now apply In_zrange]].
      * split; apply Permutation_in; [now apply Permutation_sym|exact HP].
  - apply orb_false_iff in Eb. destruct Eb as (E1 & E2). apply negb_false_iff, Z.eqb_eq in E1. apply negb_false_iff, Z.eqb_eq in E2.
    exists []. split; [reflexivity|]. split; [intros i j Hi Hj; change (zlen (@nil Z)) with 0 in Hj; lia|].
    destruct L as [|x L]; [|rewrite zlen_cons in E1; pose proof (zlen_nonneg L); lia]. destruct mapB as [|y mapB]; [|rewrite zlen_cons in E2; pose proof (zlen_nonneg mapB); lia]. cbn. tauto.
Qed.

End Unique.

Lemma map_columns_ok cmC mapB : increasing cmC -> increasing mapB -> (forall g, In g mapB -> In g cmC) ->
  exists mBC, map_columns cmC mapB = Ok mBC /\ zlen mBC = zlen mapB /\
    forall k, 0 <= k < zlen mapB -> 0 <= zn 0 mBC k < zlen cmC /\ zn 0 cmC (zn 0 mBC k) = zn 0 mapB k.
Proof.
  intros IC IB Hin. unfold map_columns. pose proof (zlen_nonneg cmC) as PC. pose proof (zlen_nonneg mapB) as PB.
  destruct (Z.eqb_spec (zlen mapB) 0) as [E0|N0]; cbn [negb]; [exists []; split; [reflexivity|]; split; [now rewrite E0|intros; lia]|].
  rewrite vec_ok by lia. cbn [bind]. set (body := fun (i : Z) (st : list Z * Z) => _).
  assert (G : returns (for_ 0 (zlen cmC) (repeat 0 (Z.to_nat (zlen mapB)), 0) body) (fun st => zlen (fst st) = zlen mapB /\
    forall k, 0 <= k < zlen mapB -> 0 <= zn 0 (fst st) k < zlen cmC /\ zn 0 cmC (zn 0 (fst st) k) = zn 0 mapB k)).
  2:{ apply returns_exists in G. destruct G as ([m cnt] & E & H1 & H2). rewrite E. cbn [bind]. exists m. auto. }
  apply (returns_for (fun i st => zlen (fst st) = zlen mapB /\ 0 <= snd st <= zlen mapB /\
    (forall k, 0 <= k < snd st -> 0 <= zn 0 (fst st) k < i /\ zn 0 cmC (zn 0 (fst st) k) = zn 0 mapB k) /\
    (forall k j, snd st <= k < zlen mapB -> 0 <= j < i -> zn 0 cmC j <> zn 0 mapB k))).
  - exact PC.
  - cbn [fst snd]. rewrite zlen_repeat. repeat split; try lia.
  - intros i [m cnt] Hi (Hl & Hc & Hd & Hr). cbn [fst snd] in *. unfold body. destruct (Z.eqb_spec cnt (zlen mapB)) as [->|Nc].
    + cbn [returns fst snd]. split; [exact Hl|]. split; [lia|]. split; [|intros; lia]. intros k Hk. destruct (Hd k Hk) as (H1 & H2). split; [lia|exact H2].
    + rewrite !(get_ok 0) by lia. cbn [bind]. destruct (Z.eqb_spec (zn 0 cmC i) (zn 0 mapB cnt)) as [Ea|Na].
      * rewrite set_ok by lia. cbn [bind returns fst snd]. rewrite zlen_upd. split; [exact Hl|]. split; [lia|]. split.
        -- intros k Hk. rewrite zn_upd by lia. destruct (Z.eqb_spec k cnt) as [->|]; [split; [lia|exact Ea]|]. destruct (Hd k ltac:(lia)) as (H1 & H2). split; [lia|exact H2].
        -- intros k j Hk Hj. destruct (Z.eq_dec j i) as [->|]; [|apply Hr; lia]. pose proof (IB cnt k ltac:(lia) ltac:(lia)). lia.
      * cbn [returns fst snd]. split; [exact Hl|]. split; [lia|]. split; [intros k Hk; destruct (Hd k Hk) as (H1 & H2); split; [lia|exact H2]|].
        intros k j Hk Hj. destruct (Z.eq_dec j i) as [->|]; [|apply Hr; lia]. destruct (Z.eq_dec k cnt) as [->|Nk]; [exact Na|]. intros Ek.
        pose proof (IB cnt k ltac:(lia) ltac:(lia)) as Hlt. destruct (In_zn 0 _ _ (Hin (zn 0 mapB cnt) (zn_In 0 mapB cnt ltac:(lia)))) as (p & Hp & Ep).
        destruct (Z_lt_ge_dec p i) as [L|L]; [exact (Hr cnt p ltac:(lia) ltac:(lia) Ep)|].
        destruct (Z.eq_dec p i) as [->|]; [lia|]. pose proof (IC i p ltac:(lia) ltac:(lia)). lia.
  - intros [m cnt] (Hl & Hc & Hd & Hr). cbn [fst snd] in *. split; [exact Hl|]. destruct (Z.eq_dec cnt (zlen mapB)) as [->|Nc]; [exact Hd|]. exfalso.
    destruct (In_zn 0 _ _ (Hin (zn 0 mapB cnt) (zn_In 0 mapB cnt ltac:(lia)))) as (p & Hp & Ep). exact (Hr cnt p ltac:(lia) Hp Ep).
Qed.

(* ---------------------------------------------------------------- the phases *)

Lemma seg_unique rows n {X} (f : Z -> list X) s t i : 0 <= rows -> 0 < n -> 0 <= s < n -> 0 <= t < n ->
  off f (tstart rows n s) <= i < off f (tstart rows n (s + 1)) -> off f (tstart rows n t) <= i < off f (tstart rows n (t + 1)) -> s = t.
Proof.
  intros Hrows Hn Hs Ht H1 H2. pose proof (tstart_range rows n) as TR. destruct (Z.lt_trichotomy s t) as [L|[L|L]]; [|exact L|].
  - pose proof (off_mono f (tstart rows n (s + 1)) (tstart rows n t)) as M. pose proof (tstart_mono rows n (s + 1) t Hrows Hn ltac:(lia)). pose proof (TR (s + 1) Hrows Hn ltac:(lia)). lia.
  - pose proof (off_mono f (tstart rows n (t + 1)) (tstart rows n s)) as M. pose proof (tstart_mono rows n (t + 1) s Hrows Hn ltac:(lia)). pose proof (TR (t + 1) Hrows Hn ltac:(lia)). lia.
Qed.

Section Ext.
Context {S : scalar}.
Notation T := (car S).
Notation V := (Z + T)%type.
Variables (ext : csr S) (fc lc rows : Z).
Hypothesis Hrows : 0 <= rows.
Hypothesis Hext : forall i, 0 <= i < rows -> csr_valid ext /\ i < c_rows ext.

(** The rows of B_ext_diag and of B_ext_offd (with global columns). *)
Definition edrow (i : Z) : list (Z * T) := map (fun p => (fst p - fc, snd p)) (filter (fun p => negb (outside fc lc (fst p))) (row_of ext i)).
Definition eorow (i : Z) : list (Z * T) := filter (fun p => outside fc lc (fst p)) (row_of ext i).

Let fD (l : list (Z * T)) := filter (fun p => negb (outside fc lc (fst p))) l.
Let fO (l : list (Z * T)) := filter (fun p => outside fc lc (fst p)) l.

Lemma ext_count_row i d o : 0 <= i < rows ->
  over_row ext i (d, o) (fun c st => if outside fc lc c then Ok (fst st, snd st + 1) else Ok (fst st + 1, snd st)) = Ok (d + zlen (edrow i), o + zlen (eorow i)).
Proof.
  intros Hi. destruct (Hext i Hi) as (VE & He). rewrite over_row_eq by (auto; lia). unfold edrow, eorow. rewrite zlen_map. fold (fD (row_of ext i)) (fO (row_of ext i)).
  revert d o. induction (row_of ext i) as [|[c v] l IH]; intros d o; cbn [foldM].
  - change (zlen (fD [])) with 0. change (zlen (fO [])) with 0. now rewrite !Z.add_0_r.
  - cbn [fst snd]. unfold fD, fO in *. cbn [filter fst]. destruct (outside fc lc c); cbn [negb bind]; rewrite IH, zlen_cons; f_equal; f_equal; lia.
Qed.

Section WithThreads.
Variable n : Z.
Hypothesis Hn : 0 < n.
Let ts := tstart rows n.

Lemma ext_count_wp (m : mem V) t : shape m = oshape rows n -> 0 <= t < n ->
  wp (cw rows n t) (nor t) (ext_count_thread ext fc lc rows n t) m (fun _ m' => forall x i, cw rows n t x i -> m_get m' x i = Ok (cfin rows n (off edrow) (off eorow) t x i)).
Proof.
  intros Sm Ht. unfold ext_count_thread. rewrite thread_range_eq by lia. fold ts.
  pose proof (tstart_range rows n t Hrows Hn ltac:(lia)) as R1. pose proof (tstart_range rows n (t + 1) Hrows Hn ltac:(lia)) as R2. pose proof (tstart_S rows n t Hrows Hn) as R3. fold ts in R1, R2, R3.
  apply wp_bind. apply (wp_pfor _ _ (fun i st mm => rows_done rows n (off edrow) (off eorow) t i mm /\ st = (off edrow i - off edrow (ts t), off eorow i - off eorow (ts t)))).
  - exact R3.
  - split; [|now rewrite !Z.sub_diag]. split; [exact Sm|]. intros j Hj. unfold ts in Hj. lia.
  - intros i st mm Hi (Hd & ->).
    match goal with |- wp _ _ (?a ~;; ?b ~;; ?c) _ ?Q => assert (G : wp (cw rows n t) (nor t) (pbind (a ~;; b) (fun _ => c)) mm Q); [|exact G] end.
    apply wp_bind. apply (rows_done_step rows n Hrows Hn (off edrow) (off eorow) _ _ t i mm); auto.
    intros m' Hd'. rewrite ext_count_row by lia. cbn [lift wp]. split; [exact Hd'|]. rewrite !off_succ by lia. f_equal; lia.
  - intros st mm (Hd & ->). apply (totals_done rows n Hrows Hn (off edrow) (off eorow) _ _ t mm); auto.
Qed.

(* fill *)

Let dcat := cat edrow rows.
Let ocat := cat eorow rows.
Let dsize := off edrow rows.
Let osize := off eorow rows.
Variable nB : Z.
Hypothesis HnB : 0 <= nB.

Definition fshape : list Z := [dsize; dsize; osize; osize; osize + nB].
Definition fw (t x i : Z) : Prop :=
  ((x = 0 \/ x = 1) /\ off edrow (ts t) <= i < off edrow (ts (t + 1))) \/
  ((x = 2 \/ x = 3 \/ x = 4) /\ off eorow (ts t) <= i < off eorow (ts (t + 1))).
Definition ffin (t x i : Z) : V :=
  if x =? 0 then inl (fst (zn (0, s0) dcat i)) else if x =? 1 then inr (snd (zn (0, s0) dcat i))
  else if x =? 3 then inr (snd (zn (0, s0) ocat i)) else inl (fst (zn (0, s0) ocat i)).

Lemma fw_inside (m : mem V) t x i : 0 <= t < n -> shape m = fshape -> fw t x i -> inside (shape m) x i.
Proof.
  intros Ht -> Hx.
  pose proof (tstart_range rows n t Hrows Hn ltac:(lia)) as R1. pose proof (tstart_range rows n (t + 1) Hrows Hn ltac:(lia)) as R2.
  pose proof (off_mono edrow (ts (t + 1)) rows R2). pose proof (off_mono eorow (ts (t + 1)) rows R2). pose proof (off_nonneg edrow (ts t)). pose proof (off_nonneg eorow (ts t)).
  fold dsize in H. fold osize in H0.
  split; [unfold fshape; rewrite !zlen_cons, zlen_nil; destruct Hx as [(Hx & Hi)|(Hx & Hi)]; lia|].
  destruct Hx as [([-> | ->] & Hi)|([-> |[-> | ->]] & Hi)];
    [change (zn 0 fshape 0) with dsize|change (zn 0 fshape 1) with dsize|change (zn 0 fshape 2) with osize|change (zn 0 fshape 3) with osize|change (zn 0 fshape 4) with (osize + nB)]; lia.
Qed.

(** Cells of the diag and offd arrays filled up to d and o. *)
Definition filled (t d o : Z) (m : mem V) : Prop :=
  shape m = fshape /\
  (forall x i, (x = 0 \/ x = 1) -> off edrow (ts t) <= i < d -> m_get m x i = Ok (ffin t x i)) /\
  (forall x i, (x = 2 \/ x = 3 \/ x = 4) -> off eorow (ts t) <= i < o -> m_get m x i = Ok (ffin t x i)).

Lemma ext_fill_wp (m : mem V) t : shape m = fshape -> 0 <= t < n ->
  wp (fw t) (nor t) (ext_fill_thread ext fc lc (map (off edrow) (zrange 0 (rows + 1))) (map (off eorow) (zrange 0 (rows + 1))) rows n t) m
     (fun _ m' => forall x i, fw t x i -> m_get m' x i = Ok (ffin t x i)).
Proof.
  intros Sm Ht. unfold ext_fill_thread. rewrite thread_range_eq by lia. fold ts.
  pose proof (tstart_range rows n t Hrows Hn ltac:(lia)) as R1. pose proof (tstart_range rows n (t + 1) Hrows Hn ltac:(lia)) as R2. pose proof (tstart_S rows n t Hrows Hn) as R3. fold ts in R1, R2, R3.
  rewrite !(get_ok 0) by (rewrite zlen_map_zrange; lia). cbn [lift pbind]. rewrite !zn_map_zrange by lia.
  apply wp_bind. apply (wp_pfor _ _ (fun i st mm => filled t (fst st) (snd st) mm /\ st = (off edrow i, off eorow i))).
  - exact R3.
  - split; [|reflexivity]. cbn [fst snd]. split; [exact Sm|]. split; intros; lia.
  - intros i st mm Hi (Hd & ->). destruct (Hext i ltac:(lia)) as (VE & He).
    apply (wp_over_row _ _ (fun pre st mm => filled t (fst st) (snd st) mm /\ st = (off edrow i + zlen (fD pre), off eorow i + zlen (fO pre)))); [exact VE|lia| | |].
    + split; [exact Hd|]. change (zlen (fD [])) with 0. change (zlen (fO [])) with 0. now rewrite !Z.add_0_r.
    + intros pre c v post st m1 E (H1 & ->). cbn [fst snd] in H1. destruct H1 as (Sh & F1 & F2).
      assert (Ed : zlen (fD pre) + zlen (fD ((c, v) :: post)) = zlen (edrow i)) by (unfold edrow; rewrite zlen_map; fold (fD (row_of ext i)); rewrite E; unfold fD; now rewrite filter_app, zlen_app).
      assert (Eo : zlen (fO pre) + zlen (fO ((c, v) :: post)) = zlen (eorow i)) by (unfold eorow; fold (fO (row_of ext i)); rewrite E; unfold fO; now rewrite filter_app, zlen_app).
      assert (Md : off edrow i + zlen (edrow i) <= off edrow (ts (t + 1))) by (rewrite <- off_succ by lia; apply off_mono; lia).
      assert (Mo : off eorow i + zlen (eorow i) <= off eorow (ts (t + 1))) by (rewrite <- off_succ by lia; apply off_mono; lia).
      assert (Ld : off edrow (ts t) <= off edrow i) by (apply off_mono; lia). assert (Lo : off eorow (ts t) <= off eorow i) by (apply off_mono; lia).
      pose proof (zlen_nonneg (fD pre)) as Z1. pose proof (zlen_nonneg (fO pre)) as Z2.
      assert (Cd : fD ((c, v) :: post) = if outside fc lc c then fD post else (c, v) :: fD post) by (unfold fD; cbn [filter fst]; now destruct (outside fc lc c)).
      assert (Co : fO ((c, v) :: post) = if outside fc lc c then (c, v) :: fO post else fO post) by reflexivity.
      assert (Ad : fD (pre ++ [(c, v)]) = if outside fc lc c then fD pre else fD pre ++ [(c, v)]) by (unfold fD; rewrite filter_app; cbn [filter fst]; destruct (outside fc lc c); cbn [negb]; now rewrite ?app_nil_r).
      assert (Ao : fO (pre ++ [(c, v)]) = if outside fc lc c then fO pre ++ [(c, v)] else fO pre) by (unfold fO; rewrite filter_app; cbn [filter fst]; destruct (outside fc lc c); now rewrite ?app_nil_r).
      rewrite Cd in Ed. rewrite Co in Eo. rewrite Ad, Ao. destruct (outside fc lc c) eqn:Ec.
      * rewrite zlen_cons in Eo. pose proof (zlen_nonneg (fO post)) as Z3.
        rewrite zlen_app, zlen_cons, zlen_nil. set (p := off eorow i + zlen (fO pre)) in *.
        assert (Ep : zn (0, s0) ocat p = (c, v)).
        { unfold ocat, p. rewrite zn_cat by lia. unfold eorow. rewrite E, filter_app. cbn [filter fst]. rewrite Ec. fold (fO pre). rewrite zn_app_r by lia. now rewrite Z.sub_diag. }
        assert (Wp : forall x, x = 2 \/ x = 3 \/ x = 4 -> fw t x p) by (intros x Hx; right; split; [exact Hx|unfold p; lia]).
        apply wp_bind. apply wp_wr; [apply Wp; lia|apply (fw_inside m1 t 4 p); auto|]. intros m2 S2. pose proof (proj1 S2).
        apply wp_bind. apply wp_wr; [apply Wp; lia|apply (fw_inside m2 t 2 p); auto; congruence|]. intros m3 S3. pose proof (proj1 S3).
        apply wp_bind. apply wp_wr; [apply Wp; lia|apply (fw_inside m3 t 3 p); auto; congruence|]. intros m4 S4. pose proof (proj1 S4).
        cbn [wp fst snd]. split; [|f_equal; lia]. split; [congruence|]. split.
        -- intros x j Hx Hj. rewrite (stored_other _ _ _ _ _ x j S4), (stored_other _ _ _ _ _ x j S3), (stored_other _ _ _ _ _ x j S2) by lia. now apply F1.
        -- intros x j Hx Hj. destruct (Z.eq_dec j p) as [->|Nj].
           ++ unfold ffin. rewrite Ep. destruct Hx as [-> |[-> | ->]]; cbn [Z.eqb Pos.eqb fst snd].
              ** rewrite (stored_other _ _ _ _ _ 2 p S4) by lia. apply (stored_same _ _ _ _ _ S3).
              ** apply (stored_same _ _ _ _ _ S4).
              ** rewrite (stored_other _ _ _ _ _ 4 p S4), (stored_other _ _ _ _ _ 4 p S3) by lia. apply (stored_same _ _ _ _ _ S2).
           ++ rewrite (stored_other _ _ _ _ _ x j S4), (stored_other _ _ _ _ _ x j S3), (stored_other _ _ _ _ _ x j S2) by lia. apply F2; [exact Hx|lia].
      * rewrite zlen_cons in Ed. pose proof (zlen_nonneg (fD post)) as Z3.
        rewrite zlen_app, zlen_cons, zlen_nil. set (p := off edrow i + zlen (fD pre)) in *.
        assert (Ep : zn (0, s0) dcat p = (c - fc, v)).
        { unfold dcat, p. rewrite zn_cat by lia. unfold edrow. rewrite E, filter_app. cbn [filter fst]. rewrite Ec. cbn [negb]. fold (fD pre). rewrite map_app. cbn [map fst snd].
          rewrite zn_app_r by (rewrite zlen_map; lia). rewrite zlen_map. now rewrite Z.sub_diag. }
        assert (Wp : forall x, x = 0 \/ x = 1 -> fw t x p) by (intros x Hx; left; split; [exact Hx|unfold p; lia]).
        apply wp_bind. apply wp_wr; [apply Wp; lia|apply (fw_inside m1 t 0 p); auto|]. intros m2 S2. pose proof (proj1 S2).
        apply wp_bind. apply wp_wr; [apply Wp; lia|apply (fw_inside m2 t 1 p); auto; congruence|]. intros m3 S3. pose proof (proj1 S3).
        cbn [wp fst snd]. split; [|f_equal; lia]. split; [congruence|]. split.
        -- intros x j Hx Hj. destruct (Z.eq_dec j p) as [->|Nj].
           ++ unfold ffin. rewrite Ep. destruct Hx as [-> | ->]; cbn [Z.eqb Pos.eqb fst snd].
              ** rewrite (stored_other _ _ _ _ _ 0 p S3) by lia. apply (stored_same _ _ _ _ _ S2).
              ** apply (stored_same _ _ _ _ _ S3).
           ++ rewrite (stored_other _ _ _ _ _ x j S3), (stored_other _ _ _ _ _ x j S2) by lia. apply F1; [exact Hx|lia].
        -- intros x j Hx Hj. rewrite (stored_other _ _ _ _ _ x j S3), (stored_other _ _ _ _ _ x j S2) by lia. now apply F2.
    + intros st m1 (H1 & ->). split; [exact H1|]. rewrite !off_succ by lia. unfold edrow, eorow at 2. rewrite zlen_map. reflexivity.
  - intros st mm ((Sh & F1 & F2) & ->). cbn [wp]. intros x i [(Hx & Hi)|(Hx & Hi)]; [apply F1|apply F2]; auto.
Qed.

(* renumber *)

Variable g : Z -> Z.
Definition nw (t x i : Z) : Prop := x = 0 /\ off eorow (ts t) <= i < off eorow (ts (t + 1)).
Definition nfin (t x i : Z) : V := inl (g (fst (zn (0, s0) ocat i))).

Lemma ext_renumber_wp bsearch cmC (m : mem V) t : shape m = [osize] -> (forall i, 0 <= i < osize -> m_get m 0 i = Ok (inl (fst (zn (0, s0) ocat i)))) ->
  (forall c, bsearch cmC c (zlen cmC) = g c) -> 0 <= t < n ->
  wp (nw t) (nor t) (ext_renumber_thread bsearch cmC (map (off eorow) (zrange 0 (rows + 1))) rows n t) m
     (fun _ m' => forall x i, nw t x i -> m_get m' x i = Ok (nfin t x i)).
Proof.
  intros Sm Hm Hb Ht. unfold ext_renumber_thread. rewrite thread_range_eq by lia. fold ts.
  pose proof (tstart_range rows n t Hrows Hn ltac:(lia)) as R1. pose proof (tstart_range rows n (t + 1) Hrows Hn ltac:(lia)) as R2. pose proof (tstart_S rows n t Hrows Hn) as R3. fold ts in R1, R2, R3.
  pose proof (off_nonneg eorow (ts t)) as O0. pose proof (off_mono eorow (ts (t + 1)) rows R2) as O1. fold osize in O1.
  set (done := fun (k : Z) (mm : mem V) => shape mm = [osize] /\ (forall i, off eorow (ts t) <= i < k -> m_get mm 0 i = Ok (nfin t 0 i)) /\
     (forall i, k <= i < osize -> m_get mm 0 i = Ok (inl (fst (zn (0, s0) ocat i))))).
  apply (wp_pfor _ _ (fun i _ mm => done (off eorow i) mm)).
  - exact R3.
  - split; [exact Sm|]. split; [intros; lia|]. intros i Hi. apply Hm. lia.
  - intros i _ mm Hi Hd. rewrite !(get_ok 0) by (rewrite zlen_map_zrange; lia). cbn [lift pbind]. rewrite !zn_map_zrange by lia.
    pose proof (off_mono eorow i (i + 1) ltac:(lia)) as M1. pose proof (off_mono eorow (i + 1) (ts (t + 1)) ltac:(lia)) as M2. pose proof (off_mono eorow (ts t) i ltac:(lia)) as M3.
    apply (wp_pfor _ _ (fun k _ mm => done k mm)); [exact M1|exact Hd| |auto].
    intros k _ m1 Hk (Sh & D1 & D2). assert (Wk : nw t 0 k) by (split; [reflexivity|lia]).
    apply wp_bind. eapply wp_rdz; [right; exact Wk|apply D2; lia|]. rewrite Hb.
    apply wp_wr; [exact Wk|split; rewrite Sh; [rewrite zlen_cons, zlen_nil; lia|change (zn 0 [osize] 0) with osize; lia]|]. intros m2 S2. pose proof (proj1 S2).
    split; [congruence|]. split; intros j Hj.
    + destruct (Z.eq_dec j k) as [->|]; [apply (stored_same _ _ _ _ _ S2)|]. rewrite (stored_other _ _ _ _ _ 0 j S2) by lia. apply D1. lia.
    + rewrite (stored_other _ _ _ _ _ 0 j S2) by lia. apply D2. lia.
  - intros _ mm (_ & D & _) x i (-> & Hi). now apply D.
Qed.

End WithThreads.
End Ext.
