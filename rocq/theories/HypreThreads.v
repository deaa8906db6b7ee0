(** Thread ranges, rules for the programs of one thread, and the offset phases. *)

From Coq Require Import ZArith List Bool Lia.
From Verif Require Import Base Scalar Spec Dense Sparse LoopFacts Par Threads ThreadProofs HypreOps.
Import ListNotations.
Open Scope Z_scope.

(* ---------------------------------------------------------------- ranges *)

(** The first row of thread t. *)
Definition tstart (rows n t : Z) : Z := t * (rows / n) + Z.min t (rows mod n).

Lemma thread_range_eq rows n t : 0 <= rows -> 0 < n -> 0 <= t -> thread_range rows n t = (tstart rows n t, tstart rows n (t + 1)).
Proof.
  intros Hr Hn Ht. unfold thread_range, tstart. rewrite Z.quot_div_nonneg by lia. set (q := rows / n).
  replace (rows - q * n) with (rows mod n) by (unfold q; rewrite Z.mod_eq by lia; lia).
  destruct (Z.ltb_spec t (rows mod n)); f_equal; lia.
Qed.

Lemma tstart_0 rows n : 0 <= rows -> 0 < n -> tstart rows n 0 = 0.
Proof. intros Hr Hn. unfold tstart. pose proof (Z.mod_pos_bound rows n Hn). lia. Qed.

Lemma tstart_n rows n : 0 <= rows -> 0 < n -> tstart rows n n = rows.
Proof. intros Hr Hn. unfold tstart. pose proof (Z.mod_pos_bound rows n Hn). pose proof (Z.div_mod rows n ltac:(lia)). lia. Qed.

Lemma tstart_S rows n t : 0 <= rows -> 0 < n -> tstart rows n t <= tstart rows n (t + 1).
Proof. intros Hr Hn. unfold tstart. pose proof (Z.div_pos rows n Hr Hn). lia. Qed.

Lemma tstart_mono rows n s t : 0 <= rows -> 0 < n -> s <= t -> tstart rows n s <= tstart rows n t.
Proof.
  intros Hr Hn Hst. unfold tstart. pose proof (Z.div_pos rows n Hr Hn). pose proof (Z.mul_le_mono_nonneg_r s t (rows / n) ltac:(lia) Hst). lia.
Qed.

Lemma tstart_owner rows n i : 0 <= rows -> 0 < n -> 0 <= i < rows -> exists t, 0 <= t < n /\ tstart rows n t <= i < tstart rows n (t + 1).
Proof.
  intros Hr Hn Hi.
  assert (G : forall k, 0 <= k -> k <= n -> i < tstart rows n k -> exists t, 0 <= t < k /\ tstart rows n t <= i < tstart rows n (t + 1)).
  { intros k Hk. pattern k. revert k Hk. apply natlike_ind.
    - intros _ H. rewrite tstart_0 in H by lia. lia.
    - intros k Hk IH Hkn H. destruct (Z_lt_ge_dec i (tstart rows n k)) as [L|L].
      + destruct (IH ltac:(lia) L) as (t & H1 & H2). exists t. split; [lia|exact H2].
      + exists k. split; [lia|]. unfold Z.succ in H. lia. }
  apply G; [lia|lia|]. rewrite tstart_n by lia. lia.
Qed.

Lemma tstart_unique rows n s t i : 0 <= rows -> 0 < n -> tstart rows n s <= i < tstart rows n (s + 1) -> tstart rows n t <= i < tstart rows n (t + 1) -> s = t.
Proof.
  intros Hr Hn Hs Ht. destruct (Z.lt_trichotomy s t) as [L|[L|L]]; [|exact L|].
  - pose proof (tstart_mono rows n (s + 1) t Hr Hn ltac:(lia)). lia.
  - pose proof (tstart_mono rows n (t + 1) s Hr Hn ltac:(lia)). lia.
Qed.

Lemma tstart_range rows n t : 0 <= rows -> 0 < n -> 0 <= t <= n -> 0 <= tstart rows n t <= rows.
Proof.
  intros Hr Hn Ht. rewrite <- (tstart_0 rows n Hr Hn) at 1. rewrite <- (tstart_n rows n Hr Hn) at 4. split; apply tstart_mono; lia.
Qed.

(* ---------------------------------------------------------------- rules *)

Section Rules.
Context {V : Type}.
Implicit Types (m : mem V).

Definition inside (sh : list Z) (x i : Z) : Prop := 0 <= x < zlen sh /\ 0 <= i < zn 0 sh x.

Lemma inside_get m x i : inside (shape m) x i -> exists v, m_get m x i = Ok v.
Proof.
  unfold inside, shape. rewrite zlen_map. intros (Hx & Hi). rewrite (zn_map []) in Hi by exact Hx. unfold m_get. rewrite (get_ok []) by exact Hx. cbn [bind].
  destruct (get (zn [] m x) i) as [v|] eqn:E; [now exists v|]. exfalso. destruct (zn [] m x) as [|v l] eqn:El; [change (zlen (@nil V)) with 0 in Hi; lia|].
  rewrite (get_ok v) in E by exact Hi. discriminate.
Qed.

Definition stored m m' x i (v : V) : Prop :=
  shape m' = shape m /\ forall y j, m_get m' y j = if (y =? x) && (j =? i) then Ok v else m_get m y j.

Lemma stored_same m m' x i v : stored m m' x i v -> m_get m' x i = Ok v.
Proof. intros (_ & H). rewrite H, !Z.eqb_refl. reflexivity. Qed.

Lemma stored_other m m' x i v y j : stored m m' x i v -> (y <> x \/ j <> i) -> m_get m' y j = m_get m y j.
Proof. intros (_ & H) N. rewrite H. destruct (Z.eqb_spec y x), (Z.eqb_spec j i); cbn [andb]; try reflexivity. lia. Qed.

Lemma wp_wr (W R : Z -> Z -> Prop) x i (v : V) m (Q : unit -> mem V -> Prop) : W x i -> inside (shape m) x i -> (forall m', stored m m' x i v -> Q tt m') -> wp W R (wr x i v) m Q.
Proof.
  intros Hw Hi H. cbn. split; [exact Hw|]. destruct (inside_get m x i Hi) as (w & Ew). destruct (m_set_ok m x i v w Ew) as (m' & Em). exists m'. split; [exact Em|].
  apply H. split; [exact (shape_set _ _ _ _ _ Em)|]. intros y j. exact (m_get_set m x i v m' y j Em).
Qed.

(** Closed form of one phase: thread t leaves fin t x i in every cell (x,i) it writes. *)
Lemma phase_cells (n : Z) (f : Z -> prog V unit) (W R : Z -> Z -> Z -> Prop) (fin : Z -> Z -> Z -> V) m sched : 0 <= n ->
  (forall t, 0 <= t < n -> wp (W t) (R t) (f t) m (fun _ m' => forall x i, W t x i -> m_get m' x i = Ok (fin t x i))) ->
  (forall s t x i, 0 <= s < n -> 0 <= t < n -> s <> t -> W s x i -> ~ (R t x i \/ W t x i)) ->
  exists vals m', par_phase sched (map f (zrange 0 n)) m = Ok (vals, m') /\ shape m' = shape m /\
    (forall t x i, 0 <= t < n -> W t x i -> m_get m' x i = Ok (fin t x i)) /\
    (forall x i, (forall t, 0 <= t < n -> ~ W t x i) -> m_get m' x i = m_get m x i).
Proof.
  intros Hn Hw Hs. assert (Ln : zlen (map f (zrange 0 n)) = n) by (rewrite zlen_map_zrange; lia).
  destruct (par_phase_ok (Ret tt) (map f (zrange 0 n)) W R (fun t _ m' => forall x i, W t x i -> m_get m' x i = Ok (fin t x i)) m) with (sched := sched) as (vals & m' & E & L & Sh & D & O).
  - rewrite Ln. intros t Ht. rewrite zn_map_zrange by lia. now apply Hw.
  - rewrite Ln. exact Hs.
  - rewrite Ln in *. exists vals, m'. split; [exact E|]. split; [exact Sh|]. split; [|exact O].
    intros t x i Ht HW. destruct (D t tt Ht) as (mt & Q & _ & A).
    + rewrite (get_ok tt) by lia. now destruct (zn tt vals t).
    + rewrite (A x i HW). now apply Q.
Qed.

End Rules.

Section Cells.
Context {S : scalar}.
Notation T := (car S).
Notation V := (Z + T)%type.
Implicit Types (m : mem V).

Lemma wp_rdz (W R : Z -> Z -> Prop) x i z m (Q : Z -> mem V -> Prop) : (R x i \/ W x i) -> m_get m x i = Ok (inl z) -> Q z m -> wp W R (rdz x i) m Q.
Proof. intros H E HQ. cbn. split; [exact H|]. exists (inl z). split; [exact E|exact HQ]. Qed.

Lemma wp_rdv (W R : Z -> Z -> Prop) x i t m (Q : T -> mem V -> Prop) : (R x i \/ W x i) -> m_get m x i = Ok (inr t) -> Q t m -> wp W R (rdv x i) m Q.
Proof. intros H E HQ. cbn. split; [exact H|]. exists (inr t). split; [exact E|exact HQ]. Qed.

Lemma foldM_ints (a : list V) g : (forall i, 0 <= i < zlen a -> get a i = Ok (inl (g i))) ->
  foldM (fun acc c => match c with inl z => Ok (acc ++ [z]) | inr _ => Fail FUB end) a [] = Ok (map g (zrange 0 (zlen a))).
Proof.
  induction a as [|c a IH] using rev_ind; intros H; [reflexivity|]. rewrite foldM_app, zlen_app, zlen_cons, zlen_nil. pose proof (zlen_nonneg a) as Ha.
  rewrite IH.
  - cbn [bind foldM]. specialize (H (zlen a) ltac:(rewrite zlen_app, zlen_cons, zlen_nil; lia)). rewrite (get_ok c) in H by (rewrite zlen_app, zlen_cons, zlen_nil; lia).
    rewrite zn_app_r in H by lia. rewrite Z.sub_diag in H. change (zn c [c] 0) with c in H. injection H as ->.
    replace (zlen a + (0 + 1)) with (zlen a + 1) by lia. rewrite (zrange_snoc 0 (zlen a + 1)) by lia. rewrite map_app. cbn [map]. now replace (zlen a + 1 - 1) with (zlen a) by lia.
  - intros i Hi. rewrite <- (H i) by (rewrite zlen_app, zlen_cons, zlen_nil; lia). rewrite (get_ok c) by lia. rewrite (get_ok c) by (rewrite zlen_app, zlen_cons, zlen_nil; lia). now rewrite zn_app_l by lia.
Qed.

Lemma foldM_doubles (a : list V) (g : Z -> T) : (forall i, 0 <= i < zlen a -> get a i = Ok (inr (g i))) ->
  foldM (fun acc c => match c with inl _ => Fail FUB | inr t => Ok (acc ++ [t]) end) a [] = Ok (map g (zrange 0 (zlen a))).
Proof.
  induction a as [|c a IH] using rev_ind; intros H; [reflexivity|]. rewrite foldM_app, zlen_app, zlen_cons, zlen_nil. pose proof (zlen_nonneg a) as Ha.
  rewrite IH.
  - cbn [bind foldM]. specialize (H (zlen a) ltac:(rewrite zlen_app, zlen_cons, zlen_nil; lia)). rewrite (get_ok c) in H by (rewrite zlen_app, zlen_cons, zlen_nil; lia).
    rewrite zn_app_r in H by lia. rewrite Z.sub_diag in H. change (zn c [c] 0) with c in H. injection H as ->.
    replace (zlen a + (0 + 1)) with (zlen a + 1) by lia. rewrite (zrange_snoc 0 (zlen a + 1)) by lia. rewrite map_app. cbn [map]. now replace (zlen a + 1 - 1) with (zlen a) by lia.
  - intros i Hi. rewrite <- (H i) by (rewrite zlen_app, zlen_cons, zlen_nil; lia). rewrite (get_ok c) by lia. rewrite (get_ok c) by (rewrite zlen_app, zlen_cons, zlen_nil; lia). now rewrite zn_app_l by lia.
Qed.

Lemma array_len m x : 0 <= x < zlen (shape m) -> exists a, get m x = Ok a /\ zlen a = zn 0 (shape m) x.
Proof. unfold shape. rewrite zlen_map. intros Hx. rewrite (get_ok []) by exact Hx. exists (zn [] m x). split; [reflexivity|]. now rewrite (zn_map []) by exact Hx. Qed.

Lemma ints_ok m x (g : Z -> Z) : 0 <= x < zlen (shape m) -> (forall i, 0 <= i < zn 0 (shape m) x -> m_get m x i = Ok (inl (g i))) ->
  ints m x = Ok (map g (zrange 0 (zn 0 (shape m) x))).
Proof.
  intros Hx H. destruct (array_len m x Hx) as (a & E & L). unfold ints, m_get in *. rewrite E in *. cbn [bind] in *. rewrite <- L in *. now apply foldM_ints.
Qed.

Lemma doubles_ok m x (g : Z -> T) : 0 <= x < zlen (shape m) -> (forall i, 0 <= i < zn 0 (shape m) x -> m_get m x i = Ok (inr (g i))) ->
  doubles m x = Ok (map g (zrange 0 (zn 0 (shape m) x))).
Proof.
  intros Hx H. destruct (array_len m x Hx) as (a & E & L). unfold doubles, m_get in *. rewrite E in *. cbn [bind] in *. rewrite <- L in *. now apply foldM_doubles.
Qed.

(** A region with a closed form. *)
Lemma region_ok (n : Z) (f : Z -> prog V unit) (W R : Z -> Z -> Z -> Prop) (fin : Z -> Z -> Z -> V) m sched : 0 <= n ->
  (forall t, 0 <= t < n -> wp (W t) (R t) (f t) m (fun _ m' => forall x i, W t x i -> m_get m' x i = Ok (fin t x i))) ->
  (forall s t x i, 0 <= s < n -> 0 <= t < n -> s <> t -> W s x i -> ~ (R t x i \/ W t x i)) ->
  exists m', region n sched f m = Ok m' /\ shape m' = shape m /\
    (forall t x i, 0 <= t < n -> W t x i -> m_get m' x i = Ok (fin t x i)) /\
    (forall x i, (forall t, 0 <= t < n -> ~ W t x i) -> m_get m' x i = m_get m x i).
Proof.
  intros Hn Hw Hs. destruct (phase_cells n f W R fin m sched Hn Hw Hs) as (vals & m' & E & H). exists m'. split; [|exact H]. unfold region. now rewrite E.
Qed.

(* ---------------------------------------------------------------- offset phases *)

Section Offsets.
Variables (rows n : Z).
Hypothesis Hr : 0 <= rows.
Hypothesis Hn : 0 < n.
Variables Fd Fo : Z -> Z.
Hypothesis Fd0 : Fd 0 = 0.
Hypothesis Fo0 : Fo 0 = 0.
Let ts := tstart rows n.

Definition oshape : list Z := [rows + 1; rows + 1; n; n].

(** After the counting phase. *)
Definition counted m : Prop :=
  shape m = oshape /\
  (forall t i, 0 <= t < n -> ts t <= i < ts (t + 1) -> m_get m 0 i = Ok (inl (Fd i - Fd (ts t))) /\ m_get m 1 i = Ok (inl (Fo i - Fo (ts t)))) /\
  (forall t, 0 <= t < n -> m_get m 2 t = Ok (inl (Fd (ts (t + 1)) - Fd (ts t))) /\ m_get m 3 t = Ok (inl (Fo (ts (t + 1)) - Fo (ts t)))).

Definition ow (t x i : Z) : Prop := (x = 0 \/ x = 1) /\ (ts t <= i < ts (t + 1) \/ (t = 0 /\ i = rows)).
Definition orr (t x i : Z) : Prop := x = 2 \/ x = 3.
Definition ofin (x i : Z) : V := inl (if x =? 0 then Fd i else Fo i).

Lemma ts_range t : 0 <= t <= n -> 0 <= ts t <= rows.
Proof. intros H. now apply tstart_range. Qed.

Lemma ow_sep s t x i : 0 <= s < n -> 0 <= t < n -> s <> t -> ow s x i -> ~ (orr t x i \/ ow t x i).
Proof.
  intros Hs Ht Hne (Hx & Hi) [[->| ->]|(Hx' & Hi')]; [lia|lia|].
  pose proof (ts_range (s + 1) ltac:(lia)). pose proof (ts_range (t + 1) ltac:(lia)).
  destruct Hi as [Hi|Hi], Hi' as [Hi'|Hi']; try lia. apply Hne. apply (tstart_unique rows n s t i Hr Hn Hi Hi').
Qed.

Lemma ow_inside m t x i : 0 <= t < n -> shape m = oshape -> ow t x i -> inside (shape m) x i.
Proof.
  intros Ht -> (Hx & Hi). pose proof (ts_range t ltac:(lia)). pose proof (ts_range (t + 1) ltac:(lia)).
  split; [unfold oshape; rewrite !zlen_cons, zlen_nil; lia|]. destruct Hx as [-> | ->]; [change (zn 0 oshape 0) with (rows + 1)|change (zn 0 oshape 1) with (rows + 1)]; lia.
Qed.

Lemma shift_wp m t : counted m -> 0 < t < n ->
  wp (ow t) (orr t) (shift_thread rows n t) m (fun _ m' => forall x i, ow t x i -> m_get m' x i = Ok (ofin x i)).
Proof.
  intros (Sh & C1 & C2) Ht. unfold shift_thread. rewrite thread_range_eq by lia. fold (ts t) (ts (t + 1)).
  pose proof (ts_range t ltac:(lia)) as R1. pose proof (ts_range (t + 1) ltac:(lia)) as R2. pose proof (tstart_S rows n t Hr Hn) as R3. fold (ts t) (ts (t + 1)) in R3.
  assert (T0 : ts 0 = 0) by now apply tstart_0.
  apply wp_bind. apply (wp_rdz _ _ 2 0 (Fd (ts 1))); [left; now left|rewrite (proj1 (C2 0 ltac:(lia))), T0, Fd0, Z.sub_0_r; reflexivity|].
  apply wp_bind. apply (wp_rdz _ _ 3 0 (Fo (ts 1))); [left; now right|rewrite (proj2 (C2 0 ltac:(lia))), T0, Fo0, Z.sub_0_r; reflexivity|].
  apply wp_bind. apply (wp_pfor _ _ (fun k st mm => mm = m /\ st = (Fd (ts k), Fo (ts k)))); [lia|auto| |].
  - intros k st mm Hk (-> & ->). cbn [fst snd]. apply wp_bind. eapply wp_rdz; [left; now left|apply (C2 k); lia|]. apply wp_bind. eapply wp_rdz; [left; now right|apply (C2 k); lia|].
    cbn [wp]. split; [reflexivity|]. f_equal; lia.
  - intros st mm (-> & ->).
    apply (wp_pfor _ _ (fun i _ mm => shape mm = oshape /\
      (forall j, ts t <= j < i -> m_get mm 0 j = Ok (inl (Fd j)) /\ m_get mm 1 j = Ok (inl (Fo j))) /\
      (forall j, i <= j < ts (t + 1) -> m_get mm 0 j = m_get m 0 j /\ m_get mm 1 j = m_get m 1 j))); [exact R3|repeat split; auto; lia| |].
    + intros i _ mm Hi (Sm & Hd & Hk).
      assert (W0 : ow t 0 i) by (split; [now left|left; lia]). assert (W1 : ow t 1 i) by (split; [now right|left; lia]).
      apply wp_bind. eapply wp_rdz; [now right|rewrite (proj1 (Hk i ltac:(lia))); apply (C1 t i); lia|].
      apply wp_bind. apply wp_wr; [exact W0|apply (ow_inside mm t 0 i); [lia|exact Sm|exact W0]|]. intros m1 S1. pose proof (proj1 S1) as Sh1.
      apply wp_bind. eapply wp_rdz; [now right| rewrite (stored_other _ _ _ _ _ 1 i S1) by lia; rewrite (proj2 (Hk i ltac:(lia))); apply (C1 t i); lia|].
      apply wp_wr; [exact W1|apply (ow_inside m1 t 1 i); [lia|congruence|exact W1]|]. intros m2 S2. pose proof (proj1 S2) as Sh2.
      split; [congruence|]. split.
      * intros j Hj. destruct (Z.eq_dec j i) as [->|Ne].
        -- split; [rewrite (stored_other _ _ _ _ _ 0 i S2) by lia; rewrite (stored_same _ _ _ _ _ S1); do 2 f_equal; lia|rewrite (stored_same _ _ _ _ _ S2); do 2 f_equal; lia].
        -- rewrite !(stored_other _ _ _ _ _ _ j S2), !(stored_other _ _ _ _ _ _ j S1) by lia. apply Hd. lia.
      * intros j Hj. rewrite !(stored_other _ _ _ _ _ _ j S2), !(stored_other _ _ _ _ _ _ j S1) by lia. apply Hk. lia.
    + intros _ mm (Sm & Hd & _) x i (Hx & [Hi|Hi]); [|lia]. unfold ofin. destruct Hx as [-> | ->]; cbn [Z.eqb]; now apply Hd.
Qed.

Lemma ext_offsets_wp m t : counted m -> 0 <= t < n ->
  wp (ow t) (orr t) (ext_offsets_thread rows n t) m (fun _ m' => forall x i, ow t x i -> m_get m' x i = Ok (ofin x i)).
Proof.
  intros C Ht. unfold ext_offsets_thread. destruct (Z.eqb_spec t 0) as [->|Ne]; cbn [negb]; [|apply shift_wp; [exact C|lia]].
  destruct C as (Sh & C1 & C2). assert (T0 : ts 0 = 0) by now apply tstart_0. assert (Tn : ts n = rows) by now apply tstart_n.
  apply wp_bind. apply (wp_pfor _ _ (fun k st mm => mm = m /\ st = (Fd (ts k), Fo (ts k)))); [lia|rewrite T0, Fd0, Fo0; auto| |].
  - intros k st mm Hk (-> & ->). cbn [fst snd]. apply wp_bind. eapply wp_rdz; [left; now left|apply (C2 k); lia|]. apply wp_bind. eapply wp_rdz; [left; now right|apply (C2 k); lia|].
    cbn [wp]. split; [reflexivity|]. f_equal; lia.
  - intros st mm (-> & ->). rewrite Tn.
    assert (W0 : ow 0 0 rows) by (split; [now left|now right]). assert (W1 : ow 0 1 rows) by (split; [now right|now right]).
    apply wp_bind. apply wp_wr; [exact W0|now apply (ow_inside m 0 0 rows)|]. intros m1 S1. pose proof (proj1 S1) as Sh1.
    apply wp_wr; [exact W1|apply (ow_inside m1 0 1 rows); [lia|congruence|exact W1]|]. intros m2 S2.
    pose proof (ts_range 1 ltac:(lia)) as R1. intros x i (Hx & Hi).
    destruct (Z.eq_dec i rows) as [->|Nr].
    + unfold ofin. destruct Hx as [-> | ->]; cbn [Z.eqb]; [rewrite (stored_other _ _ _ _ _ 0 rows S2) by lia; apply (stored_same _ _ _ _ _ S1)|apply (stored_same _ _ _ _ _ S2)].
    + rewrite (stored_other _ _ _ _ _ x i S2), (stored_other _ _ _ _ _ x i S1) by lia. destruct (C1 0 i ltac:(lia) ltac:(lia)) as (E1 & E2). rewrite T0, Fd0, Z.sub_0_r in E1. rewrite T0, Fo0, Z.sub_0_r in E2.
      unfold ofin. destruct Hx as [-> | ->]; cbn [Z.eqb]; assumption.
Qed.

Lemma row_offsets_wp m t : counted m -> 0 <= t < n ->
  wp (ow t) (orr t) (row_offsets_thread rows n t) m (fun _ m' => forall x i, ow t x i -> m_get m' x i = Ok (ofin x i)).
Proof.
  intros C Ht. unfold row_offsets_thread. destruct (Z.eqb_spec t 0) as [->|Ne]; cbn [negb]; [|apply shift_wp; [exact C|lia]].
  destruct C as (Sh & C1 & C2). assert (T0 : ts 0 = 0) by now apply tstart_0. assert (Tn : ts n = rows) by now apply tstart_n.
  assert (W0 : ow 0 0 rows) by (split; [now left|now right]). assert (W1 : ow 0 1 rows) by (split; [now right|now right]).
  apply wp_bind. apply wp_wr; [exact W0|now apply (ow_inside m 0 0 rows)|]. intros m1 S1. pose proof (proj1 S1) as Sh1.
  apply wp_bind. apply wp_wr; [exact W1|apply (ow_inside m1 0 1 rows); [lia|congruence|exact W1]|]. intros m2 S2. pose proof (proj1 S2) as Sh2.
  apply (wp_pfor _ _ (fun k _ mm => shape mm = oshape /\ m_get mm 0 rows = Ok (inl (Fd (ts k))) /\ m_get mm 1 rows = Ok (inl (Fo (ts k))) /\
    forall x i, i <> rows \/ (x <> 0 /\ x <> 1) -> m_get mm x i = m_get m x i)); [lia| | |].
  - split; [congruence|]. rewrite T0, Fd0, Fo0. split; [rewrite (stored_other _ _ _ _ _ 0 rows S2) by lia; apply (stored_same _ _ _ _ _ S1)|].
    split; [apply (stored_same _ _ _ _ _ S2)|]. intros x i Hx. now rewrite (stored_other _ _ _ _ _ x i S2), (stored_other _ _ _ _ _ x i S1) by lia.
  - intros k _ mm Hk (Sm & E0 & E1 & Eo).
    apply wp_bind. eapply wp_rdz; [now right|exact E0|].
    apply wp_bind. eapply wp_rdz; [left; now left|rewrite Eo by lia; apply (C2 k); lia|].
    apply wp_bind. apply wp_wr; [exact W0|now apply (ow_inside mm 0 0 rows)|]. intros m3 S3. pose proof (proj1 S3) as Sh3.
    apply wp_bind. eapply wp_rdz; [now right|rewrite (stored_other _ _ _ _ _ 1 rows S3) by lia; exact E1|].
    apply wp_bind. eapply wp_rdz; [left; now right|rewrite (stored_other _ _ _ _ _ 3 k S3) by lia; rewrite Eo by lia; apply (C2 k); lia|].
    apply wp_wr; [exact W1|apply (ow_inside m3 0 1 rows); [lia|congruence|exact W1]|]. intros m4 S4. pose proof (proj1 S4) as Sh4.
    split; [congruence|]. split; [rewrite (stored_other _ _ _ _ _ 0 rows S4) by lia; rewrite (stored_same _ _ _ _ _ S3); do 2 f_equal; lia|].
    split; [rewrite (stored_same _ _ _ _ _ S4); do 2 f_equal; lia|]. intros x i Hx. rewrite (stored_other _ _ _ _ _ x i S4), (stored_other _ _ _ _ _ x i S3) by lia. apply Eo. lia.
  - intros _ mm (Sm & E0 & E1 & Eo) x i (Hx & Hi). rewrite Tn in *. pose proof (ts_range 1 ltac:(lia)) as R1.
    destruct (Z.eq_dec i rows) as [->|Nr].
    + unfold ofin. destruct Hx as [-> | ->]; cbn [Z.eqb]; assumption.
    + rewrite Eo by lia. destruct (C1 0 i ltac:(lia) ltac:(lia)) as (F1 & F2). rewrite T0, Fd0, Z.sub_0_r in F1. rewrite T0, Fo0, Z.sub_0_r in F2.
      unfold ofin. destruct Hx as [-> | ->]; cbn [Z.eqb]; assumption.
Qed.

(** The counting phases. *)
Definition cw (t x i : Z) : Prop := ((x = 0 \/ x = 1) /\ ts t <= i < ts (t + 1)) \/ ((x = 2 \/ x = 3) /\ i = t).
Definition nor (t x i : Z) : Prop := False.
Definition cfin (t x i : Z) : V :=
  inl (if x =? 0 then Fd i - Fd (ts t) else if x =? 1 then Fo i - Fo (ts t) else if x =? 2 then Fd (ts (t + 1)) - Fd (ts t) else Fo (ts (t + 1)) - Fo (ts t)).

Lemma cw_inside m t x i : 0 <= t < n -> shape m = oshape -> cw t x i -> inside (shape m) x i.
Proof.
  intros Ht -> Hx. pose proof (ts_range t ltac:(lia)). pose proof (ts_range (t + 1) ltac:(lia)).
  split; [unfold oshape; rewrite !zlen_cons, zlen_nil; destruct Hx as [(Hx & Hi)|(Hx & Hi)]; lia|].
  destruct Hx as [([-> | ->] & Hi)|([-> | ->] & ->)]; [change (zn 0 oshape 0) with (rows + 1)|change (zn 0 oshape 1) with (rows + 1)|change (zn 0 oshape 2) with n|change (zn 0 oshape 3) with n]; lia.
Qed.

Lemma count_region (f : Z -> prog V unit) m sched : shape m = oshape ->
  (forall t, 0 <= t < n -> wp (cw t) (nor t) (f t) m (fun _ m' => forall x i, cw t x i -> m_get m' x i = Ok (cfin t x i))) ->
  exists m', region n sched f m = Ok m' /\ counted m'.
Proof.
  intros Sm Hf. destruct (region_ok n f cw nor cfin m sched ltac:(lia) Hf) as (m' & E & Sh & D & _).
  - intros s t x i Hs Ht Hne Hw [[]|Hw']. destruct Hw as [(Hx & Hi)|(Hx & Hi)], Hw' as [(Hx' & Hi')|(Hx' & Hi')]; try lia.
    apply Hne. apply (tstart_unique rows n s t i Hr Hn Hi Hi').
  - exists m'. split; [exact E|]. split; [congruence|]. split.
    + intros t i Ht Hi. split; [exact (D t 0 i Ht (or_introl (conj (or_introl eq_refl) Hi)))|exact (D t 1 i Ht (or_introl (conj (or_intror eq_refl) Hi)))].
    + intros t Ht. split; [exact (D t 2 t Ht (or_intror (conj (or_introl eq_refl) eq_refl)))|exact (D t 3 t Ht (or_intror (conj (or_intror eq_refl) eq_refl)))].
Qed.

(** The end of a counting thread: after the rows are done, the totals are stored. *)
Definition rows_done (t i : Z) m : Prop :=
  shape m = oshape /\ forall j, ts t <= j < i -> m_get m 0 j = Ok (inl (Fd j - Fd (ts t))) /\ m_get m 1 j = Ok (inl (Fo j - Fo (ts t))).

Lemma rows_done_step (W R : Z -> Z -> Prop) t i m (Q : unit -> mem V -> Prop) : 0 <= t < n -> ts t <= i < ts (t + 1) -> rows_done t i m -> (forall x j, cw t x j -> W x j) ->
  (forall m', rows_done t (i + 1) m' -> Q tt m') -> wp W R (wrz 0 i (Fd i - Fd (ts t)) ~;; wrz 1 i (Fo i - Fo (ts t))) m Q.
Proof.
  intros Ht Hi (Sh & Hd) HW HQ.
  assert (W0 : cw t 0 i) by (left; split; [now left|lia]). assert (W1 : cw t 1 i) by (left; split; [now right|lia]).
  apply wp_bind. apply wp_wr; [now apply HW|apply (cw_inside m t 0 i); auto|]. intros m1 S1. pose proof (proj1 S1).
  apply wp_wr; [now apply HW|apply (cw_inside m1 t 1 i); auto; congruence|]. intros m2 S2. pose proof (proj1 S2).
  apply HQ. split; [congruence|]. intros j Hj. destruct (Z.eq_dec j i) as [->|Ne].
  - split; [rewrite (stored_other _ _ _ _ _ 0 i S2) by lia; apply (stored_same _ _ _ _ _ S1)|apply (stored_same _ _ _ _ _ S2)].
  - rewrite !(stored_other _ _ _ _ _ _ j S2), !(stored_other _ _ _ _ _ _ j S1) by lia. apply Hd. lia.
Qed.

Lemma totals_done (W R : Z -> Z -> Prop) t m : 0 <= t < n -> rows_done t (ts (t + 1)) m -> (forall x j, cw t x j -> W x j) ->
  wp W R (wrz 2 t (Fd (ts (t + 1)) - Fd (ts t)) ~;; wrz 3 t (Fo (ts (t + 1)) - Fo (ts t))) m (fun _ m' => forall x i, cw t x i -> m_get m' x i = Ok (cfin t x i)).
Proof.
  intros Ht (Sh & Hd) HW. assert (W2 : cw t 2 t) by (right; split; [now left|lia]). assert (W3 : cw t 3 t) by (right; split; [now right|lia]).
  apply wp_bind. apply wp_wr; [now apply HW|apply (cw_inside m t 2 t); auto|]. intros m1 S1. pose proof (proj1 S1).
  apply wp_wr; [now apply HW|apply (cw_inside m1 t 3 t); auto; congruence|]. intros m2 S2. unfold cfin.
  intros x i [([-> | ->] & Hi)|([-> | ->] & ->)]; cbn [Z.eqb Pos.eqb].
  - rewrite (stored_other _ _ _ _ _ 0 i S2), (stored_other _ _ _ _ _ 0 i S1) by lia. now apply Hd.
  - rewrite (stored_other _ _ _ _ _ 1 i S2), (stored_other _ _ _ _ _ 1 i S1) by lia. now apply Hd.
  - rewrite (stored_other _ _ _ _ _ 2 t S2) by lia. apply (stored_same _ _ _ _ _ S1).
  - apply (stored_same _ _ _ _ _ S2).
Qed.

Lemma offsets_arrays (f : Z -> prog V unit) m sched : counted m ->
  (forall t, 0 <= t < n -> wp (ow t) (orr t) (f t) m (fun _ m' => forall x i, ow t x i -> m_get m' x i = Ok (ofin x i))) ->
  exists m', region n sched f m = Ok m' /\ ints m' 0 = Ok (map Fd (zrange 0 (rows + 1))) /\ ints m' 1 = Ok (map Fo (zrange 0 (rows + 1))).
Proof.
  intros C Hf. destruct (region_ok n f ow orr (fun _ => ofin) m sched ltac:(lia) Hf ow_sep) as (m' & E & Sh & D & _). exists m'. split; [exact E|].
  assert (Sm : shape m' = oshape) by (rewrite Sh; apply C).
  assert (G : forall x i, x = 0 \/ x = 1 -> 0 <= i <= rows -> m_get m' x i = Ok (ofin x i)).
  { intros x i Hx Hi. destruct (Z.eq_dec i rows) as [->|Ne]; [apply (D 0); [lia|split; auto]|].
    destruct (tstart_owner rows n i Hr Hn ltac:(lia)) as (t & Ht & Hti). apply (D t x i Ht). split; [exact Hx|now left]. }
  split.
  - rewrite (ints_ok m' 0 Fd); rewrite Sm; [reflexivity|unfold oshape; rewrite !zlen_cons, zlen_nil; lia|].
    intros i Hi. change (zn 0 oshape 0) with (rows + 1) in Hi. apply (G 0 i); lia.
  - rewrite (ints_ok m' 1 Fo); rewrite Sm; [reflexivity|unfold oshape; rewrite !zlen_cons, zlen_nil; lia|].
    intros i Hi. change (zn 0 oshape 1) with (rows + 1) in Hi. apply (G 1 i); lia.
Qed.

End Offsets.
End Cells.
