(** Proofs about Eigen.v *)

From Coq Require Import ZArith List Bool Lia Ring.
From Verif Require Import Base Scalar Spec SumFacts Dense Sparse LoopFacts DenseFacts HistoryProofs Eigen EigenSpec.
Import ListNotations.
Open Scope Z_scope.

Lemma firstn_zlen_app {A} (l r : list A) n : zlen l = n -> firstn (Z.to_nat n) (l ++ r) = l.
Proof.
  intros <-. unfold zlen. rewrite Nat2Z.id, firstn_app, Nat.sub_diag, firstn_O, app_nil_r. apply firstn_all.
Qed.

Lemma reads_app {A} n (l r : list A) : zlen l = n -> reads n (l ++ r) = Ok l.
Proof.
  intros H. unfold reads. rewrite zlen_app. pose proof (zlen_nonneg r).
  destruct (Z.leb_spec n (zlen l + zlen r)); [|lia]. now rewrite firstn_zlen_app.
Qed.

Lemma reads_all {A} n (l : list A) : zlen l = n -> reads n l = Ok l.
Proof. intros H. rewrite <- (app_nil_r l) at 1. now apply reads_app. Qed.

Lemma writes_ok {A} n f (l : list A) : n <= zlen l -> writes n f l = Ok (map f (zrange 0 n) ++ skipn (Z.to_nat n) l).
Proof. intros H. unfold writes. destruct (Z.leb_spec n (zlen l)); [reflexivity|lia]. Qed.

Lemma writes_all {A} n f (l : list A) : zlen l = n -> writes n f l = Ok (map f (zrange 0 n)).
Proof.
  intros H. rewrite writes_ok by lia. rewrite skipn_all2; [now rewrite app_nil_r|]. unfold zlen in H. lia.
Qed.

Lemma scratch_ok n size : n <= size -> scratch n size = Ok tt.
Proof. intros H. unfold scratch. destruct (Z.leb_spec n size); [reflexivity|lia]. Qed.

Lemma zlen_written {A} n (f : Z -> A) l : 0 <= n <= zlen l -> zlen (map f (zrange 0 n) ++ skipn (Z.to_nat n) l) = zlen l.
Proof.
  intros H. rewrite zlen_app, zlen_map_zrange by lia. unfold zlen in *. rewrite skipn_length. lia.
Qed.

Section Eigen.
Context {S : scalar}.
Notation T := (car S).
Variable L : lapack (S := S).

(* ---------------------------------------------------------------- how many are selected *)

Lemma leq_within (a b : T) : leq a b = true <-> within a b.
Proof. unfold leq, within. apply orb_true_iff. Qed.

Lemma select_spec (evals : list T) tol mx : forall fuel m, 0 <= m -> mx <= m + Z.of_nat fuel ->
  (forall r, select fuel evals tol mx m = Ok r ->
     m <= r /\ (r <= mx \/ r = m) /\ (forall k, m <= k < r -> within (zn s0 evals k) tol) /\
     (r < mx -> r < zlen evals /\ ~ within (zn s0 evals r) tol)) /\
  ((exists r, select fuel evals tol mx m = Ok r) <->
     (mx <= Z.max m (zlen evals) \/ exists k, m <= k < zlen evals /\ ~ within (zn s0 evals k) tol)) /\
  (forall x, select fuel evals tol mx m = Fail x -> x = FUB).
Proof.
  induction fuel as [|fuel IH]; intros m Hm Hf; cbn [select].
  - split; [|split; [|discriminate]].
    + intros r [= <-]. split; [lia|]. split; [right; reflexivity|]. split; intros; lia.
    + split; [intros _; left; lia|eauto].
  - destruct (Z.ltb_spec m mx) as [Hlt|Hge].
    + destruct (Z_lt_dec m (zlen evals)) as [Hin|Hout].
      * rewrite (get_ok s0) by lia. cbn [bind]. destruct (leq (zn s0 evals m) tol) eqn:E.
        -- apply leq_within in E. destruct (IH (m + 1) ltac:(lia) ltac:(lia)) as (I1 & I2 & I3). split; [|split; [|exact I3]].
           ++ intros r Hr. destruct (I1 r Hr) as (J1 & J2 & J3 & J4). split; [lia|]. split; [lia|]. split; [|exact J4].
              intros k Hk. destruct (Z.eq_dec k m); [now subst|]. apply J3. lia.
           ++ rewrite I2. split; intros [H|(k & Hk & H)]; try (left; lia).
              ** right. exists k. split; [lia|exact H].
              ** right. exists k. split; [|exact H]. destruct (Z.eq_dec k m); [now subst|lia].
        -- split; [|split; [|discriminate]].
           ++ intros r [= <-]. split; [lia|]. split; [right; reflexivity|]. split; [intros; lia|].
              intros _. split; [exact Hin|]. rewrite <- leq_within, E. discriminate.
           ++ split; [|eauto]. intros _. right. exists m. split; [lia|]. rewrite <- leq_within, E. discriminate.
      * rewrite get_out by lia. cbn [bind]. split; [discriminate|]. split; [|intros x [= <-]; reflexivity].
        split; [intros (r & Hr); discriminate|]. intros [H|(k & Hk & _)]; lia.
    + split; [|split; [|discriminate]].
      * intros r [= <-]. split; [lia|]. split; [right; reflexivity|]. split; intros; lia.
      * split; [intros _; left; lia|eauto].
Qed.

(* ---------------------------------------------------------------- the workspace *)

(** What holds of a solver object after any calls. *)
Record ws_ok (s : esolver (S := S)) : Prop := {
  ws_alloc : -1 <= es_alloc s;
  ws_lwork : 0 < es_alloc s -> 5 * es_alloc s <= es_lwork s;
  ws_work : 0 < es_alloc s -> es_work s = es_lwork s;
  ws_iwork : 0 < es_alloc s -> es_iwork s = es_alloc s;
  ws_d : zlen (es_d s) = Z.max 0 (es_alloc s);
  ws_e : zlen (es_e s) = Z.max 0 (es_alloc s);
  ws_tau : zlen (es_tau s) = Z.max 0 (es_alloc s);
  ws_iblock : es_iblock s = repeat 1 (Z.to_nat (es_alloc s));
  ws_isplit : zlen (es_isplit s) = Z.max 0 (es_alloc s) /\ tl (es_isplit s) = repeat 0 (Z.to_nat (es_alloc s - 1))
}.

Lemma ws_new : ws_ok es_new.
Proof. split; cbn; try lia; auto. Qed.

Lemma resize_repeat {A} (v : A) k n : (k <= Z.to_nat n)%nat -> resize (repeat v k) n v = repeat v (Z.to_nat n).
Proof.
  intros H. unfold resize. rewrite firstn_all2 by (rewrite repeat_length; lia). rewrite repeat_length, <- repeat_app. f_equal. lia.
Qed.

Lemma ws_allocate s n : ws_ok s -> es_alloc s < n -> 1 <= n -> ws_ok (allocate L s n).
Proof.
  intros W Hn H1. destruct W. split; cbn; rewrite ?zlen_resize by lia; try lia.
  - rewrite ws_iblock0. apply resize_repeat. lia.
  - split; [lia|]. destruct ws_isplit0 as (Hl & Ht). unfold resize.
    destruct (es_isplit s) as [|x r] eqn:E.
    + rewrite firstn_nil. cbn [app length]. replace (Z.to_nat n - 0)%nat with (Datatypes.S (Z.to_nat (n - 1))) by lia. reflexivity.
    + cbn [tl] in Ht. rewrite zlen_cons in Hl. pose proof (zlen_nonneg r).
      assert (Hlen : length r = Z.to_nat (es_alloc s - 1)) by (rewrite Ht, repeat_length; reflexivity).
      replace (Z.to_nat n) with (Datatypes.S (Z.to_nat (n - 1))) by lia. cbn [firstn length app tl Nat.sub].
      rewrite firstn_all2 by lia. rewrite Ht, repeat_length, <- repeat_app. f_equal. lia.
Qed.

(** What Solve delivers for a square matrix. *)
Definition outcome (D : dense S) (rel_tol : T) (max_evect : Z) : res (list T * dense S) :=
  let n := d_rows D in
  if n <? 1 then Ok ([], Dense 0 0 [])
  else
    let w := out_evals L n (d_data D) in
    let max := if max_evect <? 0 then n else max_evect in
    m <- select (Z.to_nat max) w (zn s0 w (n - 1) * rel_tol)%S max 1 ;;
    Ok (w, Dense n m (out_evects L n (d_data D) m)).

Lemma resize_all {A} (l : list A) n v : zlen l = n -> resize l n v = l.
Proof.
  intros <-. unfold resize, zlen. rewrite Nat2Z.id, Nat.sub_diag. cbn [repeat]. rewrite app_nil_r. apply firstn_all.
Qed.

Lemma solve_outcome s D rel mx pr : ws_ok s -> dense_ok D -> d_cols D = d_rows D ->
  match outcome D rel mx with
  | Ok r => exists s', solve L s D rel mx pr = Ok (s', r) /\ ws_ok s' /\ es_alloc s' = Z.max (es_alloc s) (if d_rows D <? 1 then -1 else d_rows D)
  | Fail x => solve L s D rel mx pr = Fail x
  end.
Proof.
  intros W (Hr & Hc & Hlen) Hsq. rewrite Hsq in *. unfold outcome, solve. set (n := d_rows D) in *.
  destruct (Z.ltb_spec n 1) as [H0|Hn].
  - assert (n = 0) by lia. rewrite H. unfold d_set_size. cbn [assert_ bind Z.leb]. eexists.
    split; [reflexivity|]. split; [exact W|]. destruct W. lia.
  - set (s1' := if es_alloc s <? n then allocate L s n else s).
    assert (W1 : ws_ok s1' /\ n <= es_alloc s1' /\ es_alloc s1' = Z.max (es_alloc s) n).
    { unfold s1'. destruct (Z.ltb_spec (es_alloc s) n); [split; [now apply ws_allocate|]; cbn; lia|split; [exact W|lia]]. }
    clearbody s1'. destruct W1 as (W1 & Ha & Ea). destruct W1 as [_ Wl Ww Wi Wd We Wt Wib (Wsl & Wst)].
    specialize (Wl ltac:(lia)). specialize (Ww ltac:(lia)). specialize (Wi ltac:(lia)).
    rewrite (reads_all (n * n)) by exact Hlen. cbn [bind].
    destruct (Z.leb_spec 1 (es_lwork s1')); [|lia]. cbn [assert_ bind]. rewrite scratch_ok by lia. cbn [bind].
    rewrite (writes_all (n * n)) by exact Hlen. cbn [bind].
    rewrite (writes_ok n) by lia. cbn [bind]. rewrite !(writes_ok (n - 1)) by lia. cbn [bind].
    fold (out_d L n (d_data D)). fold (out_e L n (d_data D)). fold (out_a L n (d_data D)). fold (out_tau L n (d_data D)).
    assert (Ld : zlen (out_d L n (d_data D)) = n) by (unfold out_d; rewrite zlen_map_zrange by lia; lia).
    assert (Le : zlen (out_e L n (d_data D)) = n - 1) by (unfold out_e; rewrite zlen_map_zrange by lia; lia).
    assert (Lt : zlen (out_tau L n (d_data D)) = n - 1) by (unfold out_tau; rewrite zlen_map_zrange by lia; lia).
    assert (Lla : zlen (out_a L n (d_data D)) = n * n) by (unfold out_a; rewrite zlen_map_zrange by nia; lia).
    rewrite (reads_app n (out_d L n (d_data D))) by exact Ld. cbn [bind].
    rewrite (writes_all n) by (apply zlen_resize; lia). cbn [bind].
    rewrite (reads_all n) by (rewrite zlen_map_zrange by lia; lia). cbn [bind].
    rewrite (reads_app (n - 1) (out_e L n (d_data D))) by exact Le. cbn [bind].
    rewrite (writes_all n) by (rewrite zlen_map_zrange by lia; lia). cbn [bind].
    replace (map (zn s0 (out_d L n (d_data D))) (zrange 0 n)) with (out_d L n (d_data D)).
    2:{ apply (list_ext s0); [rewrite zlen_map_zrange by lia; lia|]. intros i Hi. now rewrite zn_map_zrange by lia. }
    fold (out_evals L n (d_data D)). set (w := out_evals L n (d_data D)).
    assert (Lw : zlen w = n) by (unfold w, out_evals; rewrite zlen_map_zrange by lia; lia).
    rewrite Lw. destruct (Z.eqb_spec n 0); [lia|]. rewrite (get_ok s0) by lia. cbn [bind].
    set (mm := if mx <? 0 then n else mx).
    destruct (select (Z.to_nat mm) w (zn s0 w (n - 1) * rel)%S mm 1) as [m|x] eqn:Es; cbn [bind]; [|reflexivity].
    destruct (select_spec w (zn s0 w (n - 1) * rel)%S mm (Z.to_nat mm) 1 ltac:(lia) ltac:(lia)) as (P & _).
    destruct (P m Es) as (P1 & P2 & P3 & P4).
    assert (Hm : 1 <= m <= n).
    { split; [lia|]. destruct (Z_lt_dec n m) as [Hgt|]; [|lia]. exfalso.
      assert (Hex : (exists r, select (Z.to_nat mm) w (zn s0 w (n - 1) * rel)%S mm 1 = Ok r)) by eauto.
      apply select_spec in Hex; [|lia|lia]. destruct Hex as [Hmx|(k & Hk & Hnot)]; [lia|].
      apply Hnot, P3. lia. }
    destruct (es_isplit s1') as [|x0 rest] eqn:Ei; [change (zlen (@nil Z)) with 0 in Wsl; lia|].
    rewrite set_ok by (rewrite zlen_cons in *; pose proof (zlen_nonneg rest); lia). cbn [bind Z.to_nat upd].
    cbn [tl] in Wst. rewrite Wst.
    destruct (d_set_size_ok (snd pr) n m ltac:(lia) ltac:(lia)) as (E & -> & HE & Er & Ec & Edat). cbn [bind].
    rewrite (reads_all n) by exact Lw. cbn [bind].
    assert (Rib : reads n (es_iblock s1') = Ok (repeat 1 (Z.to_nat n))).
    { rewrite Wib. replace (Z.to_nat (es_alloc s1')) with (Z.to_nat n + Z.to_nat (es_alloc s1' - n))%nat by lia.
      rewrite repeat_app. apply reads_app. rewrite zlen_repeat. lia. }
    rewrite Rib. cbn [bind].
    assert (Ris : reads n (n :: repeat 0 (Z.to_nat (es_alloc s1' - 1))) = Ok (n :: repeat 0 (Z.to_nat (n - 1)))).
    { replace (Z.to_nat (es_alloc s1' - 1)) with (Z.to_nat (n - 1) + Z.to_nat (es_alloc s1' - n))%nat by lia.
      rewrite repeat_app, app_comm_cons. apply reads_app. rewrite zlen_cons, zlen_repeat. lia. }
    rewrite Ris. cbn [bind]. rewrite !scratch_ok by lia. cbn [bind].
    assert (LE : zlen (d_data E) = n * m) by (rewrite Edat; apply zlen_resize; nia).
    rewrite (writes_all (n * m)) by exact LE. cbn [bind].
    unfold w at 3. fold (out_z L n (d_data D) m).
    rewrite (reads_all (n * n)) by exact Lla. cbn [bind].
    rewrite (reads_app (n - 1) (out_tau L n (d_data D))) by exact Lt. cbn [bind].
    assert (Lz : zlen (out_z L n (d_data D) m) = n * m) by (unfold out_z; rewrite zlen_map_zrange by nia; lia).
    rewrite (reads_all (n * m)) by exact Lz. cbn [bind].
    destruct (Z.leb_spec (Z.max 1 m) (es_lwork s1')); [|lia]. cbn [assert_ bind]. rewrite ?scratch_ok by lia. cbn [bind].
    rewrite (writes_all (n * m)) by exact Lz. cbn [bind]. fold (out_evects L n (d_data D) m).
    rewrite Er, Ec, resize_all by exact Lw.
    eexists. split; [reflexivity|]. split; [|cbn; lia].
    split; cbn [es_alloc es_lwork es_work es_iwork es_d es_e es_tau es_iblock es_isplit]; try lia; try assumption; auto.
    + unfold out_d. rewrite zlen_written by lia. exact Wd.
    + unfold out_e. rewrite zlen_written by lia. exact We.
    + unfold out_tau. rewrite zlen_written by lia. exact Wt.
    + split; [|reflexivity]. rewrite zlen_cons, zlen_repeat. lia.
Qed.

Lemma outcome_fair D rel mx : dense_ok D -> mx <= d_rows D -> exists r, outcome D rel mx = Ok r.
Proof.
  intros (Hr & _) Hm. unfold outcome. set (n := d_rows D) in *. destruct (Z.ltb_spec n 1); [eauto|].
  set (w := out_evals L n (d_data D)). set (mm := if mx <? 0 then n else mx).
  assert (Lw : zlen w = n) by (unfold w, out_evals; rewrite zlen_map_zrange by lia; lia).
  assert (Hmm : mm <= n) by (unfold mm; destruct (mx <? 0); lia).
  destruct (proj2 (proj1 (proj2 (select_spec w (zn s0 w (n - 1) * rel)%S mm (Z.to_nat mm) 1 ltac:(lia) ltac:(lia))))) as (m & Em).
  - left. lia.
  - rewrite Em. cbn [bind]. eauto.
Qed.

Lemma history_ws calls : forall s, ws_ok s -> Forall fair_call calls -> exists s', solve_all L calls s = Ok s' /\ ws_ok s'.
Proof.
  unfold solve_all. induction calls as [|[[[D rel] mx] pr] calls IH]; intros s W F; cbn [foldM]; [eauto|].
  inversion F as [|? ? HF F']; subst. cbn [fair_call] in HF. destruct HF as (HD & Hsq & Hm). destruct (outcome_fair D rel mx HD Hm) as (r & Er).
  pose proof (solve_outcome s D rel mx pr W HD Hsq) as H. rewrite Er in H. destruct H as (s' & -> & W' & _). cbn [bind].
  now apply IH.
Qed.

Lemma reached_ws calls : forall s s', ws_ok s -> Forall (fun c => dense_ok (fst (fst (fst c))) /\ d_cols (fst (fst (fst c))) = d_rows (fst (fst (fst c)))) calls ->
  solve_all L calls s = Ok s' -> ws_ok s'.
Proof.
  unfold solve_all. induction calls as [|[[[D rel] mx] pr] calls IH]; intros s s' W F E; cbn [foldM] in E; [injection E as <-; exact W|].
  inversion F as [|? ? (HD & Hsq) F']; subst. cbn [fst] in HD, Hsq.
  pose proof (solve_outcome s D rel mx pr W HD Hsq) as H. destruct (outcome D rel mx) as [r|x].
  - destruct H as (s1' & E1 & W1 & _). rewrite E1 in E. cbn [bind] in E. eapply IH; eauto.
  - rewrite H in E. discriminate.
Qed.

(** Calls before do not matter: the same answer as a new solver gives, whatever pair is passed. *)
Lemma reuse calls s' D rel mx pr pr' :
  Forall (fun c => dense_ok (fst (fst (fst c))) /\ d_cols (fst (fst (fst c))) = d_rows (fst (fst (fst c)))) calls ->
  solve_all L calls es_new = Ok s' -> dense_ok D -> d_cols D = d_rows D ->
  match solve L es_new D rel mx pr' with
  | Ok (_, r) => exists s'', solve L s' D rel mx pr = Ok (s'', r)
  | Fail x => solve L s' D rel mx pr = Fail x
  end.
Proof.
  intros F E HD Hsq. pose proof (reached_ws calls es_new s' ws_new F E) as W.
  pose proof (solve_outcome s' D rel mx pr W HD Hsq) as H1. pose proof (solve_outcome es_new D rel mx pr' ws_new HD Hsq) as H2.
  destruct (outcome D rel mx) as [r|x].
  - destruct H1 as (s1' & E1 & _), H2 as (s2' & E2 & _). rewrite E2. exists s1'. exact E1.
  - rewrite H2. exact H1.
Qed.

(** The selection: from 1 to the limit, all within the tolerance except the first, and the next one is not. *)
Lemma selection s D rel mx pr s' evals evects : ws_ok s -> dense_ok D -> d_cols D = d_rows D -> 1 <= d_rows D ->
  solve L s D rel mx pr = Ok (s', (evals, evects)) ->
  let limit := if mx <? 0 then d_rows D else mx in
  let tol := (zn s0 evals (d_rows D - 1) * rel)%S in
  evals = out_evals L (d_rows D) (d_data D) /\ zlen evals = d_rows D /\ dense_ok evects /\ d_rows evects = d_rows D /\
  1 <= d_cols evects <= d_rows D /\ (1 <= limit -> d_cols evects <= limit) /\
  (forall k, 1 <= k < d_cols evects -> within (zn s0 evals k) tol) /\
  (d_cols evects < limit -> ~ within (zn s0 evals (d_cols evects)) tol).
Proof.
  intros W HD Hsq Hn E limit tol. pose proof (solve_outcome s D rel mx pr W HD Hsq) as H. unfold outcome in H.
  destruct (Z.ltb_spec (d_rows D) 1); [lia|]. set (n := d_rows D) in *. set (w := out_evals L n (d_data D)) in *.
  assert (Lw : zlen w = n) by (unfold w, out_evals; rewrite zlen_map_zrange by lia; lia).
  change (if mx <? 0 then n else mx) with limit in H.
  destruct (select (Z.to_nat limit) w (zn s0 w (n - 1) * rel)%S limit 1) as [m|x] eqn:Es; cbn [bind] in H; [|congruence].
  destruct H as (s1' & E1 & _). rewrite E in E1. injection E1 as <- -> ->. subst tol. cbn [d_cols d_rows].
  destruct (select_spec w (zn s0 w (n - 1) * rel)%S limit (Z.to_nat limit) 1 ltac:(lia) ltac:(lia)) as (P & Q & _).
  destruct (P m Es) as (P1 & P2 & P3 & P4).
  assert (Hm : 1 <= m <= n).
  { split; [lia|]. destruct (Z_lt_dec n m) as [Hgt|]; [|lia]. exfalso.
    destruct (proj1 Q) as [Hmx|(k & Hk & Hnot)]; [eauto|lia|]. apply Hnot, P3. lia. }
  split; [reflexivity|]. split; [exact Lw|]. split.
  { unfold dense_ok. cbn. split; [lia|]. split; [lia|]. unfold out_evects. rewrite zlen_map_zrange by nia. lia. }
  split; [reflexivity|]. split; [exact Hm|]. split; [lia|]. split; [exact P3|]. intros Hlt. now apply P4.
Qed.

(** Solve fails, by reading past the eigenvalues, iff the limit exceeds the size and every value but
    the first is within the tolerance. *)
Lemma solve_fails s D rel mx pr : ws_ok s -> dense_ok D -> d_cols D = d_rows D -> 1 <= d_rows D ->
  let w := out_evals L (d_rows D) (d_data D) in
  (d_rows D < mx /\ forall k, 1 <= k < d_rows D -> within (zn s0 w k) (zn s0 w (d_rows D - 1) * rel)%S) ->
  solve L s D rel mx pr = Fail FUB.
Proof.
  intros W HD Hsq Hn w (Hmx & Hall). pose proof (solve_outcome s D rel mx pr W HD Hsq) as H. unfold outcome in H.
  destruct (Z.ltb_spec (d_rows D) 1); [lia|]. set (n := d_rows D) in *. fold w in H.
  assert (Lw : zlen w = n) by (unfold w, out_evals; rewrite zlen_map_zrange by lia; lia).
  destruct (Z.ltb_spec mx 0); [lia|].
  destruct (select_spec w (zn s0 w (n - 1) * rel)%S mx (Z.to_nat mx) 1 ltac:(lia) ltac:(lia)) as (P & Q & R).
  destruct (select (Z.to_nat mx) w (zn s0 w (n - 1) * rel)%S mx 1) as [m|x] eqn:Es; cbn [bind] in H.
  - exfalso. destruct (proj1 Q) as [Hm|(k & Hk & Hnot)]; [eauto|lia|]. apply Hnot, Hall. lia.
  - rewrite H. f_equal. now apply R.
Qed.

Lemma solve_succeeds s D rel mx pr : ws_ok s -> dense_ok D -> d_cols D = d_rows D -> 1 <= d_rows D ->
  let w := out_evals L (d_rows D) (d_data D) in
  (mx <= d_rows D \/ exists k, 1 <= k < d_rows D /\ ~ within (zn s0 w k) (zn s0 w (d_rows D - 1) * rel)%S) ->
  exists r, solve L s D rel mx pr = Ok r.
Proof.
  intros W HD Hsq Hn w Hcase. pose proof (solve_outcome s D rel mx pr W HD Hsq) as H. unfold outcome in H.
  destruct (Z.ltb_spec (d_rows D) 1); [lia|]. set (n := d_rows D) in *. fold w in H.
  assert (Lw : zlen w = n) by (unfold w, out_evals; rewrite zlen_map_zrange by lia; lia).
  set (mm := if mx <? 0 then n else mx) in *.
  destruct (select_spec w (zn s0 w (n - 1) * rel)%S mm (Z.to_nat mm) 1 ltac:(lia) ltac:(lia)) as (P & Q & R).
  destruct (proj2 Q) as (m & Em).
  - destruct Hcase as [Hmx|(k & Hk & Hnot)]; [left; unfold mm; destruct (mx <? 0); lia|right; exists k; split; [lia|exact Hnot]].
  - rewrite Em in H. cbn [bind] in H. destruct H as (s' & -> & _). eauto.
Qed.

(* ---------------------------------------------------------------- the vectors are eigenvectors *)

Section Exact.
Hypothesis R : ring_laws S.
Let Rth : ring_theory (@s0 S) s1 sadd smul ssub sopp (@eq (car S)) := R.
Add Ring EigenRing : Rth.

Lemma upper_symmetric n (A : mat S) i j : symmetric n A -> 0 <= i < n -> 0 <= j < n -> upper A i j = A i j.
Proof. intros H Hi Hj. unfold upper. destruct (i <=? j); [reflexivity|]. now apply H. Qed.

Lemma mat_mul_vec (A B : mat S) n m x i : mat_vec (mat_mul A B n) m x i = mat_vec A n (mat_vec B m x) i.
Proof.
  unfold mat_vec, mat_mul.
  rewrite (sum_range_ext 0 m _ (fun j => sum_range 0 n (fun k => smul (A i k) (smul (B k j) (x j))))).
  2:{ intros j Hj. rewrite <- (sum_range_scale_r R). apply sum_range_ext. intros k _. ring. }
  rewrite (sum_range_swap R). apply sum_range_ext. intros k _. rewrite <- (sum_range_scale R). reflexivity.
Qed.

Lemma mat_vec_ext (A B : mat S) n (x y : vect S) i : (forall j, 0 <= j < n -> A i j = B i j) -> (forall j, 0 <= j < n -> x j = y j) ->
  mat_vec A n x i = mat_vec B n y i.
Proof. intros HA Hx. unfold mat_vec. apply sum_range_ext. intros j Hj. now rewrite HA, Hx by lia. Qed.

Lemma transported n (A Q : mat S) (Tm : mat S) lam z i :
  (forall i j, 0 <= i < n -> 0 <= j < n -> mat_mul A Q n i j = mat_mul Q Tm n i j) ->
  eigen n Tm lam z -> 0 <= i < n -> mat_vec A n (mat_vec Q n z) i = smul lam (mat_vec Q n z i).
Proof.
  intros H He Hi. rewrite <- mat_mul_vec.
  rewrite (mat_vec_ext _ (mat_mul Q Tm n) n z z) by (auto; intros; apply H; lia).
  rewrite mat_mul_vec. rewrite (mat_vec_ext Q Q n _ (fun k => smul lam (z k))) by (auto; intros k Hk; apply He; lia).
  unfold mat_vec. rewrite <- (sum_range_scale R). apply sum_range_ext. intros k _. ring.
Qed.

Lemma inner_transported n (Q : mat S) (x y : vect S) : 0 <= n -> orthonormal n n Q ->
  inner n (mat_vec Q n x) (mat_vec Q n y) = inner n x y.
Proof.
  intros Hn HQ. unfold inner.
  rewrite (sum_range_ext 0 n _ (fun i => sum_range 0 n (fun k => sum_range 0 n (fun l => smul (smul (x k) (y l)) (smul (Q i k) (Q i l)))))).
  2:{ intros i Hi. unfold mat_vec. rewrite <- (sum_range_scale_r R). apply sum_range_ext. intros k _.
      rewrite <- (sum_range_scale R). apply sum_range_ext. intros l _. ring. }
  rewrite (sum_range_swap R).
  apply sum_range_ext. intros k Hk. rewrite (sum_range_swap R).
  rewrite (sum_range_ext 0 n _ (fun l => if l =? k then smul (x k) (y k) else s0)).
  - rewrite (sum_range_delta R 0 n k (fun _ => smul (x k) (y k))) by lia. reflexivity.
  - intros l Hl. rewrite (sum_range_scale R). pose proof (HQ k l ltac:(lia) ltac:(lia)) as H. unfold inner in H. rewrite H.
    rewrite (Z.eqb_sym l k). destruct (Z.eqb_spec k l); [subst; ring|ring].
Qed.

Lemma eigenpairs s D rel mx pr s' evals evects Q : ws_ok s -> dense_ok D -> d_cols D = d_rows D -> 1 <= d_rows D ->
  symmetric (d_rows D) (dense_mat D) ->
  solve L s D rel mx pr = Ok (s', (evals, evects)) ->
  lapack_correct L (d_rows D) (d_data D) (d_cols evects) Q ->
  ascending (d_rows D) evals /\
  (forall j, 0 <= j < d_cols evects -> eigen (d_rows D) (dense_mat D) (zn s0 evals j) (column evects j)) /\
  orthonormal (d_rows D) (d_cols evects) (dense_mat evects).
Proof.
  intros W HD Hsq Hn Hs E C. pose proof (solve_outcome s D rel mx pr W HD Hsq) as H. unfold outcome in H.
  destruct (Z.ltb_spec (d_rows D) 1); [lia|]. set (n := d_rows D) in *. set (limit := if mx <? 0 then n else mx) in *.
  destruct (select (Z.to_nat limit) _ _ limit 1) as [m|x] eqn:Es; cbn [bind] in H; [|congruence].
  destruct H as (s1' & E1 & _). rewrite E in E1. injection E1 as <- -> ->. cbn [d_cols] in C. cbn [d_cols].
  destruct C as [Cq Cs Ca Ce Co Cm].
  assert (Ecol : forall i j, 0 <= i < n -> 0 <= j < m -> dense_mat (Dense n m (out_evects L n (d_data D) m)) i j = mat_vec Q n (fun k => colmajor n (out_z L n (d_data D) m) k j) i).
  { intros i j Hi Hj. unfold dense_mat. cbn [d_data d_rows]. change (zn s0 (out_evects L n (d_data D) m) (i + j * n)) with (colmajor n (out_evects L n (d_data D) m) i j).
    rewrite Cm by assumption. reflexivity. }
  split; [exact Ca|]. split.
  - intros j Hj i Hi. unfold column.
    rewrite (mat_vec_ext _ (upper (colmajor n (d_data D))) n _ (mat_vec Q n (fun k => colmajor n (out_z L n (d_data D) m) k j))).
    + rewrite Ecol by assumption. eapply transported; [|exact (Ce j Hj)|exact Hi]. intros a b Ha Hb. now apply Cs.
    + intros k Hk. symmetry. apply (upper_symmetric n (colmajor n (d_data D))); auto.
    + intros k Hk. now apply Ecol.
  - intros j k Hj Hk. rewrite <- (Co j k Hj Hk). rewrite <- (inner_transported n Q (fun i => colmajor n (out_z L n (d_data D) m) i j) (fun i => colmajor n (out_z L n (d_data D) m) i k)) by (auto; lia).
    unfold inner. apply sum_range_ext. intros i Hi. cbv beta.
    now rewrite !Ecol by lia.
Qed.

End Exact.
End Eigen.

Section Reachable.
Context {S : scalar}.
Notation T := (car S).
Variable L : lapack (S := S).

Lemma reachable_ws s : reachable L s -> ws_ok s.
Proof.
  intros (calls & H & E). apply (reached_ws L calls es_new s ws_new); [|exact E].
  apply Forall_forall. intros [[[D tol] mx] pr] Hin. cbn [fst]. now apply (H D tol mx pr).
Qed.

Lemma reachable_reuse s D rel mx pr pr' : reachable L s -> dense_ok D -> d_cols D = d_rows D ->
  match solve L es_new D rel mx pr' with
  | Ok (_, r) => exists s', solve L s D rel mx pr = Ok (s', r)
  | Fail x => solve L s D rel mx pr = Fail x
  end.
Proof.
  intros (calls & H & E) HD Hsq. apply (reuse L calls s D rel mx pr pr'); auto.
  apply Forall_forall. intros [[[D' tol] mx'] pr''] Hin. cbn [fst]. now apply (H D' tol mx' pr'').
Qed.

Lemma fair_history (calls : list (dense S * T * Z * (list T * dense S))) : Forall fair_call calls -> exists s, solve_all L calls es_new = Ok s.
Proof. intros F. destruct (history_ws L calls es_new ws_new F) as (s & E & _). eauto. Qed.

Lemma reachable_selection s D rel mx pr s' evals evects : reachable L s -> dense_ok D -> d_cols D = d_rows D -> 1 <= d_rows D ->
  solve L s D rel mx pr = Ok (s', (evals, evects)) ->
  let limit := if mx <? 0 then d_rows D else mx in
  let tol := (zn s0 evals (d_rows D - 1) * rel)%S in
  evals = out_evals L (d_rows D) (d_data D) /\ zlen evals = d_rows D /\ dense_ok evects /\ d_rows evects = d_rows D /\
  1 <= d_cols evects <= d_rows D /\ (1 <= limit -> d_cols evects <= limit) /\
  (forall k, 1 <= k < d_cols evects -> within (zn s0 evals k) tol) /\
  (d_cols evects < limit -> ~ within (zn s0 evals (d_cols evects)) tol).
Proof. intros H. apply (selection L). now apply reachable_ws. Qed.

Lemma reachable_fails s D rel mx pr : reachable L s -> dense_ok D -> d_cols D = d_rows D -> 1 <= d_rows D -> d_rows D < mx ->
  let w := out_evals L (d_rows D) (d_data D) in
  (forall k, 1 <= k < d_rows D -> within (zn s0 w k) (zn s0 w (d_rows D - 1) * rel)%S) ->
  solve L s D rel mx pr = Fail FUB.
Proof. intros H HD Hsq Hn Hmx w Hall. apply (solve_fails L); auto. now apply reachable_ws. Qed.

Lemma reachable_succeeds s D rel mx pr : reachable L s -> dense_ok D -> d_cols D = d_rows D -> mx <= d_rows D ->
  exists r, solve L s D rel mx pr = Ok r.
Proof.
  intros H HD Hsq Hmx. pose proof HD as (Hr & _). destruct (Z_lt_dec (d_rows D) 1).
  - unfold solve. destruct (Z.ltb_spec (d_rows D) 1); [|lia]. destruct (d_set_size_ok (snd pr) 0 0 ltac:(lia) ltac:(lia)) as (E & -> & _). cbn [bind]. eexists. reflexivity.
  - apply (solve_succeeds L); auto; [now apply reachable_ws|lia].
Qed.

Lemma reachable_eigenpairs (R : ring_laws S) s D rel mx pr s' evals evects Q : reachable L s -> dense_ok D -> d_cols D = d_rows D -> 1 <= d_rows D ->
  symmetric (d_rows D) (dense_mat D) ->
  solve L s D rel mx pr = Ok (s', (evals, evects)) ->
  lapack_correct L (d_rows D) (d_data D) (d_cols evects) Q ->
  ascending (d_rows D) evals /\
  (forall j, 0 <= j < d_cols evects -> eigen (d_rows D) (dense_mat D) (zn s0 evals j) (column evects j)) /\
  orthonormal (d_rows D) (d_cols evects) (dense_mat evects).
Proof. intros H. eapply (eigenpairs L); eauto. now apply reachable_ws. Qed.

End Reachable.
