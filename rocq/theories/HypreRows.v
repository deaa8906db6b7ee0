(** The two passes of the product: what the marker array holds, the number of entries counted for a
    row and the entries written for it. *)

From Coq Require Import ZArith List Bool Lia.
From Verif Require Import Base Scalar Spec Dense Sparse SumFacts LoopFacts CsrFacts Rows Accum ProductProofs Par Threads ThreadProofs HypreOps HypreSpec HypreThreads HypreExt HypreSplit.
Import ListNotations.
Open Scope Z_scope.

(* ---------------------------------------------------------------- markers *)

(** Of the w columns marked from position lo on, those in ks (the columns of the row so far, in
    order) hold their position counted from b, and the others something smaller than b. *)
Definition marks (mk : list Z) (lo w b : Z) (ks : list Z) : Prop :=
  (forall t, 0 <= t < zlen ks -> 0 <= zn 0 ks t < w /\ zn 0 mk (lo + zn 0 ks t) = b + t) /\
  (forall k, 0 <= k < w -> ~ In k ks -> zn 0 mk (lo + k) < b).

Lemma marks_old mk lo w b ks k : marks mk lo w b ks -> In k ks ->
  0 <= k < w /\ b <= zn 0 mk (lo + k) < b + zlen ks /\ zn 0 ks (zn 0 mk (lo + k) - b) = k.
Proof.
  intros (H1 & _) Hin. apply (In_zn 0) in Hin. destruct Hin as (t & Ht & E). destruct (H1 t Ht) as (Hb & Hm). rewrite E in Hb, Hm.
  split; [exact Hb|]. rewrite Hm. split; [lia|]. now replace (b + t - b) with t by lia.
Qed.

Lemma marks_new mk lo w b ks k : 0 <= lo -> lo + w <= zlen mk -> marks mk lo w b ks -> 0 <= k < w -> ~ In k ks ->
  marks (upd mk (Z.to_nat (lo + k)) (b + zlen ks)) lo w b (ks ++ [k]).
Proof.
  intros Hlo Hl (H1 & H2) Hk Hn. pose proof (zlen_nonneg ks) as P. split.
  - rewrite zlen_app, zlen_cons, zlen_nil. intros t Ht. destruct (Z.eq_dec t (zlen ks)) as [->|Ne].
    + rewrite zn_app_r by lia. rewrite Z.sub_diag. change (zn 0 [k] 0) with k. split; [exact Hk|]. rewrite zn_upd by lia. now rewrite Z.eqb_refl.
    + rewrite zn_app_l by lia. destruct (H1 t ltac:(lia)) as (Hb & Hm). split; [exact Hb|]. rewrite zn_upd by lia.
      destruct (Z.eqb_spec (lo + zn 0 ks t) (lo + k)) as [E|_]; [|exact Hm]. exfalso. apply Hn. replace k with (zn 0 ks t) by lia. apply zn_In. lia.
  - intros j Hj Hnj. rewrite zn_upd by lia. rewrite in_app_iff in Hnj. cbn [In] in Hnj. destruct (Z.eqb_spec (lo + j) (lo + k)) as [E|_]; [exfalso; apply Hnj; right; left; lia|].
    apply H2; tauto.
Qed.

Lemma marks_frame mk mk' lo w b ks : (forall j, lo <= j < lo + w -> zn 0 mk' j = zn 0 mk j) -> marks mk lo w b ks -> marks mk' lo w b ks.
Proof.
  intros H (H1 & H2). split.
  - intros t Ht. destruct (H1 t Ht) as (Hb & Hm). split; [exact Hb|]. rewrite H by lia. exact Hm.
  - intros k Hk Hn. rewrite H by lia. now apply H2.
Qed.

Lemma marks_next mk lo w b ks : marks mk lo w b ks -> marks mk lo w (b + zlen ks) [].
Proof.
  intros H. split; [intros t Ht; change (zlen (@nil Z)) with 0 in Ht; lia|]. intros k Hk _. destruct (in_dec Z.eq_dec k ks) as [Hin|Hn].
  - pose proof (marks_old mk lo w b ks k H Hin). lia.
  - destruct H as (_ & H2). specialize (H2 k Hk Hn). pose proof (zlen_nonneg ks). lia.
Qed.

Lemma acc_from_app {T} (plus : T -> T -> T) init a l1 l2 : acc_from plus init a (l1 ++ l2) = acc_from plus init (acc_from plus init a l1) l2.
Proof. unfold acc_from. apply fold_left_app. Qed.

Lemma acc_add_len {T} (plus : T -> T -> T) init a c v : zlen (acc_add plus init a c v) = if existsb (Z.eqb c) (map fst a) then zlen a else zlen a + 1.
Proof.
  rewrite <- (zlen_map fst (acc_add _ _ _ _ _)), acc_add_keys. destruct (existsb (Z.eqb c) (map fst a)); rewrite ?zlen_app, ?zlen_cons, ?zlen_nil, zlen_map; lia.
Qed.

Lemma acc_from_len {T} (plus : T -> T -> T) init l : forall a, zlen a <= zlen (acc_from plus init a l).
Proof.
  induction l as [|[c v] l IH]; intros a; [apply Z.le_refl|]. change (acc_from plus init a ((c, v) :: l)) with (acc_from plus init (acc_add plus init a c v) l).
  etransitivity; [|apply IH]. rewrite acc_add_len. destruct (existsb _ _); lia.
Qed.

(* ---------------------------------------------------------------- one product *)

Section Rows.
Context {S : scalar}.
Notation T := (car S).
Notation V := (Z + T)%type.

Notation add := (acc_add (@sadd S) (@keep S)).

Lemma count_one_ok (mk : list Z) lo w b (L : list (Z * T)) k v : 0 <= lo -> lo + w <= zlen mk -> marks mk lo w b (map fst L) -> 0 <= k < w ->
  exists mk', count_one b (mk, b + zlen L) (lo + k) = Ok (mk', b + zlen (add L k v)) /\ zlen mk' = zlen mk /\
    marks mk' lo w b (map fst (add L k v)) /\ (forall j, 0 <= j -> ~ (lo <= j < lo + w) -> zn 0 mk' j = zn 0 mk j).
Proof.
  intros Hlo Hl M Hk. unfold count_one. rewrite (get_ok 0) by lia. cbn [bind]. rewrite acc_add_keys, acc_add_len. destruct (in_dec Z.eq_dec k (map fst L)) as [Hin|Hn].
  - destruct (marks_old _ _ _ _ _ _ M Hin) as (_ & Hb & _). destruct (Z.ltb_spec (zn 0 mk (lo + k)) b); [lia|]. rewrite (proj2 (existsb_In k (map fst L)) Hin). exists mk. auto.
  - pose proof (proj2 M k Hk Hn) as Hb. destruct (Z.ltb_spec (zn 0 mk (lo + k)) b); [|lia]. rewrite set_ok by lia. cbn [bind]. rewrite (proj2 (existsb_not_In k (map fst L)) Hn).
    eexists. split; [now rewrite Z.add_assoc|]. split; [apply zlen_upd|]. split.
    + rewrite <- (zlen_map fst L). now apply marks_new.
    + intros j H0 Hj. rewrite zn_upd by lia. destruct (Z.eqb_spec j (lo + k)); [lia|reflexivity].
Qed.

(** The entries of the row so far, as they are stored in the arrays xj and xd from position b on. *)
Definition held (m : mem V) (xj xd b : Z) (L : list (Z * T)) : Prop :=
  forall t, 0 <= t < zlen L -> m_get m xj (b + t) = Ok (inl (fst (zn (0, s0) L t))) /\ m_get m xd (b + t) = Ok (inr (snd (zn (0, s0) L t))).

Lemma held_frame (m m' : mem V) xj xd b L : (forall x j, (x = xj \/ x = xd) -> b <= j < b + zlen L -> m_get m' x j = m_get m x j) -> held m xj xd b L -> held m' xj xd b L.
Proof. intros H Hm t Ht. rewrite !H by lia. now apply Hm. Qed.

Lemma fill_one_wp (W R : Z -> Z -> Prop) (mk : list Z) lo w b (L : list (Z * T)) k v xj xd (m : mem V) (Q : list Z * Z -> mem V -> Prop) :
  xj <> xd -> 0 <= lo -> lo + w <= zlen mk -> marks mk lo w b (map fst L) -> 0 <= k < w -> held m xj xd b L ->
  (forall x j, (x = xj \/ x = xd) -> b <= j < b + zlen (add L k v) -> W x j /\ inside (shape m) x j) ->
  (forall mk' m', zlen mk' = zlen mk -> marks mk' lo w b (map fst (add L k v)) -> (forall j, 0 <= j -> ~ (lo <= j < lo + w) -> zn 0 mk' j = zn 0 mk j) ->
    shape m' = shape m -> held m' xj xd b (add L k v) -> (forall x j, (x <> xj /\ x <> xd) \/ j < b -> m_get m' x j = m_get m x j) -> Q (mk', b + zlen (add L k v)) m') ->
  wp W R (fill_one xj xd lo b (mk, b + zlen L) (lo + k) v) m Q.
Proof.
  intros Hx Hlo Hl M Hk Hm HW HQ. unfold fill_one. rewrite (get_ok 0) by lia. cbn [lift pbind]. pose proof (zlen_nonneg L) as PL.
  destruct (in_dec Z.eq_dec k (map fst L)) as [Hin|Hn].
  - destruct (marks_old _ _ _ _ _ _ M Hin) as (_ & Hb & Hz). destruct (Z.ltb_spec (zn 0 mk (lo + k)) b); [lia|]. set (p := zn 0 mk (lo + k)) in *. rewrite zlen_map in Hb.
    assert (El : zlen (add L k v) = zlen L) by (rewrite acc_add_len; now rewrite (proj2 (existsb_In k (map fst L)) Hin)).
    assert (Ek : map fst (add L k v) = map fst L) by (rewrite acc_add_keys; now rewrite (proj2 (existsb_In k (map fst L)) Hin)).
    rewrite (zn_map (0, s0)) in Hz by lia. destruct (Hm (p - b) ltac:(lia)) as (_ & Hv). replace (b + (p - b)) with p in Hv by lia.
    destruct (HW xd p (or_intror eq_refl) ltac:(lia)) as (Wd & Id).
    apply wp_bind. eapply wp_rdv; [right; exact Wd|exact Hv|]. apply wp_bind. apply wp_wr; [exact Wd|exact Id|]. intros m' St. pose proof (proj1 St) as Sh. cbn [wp].
    rewrite <- El. apply HQ; auto.
    + now rewrite Ek.
    + destruct (acc_add_old (@sadd S) (@keep S) L k v (0, s0) Hin) as (t & Ht & Ef & Eu).
      assert (Et : t = p - b).
      { pose proof (proj1 M t ltac:(rewrite zlen_map; lia)) as (_ & M1). rewrite (zn_map (0, s0)) in M1 by lia. rewrite Ef in M1. fold p in M1. lia. }
      rewrite Eu. intros s Hs. rewrite zlen_upd in Hs. rewrite zn_upd by lia. destruct (Z.eqb_spec s t) as [->|Ne]; cbn [fst snd].
      * rewrite Et. replace (b + (p - b)) with p by lia. rewrite (stored_other _ _ _ _ _ xj p St) by lia. rewrite (stored_same _ _ _ _ _ St). rewrite Et in Ef.
        split; [|reflexivity]. destruct (Hm (p - b) ltac:(lia)) as (Hf & _). replace (b + (p - b)) with p in Hf by lia. rewrite Hf. now rewrite Ef.
      * rewrite !(stored_other _ _ _ _ _ _ (b + s) St) by lia. now apply Hm.
    + intros x j Hxj. rewrite (stored_other _ _ _ _ _ x j St); [reflexivity|]. lia.
  - pose proof (proj2 M k Hk Hn) as Hb. destruct (Z.ltb_spec (zn 0 mk (lo + k)) b); [|lia]. rewrite set_ok by lia. cbn [lift pbind].
    assert (Ea : add L k v = L ++ [(k, v)]) by now apply acc_add_new.
    assert (El : zlen (add L k v) = zlen L + 1) by (rewrite Ea, zlen_app, zlen_cons, zlen_nil; lia).
    destruct (HW xd (b + zlen L) (or_intror eq_refl) ltac:(lia)) as (Wd & Id). destruct (HW xj (b + zlen L) (or_introl eq_refl) ltac:(lia)) as (Wj & Ij).
    apply wp_bind. apply wp_wr; [exact Wd|exact Id|]. intros m1 S1. pose proof (proj1 S1) as Sh1.
    apply wp_bind. apply wp_wr; [exact Wj|now rewrite Sh1|]. intros m2 S2. pose proof (proj1 S2) as Sh2. cbn [wp].
    replace (b + zlen L + 1) with (b + zlen (add L k v)) by lia. apply HQ.
    + apply zlen_upd.
    + rewrite Ea, map_app. cbn [map fst]. rewrite <- (zlen_map fst L). now apply marks_new.
    + intros j H0 Hj. rewrite zn_upd by lia. destruct (Z.eqb_spec j (lo + k)); [lia|reflexivity].
    + congruence.
    + rewrite Ea. intros t Ht. rewrite zlen_app, zlen_cons, zlen_nil in Ht. destruct (Z.eq_dec t (zlen L)) as [->|Ne].
      * rewrite zn_app_r by lia. rewrite Z.sub_diag. change (zn (0, s0) [(k, v)] 0) with (k, v). cbn [fst snd].
        rewrite (stored_same _ _ _ _ _ S2). rewrite (stored_other _ _ _ _ _ xd _ S2) by lia. rewrite (stored_same _ _ _ _ _ S1). split; [do 2 f_equal; lia|reflexivity].
      * rewrite zn_app_l by lia. rewrite !(stored_other _ _ _ _ _ _ (b + t) S2), !(stored_other _ _ _ _ _ _ (b + t) S1) by lia. apply Hm. lia.
    + intros x j Hxj. rewrite (stored_other _ _ _ _ _ x j S2), (stored_other _ _ _ _ _ x j S1) by lia. reflexivity.
Qed.

(* ---------------------------------------------------------------- the products of a row *)

Variables (A B : parmat S) (Dx Ox : csr S) (mBC : list Z) (asq : bool) (nco : Z).
Let rows := c_rows (pm_diag A).
Let ncd := c_cols (pm_diag B).

(** The products that belong to row i, in the order of the loops: is the column one of C's offd
    block, the column of that block, the value. *)
Definition part (b : bool) (f : Z -> Z) (a : T) (row : list (Z * T)) : list (bool * (Z * T)) := map (fun q => (b, (f (fst q), smul a (snd q)))) row.
Definition outer (p : Z * T) := part true (fun j => j) (snd p) (row_of Ox (fst p)) ++ part false (fun j => j) (snd p) (row_of Dx (fst p)).
Definition inner (p : Z * T) := part false (fun j => j) (snd p) (row_of (pm_diag B) (fst p)) ++ part true (fun j => zn 0 mBC j) (snd p) (row_of (pm_offd B) (fst p)).
Definition ops (i : Z) : list (bool * (Z * T)) := flat_map outer (row_of (pm_offd A) i) ++ flat_map inner (row_of (pm_diag A) i).
Definition pick (b : bool) (l : list (bool * (Z * T))) : list (Z * T) := map snd (filter (fun o => Bool.eqb (fst o) b) l).
Definition dinit (i : Z) : list (Z * T) := if asq then [(i, s0)] else [].
Definition drow (i : Z) : list (Z * T) := acc_from sadd keep (dinit i) (pick false (ops i)).
Definition orow (i : Z) : list (Z * T) := acc_from sadd keep [] (pick true (ops i)).

Hypothesis VAd : csr_valid (pm_diag A).
Hypothesis VAo : csr_valid (pm_offd A).
Hypothesis VBd : csr_valid (pm_diag B).
Hypothesis VBo : csr_valid (pm_offd B).
Hypothesis VD : csr_valid Dx.
Hypothesis VO : csr_valid Ox.
Hypothesis RAo : c_rows (pm_offd A) = rows.
Hypothesis RD : c_rows Dx = c_cols (pm_offd A).
Hypothesis RO : c_rows Ox = c_cols (pm_offd A).
Hypothesis CD : c_cols Dx = ncd.
Hypothesis CO : c_cols Ox = nco.
Hypothesis RBd : c_rows (pm_diag B) = c_cols (pm_diag A).
Hypothesis RBo : c_rows (pm_offd B) = c_cols (pm_diag A).
Hypothesis Lm : zlen mBC = c_cols (pm_offd B).
Hypothesis Hm : forall j, 0 <= j < zlen mBC -> 0 <= zn 0 mBC j < nco.
Hypothesis Hco : 0 <= nco.
Hypothesis Hsq : asq = true -> rows = ncd.

Let Hr : 0 <= rows := cv_rows VAd.
Let Hd : 0 <= ncd := cv_cols VBd.

Lemma row_of_cols (M : csr S) i p : csr_valid M -> 0 <= i < c_rows M -> In p (row_of M i) -> 0 <= fst p < c_cols M.
Proof.
  clear. destruct p as [c v]. intros VM Hi Hp. assert (He : In (i, c, v) (entries M)) by (apply In_row_of; auto).
  pose proof (entries_in_shape M VM) as Sh. unfold in_shape in Sh. rewrite Forall_forall in Sh. specialize (Sh _ He). cbn in Sh |- *. tauto.
Qed.

Definition width (b : bool) : Z := if b then nco else ncd.

Lemma part_cols b f a row o : In o (part b f a row) -> exists q, In q row /\ o = (b, (f (fst q), smul a (snd q))).
Proof. unfold part. rewrite in_map_iff. intros (q & <- & Hq). eauto. Qed.

Lemma ops_cols i b k v : 0 <= i < rows -> In (b, (k, v)) (ops i) -> 0 <= k < width b.
Proof.
  intros Hi. unfold ops. rewrite in_app_iff, !in_flat_map. intros [(p & Hp & Ho)|(p & Hp & Ho)].
  - apply row_of_cols in Hp; [|exact VAo|rewrite RAo; exact Hi]. unfold outer in Ho. rewrite in_app_iff in Ho.
    destruct Ho as [Ho|Ho]; apply part_cols in Ho; destruct Ho as (q & Hq & [= -> -> ->]); unfold width; (apply row_of_cols in Hq; [|assumption|rewrite ?RO, ?RD; exact Hp]); [now rewrite CO in Hq|now rewrite CD in Hq].
  - apply row_of_cols in Hp; [|exact VAd|exact Hi]. unfold inner in Ho. rewrite in_app_iff in Ho.
    destruct Ho as [Ho|Ho]; apply part_cols in Ho; destruct Ho as (q & Hq & [= -> -> ->]); unfold width; (apply row_of_cols in Hq; [|assumption|rewrite ?RBd, ?RBo; exact Hp]); [exact Hq|apply Hm; lia].
Qed.

(* counting *)

Definition count_op (bd bo : Z) (st : list Z * Z * Z) (o : bool * (Z * T)) : res (list Z * Z * Z) :=
  let '(mk, d, e) := st in
  if fst o then ' (mk, e) <- count_one bo (mk, e) (ncd + fst (snd o)) ;; Ok (mk, d, e)
  else ' (mk, d) <- count_one bd (mk, d) (fst (snd o)) ;; Ok (mk, d, e).

Lemma no_cols_row (M : csr S) i : csr_valid M -> 0 <= i < c_rows M -> c_cols M = 0 -> row_of M i = [].
Proof. clear. intros VM Hi E. destruct (row_of M i) as [|p l] eqn:El; [reflexivity|]. assert (Hp : In p (row_of M i)) by (rewrite El; now left). apply row_of_cols in Hp; auto. lia. Qed.

Lemma count_row_eq i mk d o : 0 <= i < rows ->
  count_row A B Dx Ox mBC asq i (mk, d, o) =
    (st <- (if asq then mk <- set mk i d ;; Ok (mk, d + 1, o) else Ok (mk, d, o)) ;; foldM (count_op d o) (ops i) st).
Proof.
  intros Hi. unfold count_row. destruct (if asq then _ else _) as [st|f]; cbn [bind]; [|reflexivity].
  unfold ops. rewrite foldM_app, foldM_flat_map.
  assert (EA : forall st, (if negb (c_cols (pm_offd A) =? 0) then over_row (pm_offd A) i st (fun i2 st =>
      st <- over_row Ox i2 st (fun j st => let '(marker, d0, o0) := st in ' (marker, o1) <- count_one o (marker, o0) (ncd + j) ;; Ok (marker, d0, o1)) ;;
      over_row Dx i2 st (fun j st => let '(marker, d0, o0) := st in ' (marker, d1) <- count_one d (marker, d0) j ;; Ok (marker, d1, o0))) else Ok st)
    = foldM (fun s x => foldM (count_op d o) (outer x) s) (row_of (pm_offd A) i) st).
  { intros st0. destruct (Z.eqb_spec (c_cols (pm_offd A)) 0) as [E0|N0]; cbn [negb].
    - rewrite no_cols_row; [reflexivity|exact VAo|rewrite RAo; exact Hi|exact E0].
    - rewrite over_row_eq; [|exact VAo|rewrite RAo; exact Hi]. apply foldM_ext. intros s p Hp. apply row_of_cols in Hp; [|exact VAo|rewrite RAo; exact Hi].
      rewrite over_row_eq; [|exact VO|rewrite RO; exact Hp]. unfold outer. rewrite foldM_app. unfold part. rewrite foldM_map.
      assert (E1 : foldM (fun a q => let '(marker, d0, o0) := a in ' (marker, o1) <- count_one o (marker, o0) (ncd + fst q) ;; Ok (marker, d0, o1)) (row_of Ox (fst p)) s
        = foldM (fun s0 x => count_op d o s0 (true, (fst x, smul (snd p) (snd x)))) (row_of Ox (fst p)) s) by reflexivity.
      rewrite E1. destruct (foldM _ (row_of Ox (fst p)) s) as [s'|]; cbn [bind]; [|reflexivity].
      rewrite over_row_eq; [|exact VD|rewrite RD; exact Hp]. rewrite foldM_map. reflexivity. }
  fold ncd. rewrite EA. destruct (foldM _ (row_of (pm_offd A) i) st) as [s'|]; cbn [bind]; [|reflexivity].
  rewrite foldM_flat_map. rewrite over_row_eq; [|exact VAd|exact Hi]. apply foldM_ext. intros s p Hp. apply row_of_cols in Hp; [|exact VAd|exact Hi].
  rewrite over_row_eq; [|exact VBd|rewrite RBd; exact Hp]. unfold inner. rewrite foldM_app. unfold part. rewrite foldM_map.
  assert (E1 : foldM (fun a q => let '(marker, d0, o0) := a in ' (marker, d1) <- count_one d (marker, d0) (fst q) ;; Ok (marker, d1, o0)) (row_of (pm_diag B) (fst p)) s
    = foldM (fun s0 x => count_op d o s0 (false, (fst x, smul (snd p) (snd x)))) (row_of (pm_diag B) (fst p)) s) by reflexivity.
  rewrite E1. destruct (foldM _ (row_of (pm_diag B) (fst p)) s) as [s1|]; cbn [bind]; [|reflexivity]. rewrite foldM_map.
  destruct (Z.eqb_spec (c_cols (pm_offd B)) 0) as [E0|N0]; cbn [negb].
  - rewrite no_cols_row; [reflexivity|exact VBo|rewrite RBo; exact Hp|exact E0].
  - rewrite over_row_eq; [|exact VBo|rewrite RBo; exact Hp]. apply foldM_ext. intros s2 q Hq. apply row_of_cols in Hq; [|exact VBo|rewrite RBo; exact Hp].
    rewrite (get_ok 0) by lia. reflexivity.
Qed.

(** The accumulated row after some of the products. *)
Definition cur (b : bool) (i : Z) (pre : list (bool * (Z * T))) : list (Z * T) := acc_from sadd keep (if b then [] else dinit i) (pick b pre).

Lemma cur_snoc b i pre b' k v : cur b i (pre ++ [(b', (k, v))]) = if Bool.eqb b' b then add (cur b i pre) k v else cur b i pre.
Proof.
  clear. unfold cur, pick. rewrite filter_app. cbn [filter fst]. destruct (Bool.eqb b' b); [|now rewrite app_nil_r]. rewrite map_app, acc_from_app. reflexivity.
Qed.

Lemma cur_len b i pre post : zlen (cur b i pre) <= zlen (cur b i (pre ++ post)).
Proof. clear. unfold cur, pick. rewrite filter_app, map_app, acc_from_app. apply acc_from_len. Qed.

Definition marked (bd bo : Z) (mk : list Z) (i : Z) (pre : list (bool * (Z * T))) : Prop :=
  zlen mk = ncd + nco /\ marks mk 0 ncd bd (map fst (cur false i pre)) /\ marks mk ncd nco bo (map fst (cur true i pre)).

Lemma count_row_ok i mk bd bo : 0 <= i < rows -> zlen mk = ncd + nco -> marks mk 0 ncd bd [] -> marks mk ncd nco bo [] ->
  exists mk', count_row A B Dx Ox mBC asq i (mk, bd, bo) = Ok (mk', bd + zlen (drow i), bo + zlen (orow i)) /\
    zlen mk' = ncd + nco /\ marks mk' 0 ncd (bd + zlen (drow i)) [] /\ marks mk' ncd nco (bo + zlen (orow i)) [].
Proof.
  intros Hi Hl M1 M2. rewrite count_row_eq by exact Hi.
  set (I := fun pre (st : list Z * Z * Z) => exists mk', st = (mk', bd + zlen (cur false i pre), bo + zlen (cur true i pre)) /\ marked bd bo mk' i pre).
  assert (St : exists st, (if asq then mk <- set mk i bd ;; Ok (mk, bd + 1, bo) else Ok (mk, bd, bo)) = Ok st /\ I [] st).
  { unfold I, marked, cur, dinit, pick. cbn [filter map acc_from fold_left]. destruct asq eqn:Ea.
    - rewrite set_ok by (pose proof (Hsq eq_refl); lia). cbn [bind]. eexists. split; [reflexivity|]. eexists. split; [rewrite zlen_cons, zlen_nil, Z.add_0_r; reflexivity|].
      split; [now rewrite zlen_upd|]. pose proof (Hsq eq_refl) as Er. cbn [map fst]. split.
      + pose proof (marks_new mk 0 ncd bd [] i) as G. change (zlen (@nil Z)) with 0 in G. rewrite Z.add_0_r, Z.add_0_l in G. apply G; [lia|lia|exact M1|lia|auto].
      + apply (marks_frame mk); [|exact M2]. intros j Hj. rewrite zn_upd by lia. destruct (Z.eqb_spec j i); [lia|reflexivity].
    - eexists. split; [reflexivity|]. eexists. split; [rewrite zlen_nil, !Z.add_0_r; reflexivity|]. split; [exact Hl|]. split; [exact M1|exact M2]. }
  destruct St as (st & -> & I0). cbn [bind].
  assert (G : returns (foldM (count_op bd bo) (ops i) st) (I (ops i))).
  { apply (returns_foldM (fun pre st => I pre st)); [exact I0| |auto].
    intros pre [b [k v]] post s E (mk' & -> & L' & N1 & N2). assert (Hk : 0 <= k < width b) by (apply (ops_cols i b k v Hi); rewrite E; apply in_elt).
    unfold count_op. cbn [fst snd]. destruct b; cbn [width] in Hk.
    - destruct (count_one_ok mk' ncd nco bo (cur true i pre) k v ltac:(lia) ltac:(lia) N2 Hk) as (mk2 & -> & L2 & N2' & F). cbn [bind returns].
      exists mk2. rewrite !cur_snoc. cbn [Bool.eqb]. split; [reflexivity|]. split; [congruence|]. rewrite !cur_snoc. cbn [Bool.eqb]. split; [|exact N2'].
      apply (marks_frame mk'); [|exact N1]. intros j Hj. apply F; lia.
    - destruct (count_one_ok mk' 0 ncd bd (cur false i pre) k v ltac:(lia) ltac:(lia) N1 Hk) as (mk2 & E2 & L2 & N1' & F). rewrite Z.add_0_l in E2. rewrite E2. cbn [bind returns].
      exists mk2. rewrite !cur_snoc. cbn [Bool.eqb]. split; [reflexivity|]. split; [congruence|]. rewrite !cur_snoc. cbn [Bool.eqb]. split; [exact N1'|].
      apply (marks_frame mk'); [|exact N2]. intros j Hj. apply F; lia. }
  apply returns_exists in G. destruct G as (st' & -> & mk' & -> & L' & N1 & N2). exists mk'. split; [reflexivity|]. split; [exact L'|].
  apply marks_next in N1. apply marks_next in N2. rewrite zlen_map in N1, N2. split; [exact N1|exact N2].
Qed.

Section CountThreads.
Variable n : Z.
Hypothesis Hn : 0 < n.

Lemma row_sizes_wp (m : mem V) t : shape m = oshape rows n -> 0 <= t < n ->
  wp (cw rows n t) (nor t) (row_sizes_thread A B Dx Ox mBC asq nco rows n t) m
    (fun _ m' => forall x i, cw rows n t x i -> m_get m' x i = Ok (cfin rows n (off drow) (off orow) t x i)).
Proof.
  intros Sm Ht. unfold row_sizes_thread. rewrite thread_range_eq by lia. fold ncd. rewrite vec_ok by lia. cbn [lift pbind].
  pose proof (tstart_range rows n t Hr Hn ltac:(lia)) as R1. pose proof (tstart_range rows n (t + 1) Hr Hn ltac:(lia)) as R2. pose proof (tstart_S rows n t Hr Hn) as R3.
  set (u := tstart rows n t) in *. set (w := tstart rows n (t + 1)) in *.
  apply wp_bind. apply (wp_pfor _ _ (fun i st mm => rows_done rows n (off drow) (off orow) t i mm /\ exists mk, st = (mk, off drow i - off drow u, off orow i - off orow u) /\
     zlen mk = ncd + nco /\ marks mk 0 ncd (off drow i - off drow u) [] /\ marks mk ncd nco (off orow i - off orow u) [])).
  - exact R3.
  - split; [split; [exact Sm|intros j Hj; unfold u in Hj; lia]|]. eexists. rewrite !Z.sub_diag. split; [reflexivity|]. rewrite zlen_repeat. split; [lia|].
    split; (split; [intros s Hs; change (zlen (@nil Z)) with 0 in Hs; lia|intros k Hk _; rewrite zn_repeat by lia; lia]).
  - intros i st mm Hi (Hdn & mk & -> & L & M1 & M2).
    destruct (count_row_ok i mk _ _ ltac:(lia) L M1 M2) as (mk' & E & L' & M1' & M2'). rewrite E. cbn [lift pbind].
    match goal with |- wp _ _ (?a ~;; ?b ~;; ?c) _ ?Q => assert (G : wp (cw rows n t) (nor t) (pbind (a ~;; b) (fun _ => c)) mm Q); [|exact G] end.
    apply wp_bind. apply (rows_done_step rows n Hr Hn (off drow) (off orow) _ _ t i mm); auto.
    intros m' Hd'. cbn [wp]. split; [exact Hd'|]. exists mk'. rewrite !off_succ by lia.
    replace (off drow i + zlen (drow i) - off drow u) with (off drow i - off drow u + zlen (drow i)) by lia. replace (off orow i + zlen (orow i) - off orow u) with (off orow i - off orow u + zlen (orow i)) by lia. auto.
  - intros st mm (Hdn & mk & -> & _). apply (totals_done rows n Hr Hn (off drow) (off orow) _ _ t mm); auto.
Qed.

Lemma row_sizes_ok sched : row_sizes n sched A B Dx Ox mBC asq nco = Ok (map (off drow) (zrange 0 (rows + 1)), map (off orow) (zrange 0 (rows + 1))).
Proof.
  unfold row_sizes. fold rows. unfold zeros. rewrite !vec_ok by lia. cbn [bind].
  set (m0 := [repeat (inl 0) (Z.to_nat (rows + 1)); _; _; _]). assert (S0 : shape m0 = oshape rows n) by (unfold m0, shape, oshape; cbn [map]; rewrite !zlen_repeat; repeat f_equal; lia).
  destruct (count_region rows n Hr Hn (off drow) (off orow) (row_sizes_thread A B Dx Ox mBC asq nco rows n) m0 (sched 5) S0) as (m1 & E1 & C1).
  { intros t Ht. now apply row_sizes_wp. }
  rewrite E1. cbn [bind].
  destruct (offsets_arrays rows n Hr Hn (off drow) (off orow) (row_offsets_thread rows n) m1 (sched 6) C1) as (m2 & E2 & I0 & I1).
  { intros t Ht. apply row_offsets_wp; auto. }
  rewrite E2. cbn [bind]. rewrite I0, I1. reflexivity.
Qed.

End CountThreads.

(* filling *)

Definition fill_op (bd bo : Z) (st : list Z * Z * Z) (o : bool * (Z * T)) : prog V (list Z * Z * Z) :=
  let '(mk, d, e) := st in
  if fst o then ' (mk, e) <~ fill_one 2 3 ncd bo (mk, e) (ncd + fst (snd o)) (snd (snd o)) ;; Ret (mk, d, e)
  else ' (mk, d) <~ fill_one 0 1 0 bd (mk, d) (fst (snd o)) (snd (snd o)) ;; Ret (mk, d, e).

Definition fill_start (i : Z) (st : list Z * Z * Z) : prog V (list Z * Z * Z) :=
  let '(mk, d, o) := st in
  if asq then mk <~ lift (set mk i d) ;; wrv 1 d s0 ~;; wrz 0 d i ~;; Ret (mk, d + 1, o) else Ret (mk, d, o).

Lemma part_snoc b f a row q : part b f a (row ++ [q]) = part b f a row ++ [(b, (f (fst q), smul a (snd q)))].
Proof. clear. unfold part. rewrite map_app. reflexivity. Qed.

Lemma flat_map_snoc {X Y} (f : X -> list Y) l a : flat_map f (l ++ [a]) = flat_map f l ++ f a.
Proof. clear. rewrite flat_map_app. cbn. now rewrite app_nil_r. Qed.

(** The loops over one row of B (or of the rows received), as products. *)
Lemma wp_part (W R : Z -> Z -> Prop) (I : list (bool * (Z * T)) -> list Z * Z * Z -> mem V -> Prop) (M : csr S) j b f a bd bo all before after st g m (Q : list Z * Z * Z -> mem V -> Prop) :
  csr_valid M -> 0 <= j < c_rows M ->
  all = before ++ part b f a (row_of M j) ++ after -> I before st m ->
  (forall pre o post st m, all = pre ++ o :: post -> I pre st m -> wp W R (fill_op bd bo st o) m (I (pre ++ [o]))) ->
  (forall c v st, 0 <= c < c_cols M -> g c v st = fill_op bd bo st (b, (f c, smul a v))) ->
  (forall st m, I (before ++ part b f a (row_of M j)) st m -> Q st m) ->
  wp W R (pover_row M j st g) m Q.
Proof.
  clear. intros VM Hj Hall H0 Hs Hg HQ.
  apply (wp_over_row W R (fun pre st m => I (before ++ part b f a pre) st m)); [exact VM|exact Hj| | |exact HQ].
  - unfold part. cbn [map]. now rewrite app_nil_r.
  - intros pre c v post st1 m1 E HI. assert (Hc : 0 <= c < c_cols M) by (apply (row_of_cols M j (c, v) VM Hj); rewrite E; apply in_elt).
    rewrite Hg by exact Hc. rewrite part_snoc, app_assoc. cbn [fst snd]. apply (Hs _ _ (part b f a post ++ after)); [|exact HI].
    rewrite Hall, E. unfold part. rewrite map_app. cbn [map fst snd]. rewrite <- !app_assoc. reflexivity.
Qed.

Lemma fill_row_rule (W R : Z -> Z -> Prop) (I : list (bool * (Z * T)) -> list Z * Z * Z -> mem V -> Prop) i mk bd bo m (Q : list Z * Z * Z -> mem V -> Prop) :
  0 <= i < rows ->
  wp W R (fill_start i (mk, bd, bo)) m (I []) ->
  (forall pre o post st m, ops i = pre ++ o :: post -> I pre st m -> wp W R (fill_op bd bo st o) m (I (pre ++ [o]))) ->
  (forall st m, I (ops i) st m -> Q st m) ->
  wp W R (fill_row A B Dx Ox mBC asq i (mk, bd, bo)) m Q.
Proof.
  intros Hi H0 Hs HQ. unfold fill_row. fold ncd. apply wp_bind. eapply wp_mono; [|exact H0]. cbn beta. intros st m1 I1.
  apply wp_bind.
  assert (G1 : wp W R (if negb (c_cols (pm_offd A) =? 0)
     then pover_row (pm_offd A) i st (fun i2 a st =>
      st <~ pover_row Ox i2 st (fun j b st => let '(marker, d, o) := st in ' (marker, o) <~ fill_one 2 3 ncd bo (marker, o) (ncd + j) (smul a b) ;; Ret (marker, d, o)) ;;
      pover_row Dx i2 st (fun j b st => let '(marker, d, o) := st in ' (marker, d) <~ fill_one 0 1 0 bd (marker, d) j (smul a b) ;; Ret (marker, d, o)))
     else Ret st) m1 (I (flat_map outer (row_of (pm_offd A) i)))).
  { destruct (Z.eqb_spec (c_cols (pm_offd A)) 0) as [E0|N0]; cbn [negb].
    - rewrite no_cols_row; [exact I1|exact VAo|rewrite RAo; exact Hi|exact E0].
    - apply (wp_over_row W R (fun pre st m => I (flat_map outer pre) st m)); [exact VAo|rewrite RAo; exact Hi|exact I1| |auto].
      intros pre c v post st2 m2 E I2. assert (Hc : 0 <= c < c_cols (pm_offd A)) by (apply (row_of_cols (pm_offd A) i (c, v) VAo); [rewrite RAo; exact Hi|rewrite E; apply in_elt]).
      rewrite flat_map_snoc. set (o1 := part true (fun j => j) v (row_of Ox c)). set (o2 := part false (fun j => j) v (row_of Dx c)).
      set (rest := flat_map outer post ++ flat_map inner (row_of (pm_diag A) i)).
      assert (Eo : ops i = flat_map outer pre ++ o1 ++ o2 ++ rest).
      { unfold ops, rest. rewrite E, flat_map_app. cbn [flat_map]. unfold outer at 2. cbn [fst snd]. fold o1 o2. rewrite <- !app_assoc. reflexivity. }
      apply wp_bind. apply (wp_part W R I Ox c true (fun j => j) v bd bo (ops i) (flat_map outer pre) (o2 ++ rest)); [exact VO|rewrite RO; exact Hc|exact Eo|exact I2|exact Hs|reflexivity|].
      intros st3 m3 I3. fold o1 in I3. apply (wp_part W R I Dx c false (fun j => j) v bd bo (ops i) (flat_map outer pre ++ o1) rest); [exact VD|rewrite RD; exact Hc|rewrite Eo, <- !app_assoc; reflexivity|exact I3|exact Hs|reflexivity|].
      intros st4 m4 I4. fold o2 in I4. unfold outer at 2. cbn [fst snd]. fold o1 o2. rewrite <- app_assoc in I4. exact I4. }
  eapply wp_mono; [|exact G1]. cbn beta. intros st2 m2 I2.
  apply (wp_over_row W R (fun pre st m => I (flat_map outer (row_of (pm_offd A) i) ++ flat_map inner pre) st m)); [exact VAd|exact Hi|cbn [flat_map]; now rewrite app_nil_r| |exact HQ].
  intros pre c v post st3 m3 E I3. assert (Hc : 0 <= c < c_cols (pm_diag A)) by (apply (row_of_cols (pm_diag A) i (c, v) VAd Hi); rewrite E; apply in_elt).
  set (o1 := part false (fun j => j) v (row_of (pm_diag B) c)). set (o2 := part true (fun j => zn 0 mBC j) v (row_of (pm_offd B) c)).
  set (before := flat_map outer (row_of (pm_offd A) i) ++ flat_map inner pre) in *. set (rest := flat_map inner post).
  assert (Eo : ops i = before ++ o1 ++ o2 ++ rest).
  { unfold ops, rest, before. rewrite E. rewrite flat_map_app. cbn [flat_map]. unfold inner at 2. cbn [fst snd]. fold o1 o2. rewrite <- !app_assoc. reflexivity. }
  assert (Ei : flat_map outer (row_of (pm_offd A) i) ++ flat_map inner (pre ++ [(c, v)]) = (before ++ o1) ++ o2).
  { rewrite flat_map_snoc. unfold before. unfold inner at 2. cbn [fst snd]. fold o1 o2. rewrite <- !app_assoc. reflexivity. }
  rewrite Ei. apply wp_bind. apply (wp_part W R I (pm_diag B) c false (fun j => j) v bd bo (ops i) before (o2 ++ rest)); [exact VBd|rewrite RBd; exact Hc|exact Eo|exact I3|exact Hs|reflexivity|].
  intros st4 m4 I4. fold o1 in I4. destruct (Z.eqb_spec (c_cols (pm_offd B)) 0) as [E0|N0]; cbn [negb].
  - cbn [wp]. unfold o2. rewrite (no_cols_row (pm_offd B) c); [|exact VBo|rewrite RBo; exact Hc|exact E0]. unfold part at 1. cbn [map]. now rewrite app_nil_r.
  - apply (wp_part W R I (pm_offd B) c true (fun j => zn 0 mBC j) v bd bo (ops i) (before ++ o1) rest); [exact VBo|rewrite RBo; exact Hc|rewrite Eo, <- !app_assoc; reflexivity|exact I4|exact Hs| |auto].
    intros j w st5 Hj. rewrite (get_ok 0) by lia. reflexivity.
Qed.

Section FillThreads.
Variable n : Z.
Hypothesis Hn : 0 < n.

Definition pshape : list Z := [off drow rows; off drow rows; off orow rows; off orow rows].
Definition pw (t x i : Z) : Prop :=
  ((x = 0 \/ x = 1) /\ off drow (tstart rows n t) <= i < off drow (tstart rows n (t + 1))) \/
  ((x = 2 \/ x = 3) /\ off orow (tstart rows n t) <= i < off orow (tstart rows n (t + 1))).
Definition pfin (x i : Z) : V :=
  if x =? 0 then inl (fst (zn (0, s0) (cat drow rows) i)) else if x =? 1 then inr (snd (zn (0, s0) (cat drow rows) i))
  else if x =? 2 then inl (fst (zn (0, s0) (cat orow rows) i)) else inr (snd (zn (0, s0) (cat orow rows) i)).

Lemma pw_inside (m : mem V) t x i : 0 <= t < n -> shape m = pshape -> pw t x i -> inside (shape m) x i.
Proof.
  intros Ht -> Hx. pose proof (tstart_range rows n (t + 1) Hr Hn ltac:(lia)) as R2.
  pose proof (off_mono drow _ _ R2) as H1. pose proof (off_mono orow _ _ R2) as H2. pose proof (off_nonneg drow (tstart rows n t)) as H3. pose proof (off_nonneg orow (tstart rows n t)) as H4.
  split; [unfold pshape; rewrite !zlen_cons, zlen_nil; destruct Hx as [(Hx & Hi)|(Hx & Hi)]; lia|].
  destruct Hx as [([-> | ->] & Hi)|([-> | ->] & Hi)];
    [change (zn 0 pshape 0) with (off drow rows)|change (zn 0 pshape 1) with (off drow rows)|change (zn 0 pshape 2) with (off orow rows)|change (zn 0 pshape 3) with (off orow rows)]; lia.
Qed.

Definition done (t i : Z) (m : mem V) : Prop :=
  shape m = pshape /\
  (forall x j, (x = 0 \/ x = 1) -> off drow (tstart rows n t) <= j < off drow i -> m_get m x j = Ok (pfin x j)) /\
  (forall x j, (x = 2 \/ x = 3) -> off orow (tstart rows n t) <= j < off orow i -> m_get m x j = Ok (pfin x j)).

Lemma done_frame t i (m m' : mem V) : shape m' = shape m ->
  (forall x j, ((x = 0 \/ x = 1) /\ j < off drow i) \/ ((x = 2 \/ x = 3) /\ j < off orow i) -> m_get m' x j = m_get m x j) -> done t i m -> done t i m'.
Proof. intros Sh H (S0 & D1 & D2). split; [congruence|]. split; intros x j Hx Hj; rewrite H by tauto; auto. Qed.

Lemma done_next t i m : tstart rows n t <= i < rows -> 0 <= t < n -> done t i m -> held m 0 1 (off drow i) (drow i) -> held m 2 3 (off orow i) (orow i) -> done t (i + 1) m.
Proof.
  intros Hi Ht (S0 & D1 & D2) H1 H2. pose proof (tstart_range rows n t Hr Hn ltac:(lia)) as R1. split; [exact S0|]. rewrite !off_succ by lia. split; intros x j Hx Hj.
  - destruct (Z_lt_ge_dec j (off drow i)) as [L|L]; [apply D1; [exact Hx|lia]|]. destruct (H1 (j - off drow i) ltac:(lia)) as (E1 & E2).
    replace (off drow i + (j - off drow i)) with j in E1, E2 by lia.
    assert (Ez : zn (0, s0) (cat drow rows) j = zn (0, s0) (drow i) (j - off drow i)) by (rewrite <- (zn_cat (0, s0) drow rows i) by lia; f_equal; lia).
    unfold pfin. destruct Hx as [-> | ->]; cbn [Z.eqb Pos.eqb]; rewrite Ez; assumption.
  - destruct (Z_lt_ge_dec j (off orow i)) as [L|L]; [apply D2; [exact Hx|lia]|]. destruct (H2 (j - off orow i) ltac:(lia)) as (E1 & E2).
    replace (off orow i + (j - off orow i)) with j in E1, E2 by lia.
    assert (Ez : zn (0, s0) (cat orow rows) j = zn (0, s0) (orow i) (j - off orow i)) by (rewrite <- (zn_cat (0, s0) orow rows i) by lia; f_equal; lia).
    unfold pfin. destruct Hx as [-> | ->]; cbn [Z.eqb Pos.eqb]; rewrite Ez; assumption.
Qed.

Lemma fill_row_wp t i mk (m : mem V) (Q : list Z * Z * Z -> mem V -> Prop) :
  0 <= t < n -> tstart rows n t <= i < tstart rows n (t + 1) -> zlen mk = ncd + nco ->
  marks mk 0 ncd (off drow i) [] -> marks mk ncd nco (off orow i) [] -> done t i m ->
  (forall mk' m', zlen mk' = ncd + nco -> marks mk' 0 ncd (off drow (i + 1)) [] -> marks mk' ncd nco (off orow (i + 1)) [] -> done t (i + 1) m' -> Q (mk', off drow (i + 1), off orow (i + 1)) m') ->
  wp (pw t) (nor t) (fill_row A B Dx Ox mBC asq i (mk, off drow i, off orow i)) m Q.
Proof.
  intros Ht Hi Lk M1 M2 Hdn HQ.
  pose proof (tstart_range rows n t Hr Hn ltac:(lia)) as R1. pose proof (tstart_range rows n (t + 1) Hr Hn ltac:(lia)) as R2.
  assert (Md : off drow i + zlen (drow i) <= off drow (tstart rows n (t + 1))) by (rewrite <- off_succ by lia; apply off_mono; lia).
  assert (Mo : off orow i + zlen (orow i) <= off orow (tstart rows n (t + 1))) by (rewrite <- off_succ by lia; apply off_mono; lia).
  assert (Ld : off drow (tstart rows n t) <= off drow i) by (apply off_mono; lia). assert (Lo : off orow (tstart rows n t) <= off orow i) by (apply off_mono; lia).
  set (bd := off drow i) in *. set (bo := off orow i) in *.
  set (I := fun pre (st : list Z * Z * Z) (m : mem V) => exists mk', st = (mk', bd + zlen (cur false i pre), bo + zlen (cur true i pre)) /\ marked bd bo mk' i pre /\
     held m 0 1 bd (cur false i pre) /\ held m 2 3 bo (cur true i pre) /\ done t i m).
  assert (Wd : forall x j, (x = 0 \/ x = 1) -> bd <= j < bd + zlen (drow i) -> pw t x j) by (intros x j Hx Hj; left; split; [exact Hx|lia]).
  assert (Wo : forall x j, (x = 2 \/ x = 3) -> bo <= j < bo + zlen (orow i) -> pw t x j) by (intros x j Hx Hj; right; split; [exact Hx|lia]).
  apply (fill_row_rule _ _ I); [lia| | |].
  - (* the start *)
    unfold fill_start. assert (Ec : forall b, cur b i [] = if b then [] else dinit i) by (intros []; reflexivity).
    assert (Ld0 : zlen (dinit i) <= zlen (drow i)) by apply acc_from_len. unfold I, marked. rewrite !Ec. unfold dinit in Ld0 |- *. destruct asq eqn:Ea.
    + rewrite zlen_cons, zlen_nil in Ld0. pose proof (Hsq eq_refl) as Er. rewrite set_ok by lia. cbn [lift pbind].
      assert (W0 : forall x, x = 0 \/ x = 1 -> pw t x bd) by (intros x Hx; apply Wd; [exact Hx|lia]).
      apply wp_bind. apply wp_wr; [apply W0; lia|apply (pw_inside m t 1 bd Ht (proj1 Hdn)); apply W0; lia|]. intros m1 S1. pose proof (proj1 S1) as Sh1.
      apply wp_bind. apply wp_wr; [apply W0; lia|rewrite Sh1; apply (pw_inside m t 0 bd Ht (proj1 Hdn)); apply W0; lia|]. intros m2 S2. pose proof (proj1 S2) as Sh2. cbn [wp].
      eexists. rewrite zlen_cons, zlen_nil, Z.add_0_r. split; [reflexivity|]. split; [|split; [|split]].
      * split; [now rewrite zlen_upd|]. cbn [map fst]. split.
        -- pose proof (marks_new mk 0 ncd bd [] i) as G. change (zlen (@nil Z)) with 0 in G. rewrite Z.add_0_r, Z.add_0_l in G. apply G; [lia|lia|exact M1|lia|auto].
        -- apply (marks_frame mk); [|exact M2]. intros j Hj. rewrite zn_upd by lia. destruct (Z.eqb_spec j i); [lia|reflexivity].
      * intros s Hs. rewrite zlen_cons, zlen_nil in Hs. assert (s = 0) as -> by lia. rewrite Z.add_0_r. change (zn (0, s0) [(i, s0)] 0) with (i, @s0 S). cbn [fst snd].
        rewrite (stored_same _ _ _ _ _ S2). rewrite (stored_other _ _ _ _ _ 1 bd S2) by lia. rewrite (stored_same _ _ _ _ _ S1). auto.
      * intros s Hs. rewrite zlen_nil in Hs. lia.
      * apply (done_frame t i m); [congruence| |exact Hdn]. intros x j Hx. fold bd bo in Hx. rewrite (stored_other _ _ _ _ _ x j S2), (stored_other _ _ _ _ _ x j S1) by lia. reflexivity.
    + cbn [wp]. exists mk. rewrite zlen_nil, !Z.add_0_r. split; [reflexivity|]. split; [split; [exact Lk|]; split; [exact M1|exact M2]|].
      split; [intros s Hs; rewrite zlen_nil in Hs; lia|]. split; [intros s Hs; rewrite zlen_nil in Hs; lia|exact Hdn].
  - (* one product *)
    intros pre [b [k v]] post st m1 E (mk1 & -> & (L1 & N1 & N2) & H1 & H2 & Hd1). assert (Hk : 0 <= k < width b) by (apply (ops_cols i b k v ltac:(lia)); rewrite E; apply in_elt).
    assert (Lc : forall b', zlen (cur b' i (pre ++ [(b, (k, v))])) <= zlen (if b' then orow i else drow i)).
    { intros b'. replace (if b' then orow i else drow i) with (cur b' i (ops i)) by (destruct b'; reflexivity). rewrite E. replace (pre ++ (b, (k, v)) :: post) with ((pre ++ [(b, (k, v))]) ++ post) by (rewrite <- app_assoc; reflexivity). apply cur_len. }
    pose proof (Lc false) as Lcd. pose proof (Lc true) as Lco. cbn beta iota in Lcd, Lco.
    unfold fill_op. cbn [fst snd]. rewrite !cur_snoc in Lcd, Lco. destruct b; cbn [Bool.eqb] in Lcd, Lco; cbn [width] in Hk.
    + apply wp_bind. apply (fill_one_wp _ _ mk1 ncd nco bo (cur true i pre) k v 2 3); [lia|lia|lia|exact N2|exact Hk|exact H2| |].
      * intros x j Hx Hj. assert (Wx : pw t x j) by (apply Wo; [exact Hx|lia]). split; [exact Wx|apply (pw_inside m1 t x j Ht (proj1 Hd1) Wx)].
      * intros mk2 m2 L2 N2' F Sh2 H2' Fm. cbn [wp]. exists mk2. rewrite !cur_snoc. cbn [Bool.eqb]. split; [reflexivity|]. unfold marked. rewrite !cur_snoc. cbn [Bool.eqb].
        split; [split; [congruence|]; split; [|exact N2']|].
        -- apply (marks_frame mk1); [|exact N1]. intros j Hj. apply F; lia.
        -- split; [apply (held_frame m1); [|exact H1]; intros x j Hx Hj; apply Fm; lia|]. split; [exact H2'|]. apply (done_frame t i m1); [exact Sh2| |exact Hd1]. intros x j Hx. fold bd bo in Hx. apply Fm. lia.
    + apply wp_bind. rewrite <- (Z.add_0_l k). apply (fill_one_wp _ _ mk1 0 ncd bd (cur false i pre) k v 0 1); [lia|lia|lia|exact N1|exact Hk|exact H1| |].
      * intros x j Hx Hj. assert (Wx : pw t x j) by (apply Wd; [exact Hx|lia]). split; [exact Wx|apply (pw_inside m1 t x j Ht (proj1 Hd1) Wx)].
      * intros mk2 m2 L2 N1' F Sh2 H1' Fm. rewrite Z.add_0_l. cbn [wp]. exists mk2. rewrite !cur_snoc. cbn [Bool.eqb]. split; [reflexivity|]. unfold marked. rewrite !cur_snoc. cbn [Bool.eqb].
        split; [split; [congruence|]; split; [exact N1'|]|].
        -- apply (marks_frame mk1); [|exact N2]. intros j Hj. apply F; lia.
        -- split; [exact H1'|]. split; [apply (held_frame m1); [|exact H2]; intros x j Hx Hj; apply Fm; lia|]. apply (done_frame t i m1); [exact Sh2| |exact Hd1]. intros x j Hx. fold bd bo in Hx. apply Fm. lia.
  - (* the end of the row *)
    intros st m1 (mk1 & -> & (L1 & N1 & N2) & H1 & H2 & Hd1). change (cur false i (ops i)) with (drow i) in *. change (cur true i (ops i)) with (orow i) in *.
    unfold bd, bo. rewrite <- !off_succ by lia. apply HQ; [exact L1| | |apply done_next; auto; lia]; rewrite off_succ by lia.
    + apply marks_next in N1. now rewrite zlen_map in N1.
    + apply marks_next in N2. now rewrite zlen_map in N2.
Qed.

Lemma fill_thread_wp (m : mem V) t : shape m = pshape -> 0 <= t < n ->
  wp (pw t) (nor t) (fill_thread A B Dx Ox mBC asq nco (map (off drow) (zrange 0 (rows + 1))) (map (off orow) (zrange 0 (rows + 1))) rows n t) m
    (fun _ m' => forall x i, pw t x i -> m_get m' x i = Ok (pfin x i)).
Proof.
  intros Sm Ht. unfold fill_thread. rewrite thread_range_eq by lia. fold ncd.
  pose proof (tstart_range rows n t Hr Hn ltac:(lia)) as R1. pose proof (tstart_range rows n (t + 1) Hr Hn ltac:(lia)) as R2. pose proof (tstart_S rows n t Hr Hn) as R3.
  rewrite !(get_ok 0) by (rewrite zlen_map_zrange; lia). rewrite vec_ok by lia. cbn [lift pbind]. rewrite !zn_map_zrange by lia.
  apply wp_bind. apply (wp_pfor _ _ (fun i st mm => done t i mm /\ exists mk, st = (mk, off drow i, off orow i) /\ zlen mk = ncd + nco /\ marks mk 0 ncd (off drow i) [] /\ marks mk ncd nco (off orow i) [])).
  - exact R3.
  - split; [split; [exact Sm|]; split; intros; lia|]. eexists. split; [reflexivity|]. rewrite zlen_repeat. split; [lia|].
    pose proof (off_nonneg drow (tstart rows n t)). pose proof (off_nonneg orow (tstart rows n t)).
    split; (split; [intros s Hs; change (zlen (@nil Z)) with 0 in Hs; lia|intros k Hk _; rewrite zn_repeat by lia; lia]).
  - intros i st mm Hi (Hdn & mk & -> & L & M1 & M2). apply (fill_row_wp t i mk mm); auto. intros mk' m' L' M1' M2' Hd'. split; [exact Hd'|]. exists mk'. auto.
  - intros st mm ((_ & D1 & D2) & _). cbn [wp]. intros x i [(Hx & Hi)|(Hx & Hi)]; auto.
Qed.

(** The arrays of C after the second pass. *)
Lemma fill_ok m0 sched : shape m0 = pshape ->
  exists m, region n sched (fill_thread A B Dx Ox mBC asq nco (map (off drow) (zrange 0 (rows + 1))) (map (off orow) (zrange 0 (rows + 1))) rows n) m0 = Ok m /\
    ints m 0 = Ok (map fst (cat drow rows)) /\ doubles m 1 = Ok (map snd (cat drow rows)) /\
    ints m 2 = Ok (map fst (cat orow rows)) /\ doubles m 3 = Ok (map snd (cat orow rows)).
Proof.
  intros S0. destruct (region_ok n (fill_thread A B Dx Ox mBC asq nco (map (off drow) (zrange 0 (rows + 1))) (map (off orow) (zrange 0 (rows + 1))) rows n) pw nor (fun _ => pfin) m0 sched ltac:(lia)) as (m & E & Sm & D & _).
  { intros t Ht. now apply fill_thread_wp. }
  { intros s t x i Hs Ht Hne Hw [[]|Hw']. destruct Hw as [(Hx & Hi)|(Hx & Hi)], Hw' as [(Hx' & Hi')|(Hx' & Hi')]; try lia.
    - apply Hne. exact (seg_unique rows n drow s t i Hr Hn Hs Ht Hi Hi').
    - apply Hne. exact (seg_unique rows n orow s t i Hr Hn Hs Ht Hi Hi'). }
  exists m. split; [exact E|]. rewrite S0 in Sm.
  assert (G1 : forall x i, (x = 0 \/ x = 1) -> 0 <= i < off drow rows -> m_get m x i = Ok (pfin x i)).
  { intros x i Hx Hi. destruct (off_owner drow rows n i Hr Hn Hi) as (t & Ht & Hti). apply (D t x i Ht). left. split; [exact Hx|exact Hti]. }
  assert (G2 : forall x i, (x = 2 \/ x = 3) -> 0 <= i < off orow rows -> m_get m x i = Ok (pfin x i)).
  { intros x i Hx Hi. destruct (off_owner orow rows n i Hr Hn Hi) as (t & Ht & Hti). apply (D t x i Ht). right. split; [exact Hx|exact Hti]. }
  assert (Z4 : zlen pshape = 4) by reflexivity.
  split; [|split; [|split]].
  - rewrite (ints_ok m 0 (fun i => fst (zn (0, s0) (cat drow rows) i))); rewrite ?Sm, ?Z4; [|lia|].
    + change (zn 0 pshape 0) with (off drow rows). now rewrite map_zn_fst.
    + intros i Hi. apply (G1 0); auto.
  - rewrite (doubles_ok m 1 (fun i => snd (zn (0, s0) (cat drow rows) i))); rewrite ?Sm, ?Z4; [|lia|].
    + change (zn 0 pshape 1) with (off drow rows). now rewrite map_zn_snd.
    + intros i Hi. apply (G1 1); auto.
  - rewrite (ints_ok m 2 (fun i => fst (zn (0, s0) (cat orow rows) i))); rewrite ?Sm, ?Z4; [|lia|].
    + change (zn 0 pshape 2) with (off orow rows). now rewrite map_zn_fst.
    + intros i Hi. apply (G2 2); auto.
  - rewrite (doubles_ok m 3 (fun i => snd (zn (0, s0) (cat orow rows) i))); rewrite ?Sm, ?Z4; [|lia|].
    + change (zn 0 pshape 3) with (off orow rows). now rewrite map_zn_snd.
    + intros i Hi. apply (G2 3); auto.
Qed.

End FillThreads.

End Rows.
