(** A small program logic for threads, and: threads that do not write what others access give the
    same result under every schedule. *)

From Coq Require Import ZArith List Bool Lia.
From Verif Require Import Base LoopFacts Threads.
Import ListNotations.
Open Scope Z_scope.

Section Logic.
Context {V : Type}.
Implicit Types (m : mem V).

Definition shape m : list Z := map zlen m.

Lemma get_upd_eq {A} (l : list A) i j (a : A) : 0 <= i < zlen l -> get (upd l (Z.to_nat i) a) j = if j =? i then Ok a else get l j.
Proof.
  intros Hi. destruct (Z_lt_ge_dec j 0) as [N|N]; [|destruct (Z_lt_ge_dec j (zlen l)) as [L|L]].
  - rewrite !get_out by (rewrite ?zlen_upd; lia). destruct (Z.eqb_spec j i); [lia|reflexivity].
  - rewrite (get_ok a) by (rewrite zlen_upd; lia). rewrite zn_upd by lia. destruct (j =? i); [reflexivity|]. symmetry. apply (get_ok a). lia.
  - rewrite !get_out by (rewrite ?zlen_upd; lia). destruct (Z.eqb_spec j i); [lia|reflexivity].
Qed.

Lemma m_set_ok m x i (v w : V) : m_get m x i = Ok w -> exists m', m_set m x i v = Ok m'.
Proof.
  unfold m_get, m_set. destruct (get m x) as [a|] eqn:E; cbn [bind]; [|discriminate]. intros H. apply (get_Ok_inv w) in H. destruct H as (Hi & _).
  rewrite set_ok by exact Hi. cbn [bind]. apply (get_Ok_inv a) in E. destruct E as (Hx & _). rewrite set_ok by exact Hx. eauto.
Qed.

Lemma m_get_set m x i (v : V) m' y j : m_set m x i v = Ok m' -> m_get m' y j = if (y =? x) && (j =? i) then Ok v else m_get m y j.
Proof.
  unfold m_get, m_set. destruct (get m x) as [a|] eqn:E; cbn [bind]; [|discriminate].
  destruct (set a i v) as [a'|] eqn:E2; cbn [bind]; [|discriminate]. apply set_Ok_inv in E2. destruct E2 as (Hi & ->).
  intros H. apply set_Ok_inv in H. destruct H as (Hx & ->). rewrite get_upd_eq by exact Hx. destruct (Z.eqb_spec y x) as [->|]; cbn [andb bind]; [|reflexivity].
  rewrite E. cbn [bind]. apply get_upd_eq, Hi.
Qed.

Lemma map_upd {A B} (f : A -> B) l n a : map f (upd l n a) = upd (map f l) n (f a).
Proof. revert n. induction l as [|b l IH]; intros [|n]; cbn; [reflexivity|reflexivity|reflexivity|]. now rewrite IH. Qed.

Lemma upd_self {A} (d : A) l i : 0 <= i < zlen l -> upd l (Z.to_nat i) (zn d l i) = l.
Proof. intros H. apply (list_ext d); [apply zlen_upd|]. rewrite zlen_upd. intros j Hj. rewrite zn_upd by lia. destruct (Z.eqb_spec j i); [now subst|reflexivity]. Qed.

Lemma shape_set m x i (v : V) m' : m_set m x i v = Ok m' -> shape m' = shape m.
Proof.
  unfold m_set. destruct (get m x) as [a|] eqn:E; cbn [bind]; [|discriminate].
  destruct (set a i v) as [a'|] eqn:E2; cbn [bind]; [|discriminate]. apply set_Ok_inv in E2. destruct E2 as (Hi & ->).
  intros H. apply set_Ok_inv in H. destruct H as (Hx & ->). unfold shape. rewrite map_upd, zlen_upd.
  apply (get_Ok_inv a) in E. destruct E as (_ & ->). rewrite <- (zn_map a 0 zlen) by exact Hx. apply upd_self. now rewrite zlen_map.
Qed.

(** [wp W R p m Q]: run alone from m, p does not fail, reads only cells in R and W, writes only
    cells in W and ends in Q. *)
Fixpoint wp {A} (W R : Z -> Z -> Prop) (p : prog V A) m (Q : A -> mem V -> Prop) : Prop :=
  match p with
  | Ret a => Q a m
  | Err _ => False
  | Rd x i k => (R x i \/ W x i) /\ exists v, m_get m x i = Ok v /\ wp W R (k v) m Q
  | Wr x i v k => W x i /\ exists m', m_set m x i v = Ok m' /\ wp W R k m' Q
  end.

Lemma wp_mono {A} W R (p : prog V A) (Q Q' : A -> mem V -> Prop) : forall m, (forall a m', Q a m' -> Q' a m') -> wp W R p m Q -> wp W R p m Q'.
Proof.
  induction p as [a|f|x i k IH|x i v k IH]; intros m H; cbn [wp]; auto.
  - intros (H1 & v & H2 & H3). split; [exact H1|]. exists v. split; [exact H2|]. now apply IH.
  - intros (H1 & m' & H2 & H3). split; [exact H1|]. exists m'. split; [exact H2|]. now apply IH.
Qed.

Lemma wp_bind {A B} W R (p : prog V A) (f : A -> prog V B) (Q : B -> mem V -> Prop) : forall m,
  wp W R p m (fun a m' => wp W R (f a) m' Q) -> wp W R (pbind p f) m Q.
Proof.
  induction p as [a|e|x i k IH|x i v k IH]; intros m; cbn [pbind wp]; auto.
  - intros (H1 & v & H2 & H3). split; [exact H1|]. exists v. split; [exact H2|]. now apply IH.
  - intros (H1 & m' & H2 & H3). split; [exact H1|]. exists m'. split; [exact H2|]. now apply IH.
Qed.

Lemma wp_lift {A} W R (r : res A) m (Q : A -> mem V -> Prop) : returns r (fun a => Q a m) -> wp W R (lift r) m Q.
Proof. destruct r; cbn; auto. Qed.

Lemma wp_pfold {A B} W R (I : list B -> A -> mem V -> Prop) (f : A -> B -> prog V A) (l : list B) (a : A) m (Q : A -> mem V -> Prop) :
  I [] a m ->
  (forall pre x post a m, l = pre ++ x :: post -> I pre a m -> wp W R (f a x) m (I (pre ++ [x]))) ->
  (forall a m, I l a m -> Q a m) ->
  wp W R (pfold f l a) m Q.
Proof.
  intros H0 Hs HQ.
  assert (G : forall rest pre a m, l = pre ++ rest -> I pre a m -> wp W R (pfold f rest a) m Q).
  { induction rest as [|x rest IH]; intros pre a' m' E Hp; cbn [pfold].
    - cbn [wp]. apply HQ. rewrite app_nil_r in E. now subst.
    - apply wp_bind. apply (wp_mono _ _ _ (I (pre ++ [x]))); [|now apply (Hs pre x rest)].
      intros a2 m2 H2. apply (IH (pre ++ [x])); [|exact H2]. rewrite <- app_assoc. exact E. }
  now apply (G l []).
Qed.

Lemma wp_pfor {A} W R (I : Z -> A -> mem V -> Prop) (f : Z -> A -> prog V A) lo hi (a : A) m (Q : A -> mem V -> Prop) :
  lo <= hi -> I lo a m ->
  (forall i a m, lo <= i < hi -> I i a m -> wp W R (f i a) m (I (i + 1))) ->
  (forall a m, I hi a m -> Q a m) ->
  wp W R (pfor lo hi a f) m Q.
Proof.
  intros Hle H0 Hs HQ. unfold pfor. assert (L : zlen (zrange lo hi) = hi - lo) by (rewrite zlen_zrange; lia).
  apply (wp_pfold W R (fun pre a m => I (lo + zlen pre) a m)).
  - rewrite zlen_nil, Z.add_0_r. exact H0.
  - intros pre x post a' m' E Hp. rewrite zlen_app, zlen_cons, zlen_nil.
    assert (Ex : x = lo + zlen pre /\ lo <= x < hi).
    { assert (In x (zrange lo hi)) by (rewrite E; apply in_elt). apply In_zrange in H. split; [|lia].
      assert (zn 0 (zrange lo hi) (zlen pre) = x) by (rewrite E, zn_app_r by lia; now rewrite Z.sub_diag).
      rewrite zn_zrange in H1; [lia|]. rewrite <- (zlen_zrange lo hi) by lia. rewrite E, zlen_app, zlen_cons. pose proof (zlen_nonneg pre). pose proof (zlen_nonneg post). lia. }
    destruct Ex as (Ex & Hx). rewrite <- Ex in Hp. replace (lo + (zlen pre + (0 + 1))) with (x + 1) by lia. now apply Hs.
  - intros a' m' Hp. apply HQ. rewrite L in Hp. now replace (lo + (hi - lo)) with hi in Hp by lia.
Qed.

(** Agreement on some cells *)
Definition agree (L : Z -> Z -> Prop) m m' : Prop := forall x i, L x i -> m_get m x i = m_get m' x i.

Lemma wp_stable {A} W R (p : prog V A) (Q : A -> mem V -> Prop) :
  (forall a m m', agree W m m' -> shape m' = shape m -> Q a m -> Q a m') ->
  forall m m', agree (fun x i => R x i \/ W x i) m m' -> shape m' = shape m -> wp W R p m Q -> wp W R p m' Q.
Proof.
  intros HQ. induction p as [a|e|x i k IH|x i v k IH]; intros m m' Hm Hsh; cbn [wp]; auto.
  - apply HQ; [|exact Hsh]. intros x i H. apply Hm. now right.
  - intros (H1 & v & H2 & H3). split; [exact H1|]. exists v. split; [rewrite <- (Hm x i H1); exact H2|]. apply (IH v m m' Hm Hsh H3).
  - intros (H1 & m1 & H2 & H3). split; [exact H1|].
    assert (G : exists w, m_get m x i = Ok w).
    { unfold m_set in H2. unfold m_get. destruct (get m x) as [c|]; cbn [bind] in *; [|discriminate]. destruct (set c i v) as [c'|] eqn:E; [|discriminate].
      apply set_Ok_inv in E. destruct E as (Hi & _). exists (zn v c i). now apply get_ok. }
    destruct G as (w & Hw). destruct (m_set_ok m' x i v w) as (m2 & H4); [rewrite <- (Hm x i (or_intror H1)); exact Hw|].
    exists m2. split; [exact H4|]. apply (IH m1 m2); [| |exact H3].
    + intros y j L. rewrite (m_get_set m x i v m1 y j H2), (m_get_set m' x i v m2 y j H4). destruct ((y =? x) && (j =? i)); [reflexivity|now apply Hm].
    + rewrite (shape_set _ _ _ _ _ H2), (shape_set _ _ _ _ _ H4). exact Hsh.
Qed.

Lemma wp_run {A} W R (p : prog V A) (Q : A -> mem V -> Prop) : forall m, wp W R p m Q ->
  exists a m', run p m = Ok (a, m') /\ Q a m' /\ shape m' = shape m /\ agree (fun x i => ~ W x i) m m'.
Proof.
  induction p as [a|e|x i k IH|x i v k IH]; intros m; cbn [wp run].
  - intros H. exists a, m. repeat split; auto.
  - contradiction.
  - intros (H1 & v & H2 & H3). rewrite H2. cbn [bind]. now apply IH.
  - intros (H1 & m1 & H2 & H3). rewrite H2. cbn [bind]. destruct (IH m1 H3) as (a & m' & E & HQ & Hs & Ha). exists a, m'. split; [exact E|]. split; [exact HQ|].
    rewrite <- (shape_set _ _ _ _ _ H2). split; [exact Hs|]. intros y j N. rewrite <- (Ha y j N). rewrite (m_get_set m x i v m1 y j H2).
    destruct (Z.eqb_spec y x) as [->|]; [|reflexivity]. destruct (Z.eqb_spec j i) as [->|]; [contradiction|reflexivity].
Qed.

(* ---------------------------------------------------------------- one phase *)

Section Phase.
Context {A : Type} (d : prog V A).
Variable pool0 : list (prog V A).
Let n := zlen pool0.
Variables W R : Z -> Z -> Z -> Prop.
Variable Q : Z -> A -> mem V -> Prop.
Variable m0 : mem V.
Hypothesis Hwp : forall t, 0 <= t < n -> wp (W t) (R t) (zn d pool0 t) m0 (Q t).
Hypothesis Hsep : forall s t x i, 0 <= s < n -> 0 <= t < n -> s <> t -> W s x i -> ~ (R t x i \/ W t x i).

Let Q' (t : Z) (a : A) (m : mem V) : Prop := exists mt, Q t a mt /\ shape mt = shape m0 /\ shape m = shape m0 /\ agree (W t) m mt.

Let Q'_stable t : forall a m m', agree (W t) m m' -> shape m' = shape m -> Q' t a m -> Q' t a m'.
Proof.
  intros a m m' Ha Hs (mt & H1 & H2 & H3 & H4). exists mt. split; [exact H1|]. split; [exact H2|]. split; [congruence|]. intros x i L. rewrite <- (Ha x i L). now apply H4.
Qed.

Lemma wp_shape {B} W' R' (p : prog V B) (P : B -> mem V -> Prop) : forall m, wp W' R' p m P -> wp W' R' p m (fun a m' => P a m' /\ shape m' = shape m).
Proof.
  induction p as [a|e|x i k IH|x i v k IH]; intros m; cbn [wp]; auto.
  - intros (H1 & v & H2 & H3). split; [exact H1|]. exists v. split; [exact H2|]. now apply IH.
  - intros (H1 & m1 & H2 & H3). split; [exact H1|]. exists m1. split; [exact H2|]. rewrite <- (shape_set _ _ _ _ _ H2). now apply IH.
Qed.

Let inv (pool : list (prog V A)) (m : mem V) : Prop :=
  zlen pool = n /\ shape m = shape m0 /\ (forall t, 0 <= t < n -> wp (W t) (R t) (zn d pool t) m (Q' t)) /\
  agree (fun x i => forall t, 0 <= t < n -> ~ W t x i) m m0.

Let inv0 : inv pool0 m0.
Proof.
  split; [reflexivity|]. split; [reflexivity|]. split; [|intros x i _; reflexivity].
  intros t Ht. apply (wp_mono _ _ _ (fun a m' => Q t a m' /\ shape m' = shape m0)); [|apply wp_shape, Hwp, Ht].
  intros a m' (H1 & H2). exists m'. repeat split; auto.
Qed.

(** A change that respects the footprint of thread t keeps what holds of the others. *)
Let others t m m' : 0 <= t < n -> agree (fun x i => ~ W t x i) m m' -> shape m' = shape m ->
  forall s p, 0 <= s < n -> s <> t -> wp (W s) (R s) p m (Q' s) -> wp (W s) (R s) p m' (Q' s).
Proof.
  intros Ht Ha Hs s p Hsn Hne H. apply (wp_stable (W s) (R s) p (Q' s) (Q'_stable s) m m'); auto.
  intros x i L. apply Ha. intros Hw. exact (Hsep t s x i Ht Hsn ltac:(auto) Hw L).
Qed.

Let outside t m m' : 0 <= t < n -> agree (fun x i => ~ W t x i) m m' -> agree (fun x i => forall t, 0 <= t < n -> ~ W t x i) m m0 -> agree (fun x i => forall t, 0 <= t < n -> ~ W t x i) m' m0.
Proof. intros Ht Ha Ho x i N. rewrite <- (Ho x i N). symmetry. apply Ha. now apply N. Qed.

Lemma step_inv pool m t : inv pool m -> returns (step (pool, m) t) (fun st => inv (fst st) (snd st)).
Proof.
  intros I. pose proof I as (Hl & Hs & Hp & Ho). unfold step. destruct (Z.leb_spec 0 t); [|exact I]. destruct (Z.ltb_spec t (zlen pool)); [|exact I]. cbn [andb].
  rewrite Hl in *. rewrite (get_ok d) by lia. cbn [bind]. pose proof (Hp t ltac:(lia)) as Ht.
  assert (Hr : for_ 0 n tt (fun s _ => q <- get pool s ;; if negb (s =? t) && conflict (zn d pool t) q then Fail FUB else Ok tt) = Ok tt).
  { apply (res_of_returns _ tt), (returns_for (fun _ st => st = tt)).
    - apply zlen_nonneg.
    - reflexivity.
    - intros s [] Hsn _. rewrite (get_ok d) by lia. cbn [bind]. destruct (Z.eqb_spec s t) as [->|Ne]; cbn [negb andb]; [reflexivity|].
      replace (conflict (zn d pool t) (zn d pool s)) with false; [reflexivity|]. symmetry. pose proof (Hp s ltac:(lia)) as Hs'. unfold conflict.
      destruct (zn d pool t) as [a|e|x i k|x i v k]; cbn [next]; try reflexivity; destruct (zn d pool s) as [b|e'|y j k'|y j v' k']; cbn [next]; try reflexivity.
      + cbn [orb]. apply andb_false_r.
      + destruct (Z.eqb_spec x y) as [->|]; [|reflexivity]. destruct (Z.eqb_spec i j) as [->|]; [|reflexivity]. exfalso. exact (Hsep s t y j ltac:(lia) ltac:(lia) Ne (proj1 Hs') (proj1 Ht)).
      + destruct (Z.eqb_spec x y) as [->|]; [|reflexivity]. destruct (Z.eqb_spec i j) as [->|]; [|reflexivity]. exfalso. exact (Hsep t s y j ltac:(lia) ltac:(lia) ltac:(auto) (proj1 Ht) (proj1 Hs')).
      + destruct (Z.eqb_spec x y) as [->|]; [|reflexivity]. destruct (Z.eqb_spec i j) as [->|]; [|reflexivity]. exfalso. exact (Hsep t s y j ltac:(lia) ltac:(lia) ltac:(auto) (proj1 Ht) (or_intror (proj1 Hs'))).
    - intros [] _. reflexivity. }
  rewrite Hr. cbn [bind]. destruct (zn d pool t) as [a|e|x i k|x i v k] eqn:Ep; cbn [wp] in Ht.
  - exact I.
  - contradiction.
  - destruct Ht as (H1 & v & H2 & H3). rewrite H2. cbn [bind]. rewrite set_ok by lia. cbn [bind returns fst snd].
    refine (conj _ (conj Hs (conj _ Ho))); [now rewrite zlen_upd|]. intros s Hsn. rewrite zn_upd by lia. destruct (Z.eqb_spec s t) as [->|]; [exact H3|now apply Hp].
  - destruct Ht as (H1 & m' & H2 & H3). rewrite H2. cbn [bind]. rewrite set_ok by lia. cbn [bind returns fst snd].
    assert (Ha : agree (fun x i => ~ W t x i) m m').
    { intros y j N. rewrite (m_get_set m x i v m' y j H2). destruct (Z.eqb_spec y x) as [->|]; [|reflexivity]. destruct (Z.eqb_spec j i) as [->|]; [contradiction|reflexivity]. }
    pose proof (shape_set _ _ _ _ _ H2) as Hsh.
    refine (conj _ (conj _ (conj _ _))); [now rewrite zlen_upd|congruence| |now apply (outside t m m' ltac:(lia) Ha Ho)].
    intros s Hsn. rewrite zn_upd by lia. destruct (Z.eqb_spec s t) as [->|Ne]; [exact H3|]. apply (others t m m'); auto; lia.
Qed.

Lemma schedule_inv sched : returns (foldM step sched (pool0, m0)) (fun st => inv (fst st) (snd st)).
Proof.
  apply (returns_foldM (fun _ st => inv (fst st) (snd st))); auto.
  intros pre t post [pool m] _ I. now apply step_inv.
Qed.

Theorem par_phase_ok sched : exists vals m', par_phase sched pool0 m0 = Ok (vals, m') /\ zlen vals = n /\ shape m' = shape m0 /\
  (forall t a, 0 <= t < n -> get vals t = Ok a -> exists mt, Q t a mt /\ shape mt = shape m0 /\ forall x i, W t x i -> m_get m' x i = m_get mt x i) /\
  (forall x i, (forall t, 0 <= t < n -> ~ W t x i) -> m_get m' x i = m_get m0 x i).
Proof.
  pose proof (schedule_inv sched) as H. apply returns_exists in H. destruct H as ([pool m] & E & Hl & Hs & Hp & Ho). cbn [fst snd] in *. unfold par_phase. rewrite E. cbn [bind].
  set (body := fun (st : list A * mem V) (p : prog V A) => _).
  assert (G : returns (foldM body pool ([], m)) (fun st => zlen (fst st) = n /\ shape (snd st) = shape m0 /\
    (forall t a, 0 <= t < n -> get (fst st) t = Ok a -> Q' t a (snd st)) /\ agree (fun x i => forall t, 0 <= t < n -> ~ W t x i) (snd st) m0)).
  { apply (returns_foldM (fun pre st => zlen (fst st) = zlen pre /\ shape (snd st) = shape m0 /\
      (forall t a, 0 <= t < zlen pre -> get (fst st) t = Ok a -> Q' t a (snd st)) /\
      (forall t, zlen pre <= t < n -> wp (W t) (R t) (zn d pool t) (snd st) (Q' t)) /\
      agree (fun x i => forall t, 0 <= t < n -> ~ W t x i) (snd st) m0)).
    - cbn [fst snd]. rewrite !zlen_nil. refine (conj eq_refl (conj Hs (conj _ (conj Hp Ho)))). intros; lia.
    - intros pre p post [vals mm] El (L & S1 & D & P & O). cbn [fst snd] in *. unfold body.
      assert (Ht : 0 <= zlen pre < n) by (rewrite <- Hl, El, zlen_app, zlen_cons; pose proof (zlen_nonneg pre); pose proof (zlen_nonneg post); lia).
      assert (Ep : zn d pool (zlen pre) = p) by (rewrite El, zn_app_r by lia; now rewrite Z.sub_diag).
      pose proof (P (zlen pre) ltac:(lia)) as Hw. rewrite Ep in Hw. destruct (wp_run _ _ _ _ _ Hw) as (a & m' & Er & HQ & S2 & Ha). rewrite Er. cbn [bind returns fst snd].
      rewrite !zlen_app, !zlen_cons, !zlen_nil. refine (conj _ (conj _ (conj _ (conj _ _)))).
      + lia.
      + congruence.
      + intros t b Htn Hg. destruct (Z.eq_dec t (zlen pre)) as [->|Ne].
        * rewrite <- L in Hg. rewrite (get_ok a) in Hg by (rewrite zlen_app, zlen_cons, zlen_nil; lia). rewrite zn_app_r in Hg by lia. rewrite Z.sub_diag in Hg. injection Hg as <-. exact HQ.
        * assert (Hg' : get vals t = Ok b).
          { rewrite (get_ok a) in Hg by (rewrite zlen_app, zlen_cons, zlen_nil; lia). rewrite zn_app_l in Hg by lia. injection Hg as <-. apply get_ok. lia. }
          specialize (D t b ltac:(lia) Hg'). refine (Q'_stable t b mm m' _ S2 D). intros x i L'. apply Ha. intros Hw'. exact (Hsep t (zlen pre) x i ltac:(lia) Ht Ne L' (or_intror Hw')).
      + intros t Htn. apply (others (zlen pre) mm m' Ht Ha S2); [lia|lia|]. apply P. lia.
      + now apply (outside (zlen pre) mm m' Ht Ha).
    - intros [vals mm] (L & S1 & D & _ & O). cbn [fst snd] in *. rewrite Hl in *. auto. }
  apply returns_exists in G. destruct G as ([vals m'] & E2 & L & S1 & D & O). cbn [fst snd] in *. rewrite E2. exists vals, m'. split; [reflexivity|]. split; [exact L|]. split; [exact S1|]. split; [|exact O].
  intros t a Ht Hg. destruct (D t a Ht Hg) as (mt & H1 & H2 & _ & H4). exists mt. auto.
Qed.

End Phase.
End Logic.
