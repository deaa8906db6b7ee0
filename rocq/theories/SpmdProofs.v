(** Functions run on all ranks: no rank waits forever, and the pieces are those of the run in one process. *)

From Coq Require Import ZArith List Bool Lia.
From Verif Require Import Base Scalar Spec SumFacts LoopFacts Vec Block BlockSpec BlockOp Dense Sparse Par ParSpec ParVecProofs Spmd SpmdSpec.
Import ListNotations.
Open Scope Z_scope.

Section SpmdProofs.
Context {S : scalar}.
Notation T := (car S).
Notation store := (store S).

(* ---------------------------------------------------------------- no deadlock *)

Section Lockstep.
Context {A : Type} (red : allreduce (S := S)) (ops : Z -> list (list T) -> list (list T) -> res (list (list T))).
Hypothesis AG : agrees red.

(** A rank that runs the same function, or has failed *)
Definition follows (s : script S A) (b : blocked S A) : Prop := (exists e, b = BRaise e) \/ exists st, b = advance true s st.

Definition good {X} (o : outcome (list (X * store))) : Prop :=
  o <> Deadlock /\ forall l, o = Done l -> forall p q, In p l -> In q l -> fst p = fst q.

Lemma expect_follows {X} (f : blocked S A -> option X) (P : X -> Prop) bs :
  (forall b, In b bs -> (exists e, b = BRaise e) \/ exists x, f b = Some x /\ P x) ->
  (exists e, expect f bs = Crash e) \/ exists l, expect f bs = Done l /\ forall x, In x l -> P x.
Proof.
  induction bs as [|b bs IH]; intros H; [right; exists []; split; [reflexivity|contradiction]|]. cbn [expect].
  destruct (H b (or_introl eq_refl)) as [(e & ->)|(x & E & Px)]; [left; eauto|].
  destruct (IH (fun c Hc => H c (or_intror Hc))) as [(e & E')|(l & E' & Pl)]; rewrite E, E'; cbn [obind].
  - left. destruct b; eauto.
  - destruct b; try (right; exists (x :: l); split; [reflexivity|intros y [<-|Hy]; [exact Px|now apply Pl]]). discriminate E || (left; eauto).
Qed.

Lemma together_good (s : script S A) : forall st bs, (forall b, In b bs -> follows s b) -> good (together true red ops s st bs).
Proof.
  induction s as [a|f|i j k IH|i j k IH|d i j l f k IH|i j k IH|o i d k IH]; intros st bs F; cbn [together].
  - destruct (expect_follows halted (fun x => fst x = a) bs) as [(e & ->)|(l & -> & Pl)].
    + intros b Hb. destruct (F b Hb) as [H|(st' & ->)]; [now left|right]. cbn. eauto.
    + split; [discriminate|discriminate].
    + cbn [obind]. split; [discriminate|]. intros l' E. injection E as <-.
      assert (H : forall p, In p ((a, st) :: l) -> fst p = a) by (intros p [<-|Hp]; [reflexivity|now apply Pl]).
      intros p q Hp Hq. rewrite (H p Hp), (H q Hq). reflexivity.
  - split; discriminate.
  - destruct (zlen (st i) =? zlen (st j)); [|split; discriminate]. apply IH. intros b Hb.
    destruct (F b Hb) as [H|(st' & ->)]; [now left|]. cbn [advance]. destruct (zlen (st' i) =? zlen (st' j)); [right; eauto|left; eauto].
  - apply IH. intros b Hb. destruct (F b Hb) as [H|(st' & ->)]; [now left|]. right. cbn [advance]. eauto.
  - destruct (each f st d i j l) as [v|e]; [|split; discriminate]. apply IH. intros b Hb.
    destruct (F b Hb) as [H|(st' & ->)]; [now left|]. cbn [advance]. destruct (each f st' d i j l); [right; eauto|left; eauto].
  - destruct (l_inner (st i) (st j)) as [d|e]; [|split; discriminate].
    destruct (expect_follows at_inner (fun x => snd (fst x) = k) bs) as [(e & ->)|(l & -> & Pl)].
    + intros b Hb. destruct (F b Hb) as [H|(st' & ->)]; [now left|]. cbn [advance].
      destruct (l_inner (st' i) (st' j)) as [d'|e]; [right|left; eauto]. exists (d', k, st'). split; reflexivity.
    + split; discriminate.
    + cbn [obind]. apply IH. intros b Hb. apply in_map_iff in Hb. destruct Hb as (r & <- & Hr). apply In_zrange in Hr.
      destruct (get l (r - 1)) as [((d', k'), st')|e] eqn:G; [|left; eauto].
      apply (get_Ok_inv (s0, k, st')) in G. destruct G as (Br & G).
      assert (E : k' = k). { change k' with (snd (fst (d', k', st'))). apply Pl. rewrite G. now apply zn_In. }
      rewrite E, (AG r 0). right. eauto.
  - destruct (expect_follows (at_apply o) (fun x => snd (fst x) = k) bs) as [(e & ->)|(l & -> & Pl)].
    + intros b Hb. destruct (F b Hb) as [H|(st' & ->)]; [now left|]. right. cbn [advance at_apply]. rewrite Z.eqb_refl. eexists. split; [reflexivity|reflexivity].
    + split; discriminate.
    + cbn [obind]. match goal with |- good (match ?x with _ => _ end) => destruct x as [[|y ys]|e] end; try (split; discriminate).
      apply IH. intros b Hb. apply in_map_iff in Hb. destruct Hb as (((((i', d'), k'), st'), y') & <- & Hp).
      apply in_combine_l in Hp. apply Pl in Hp. cbn [fst snd] in Hp. rewrite Hp. right. eauto.
Qed.

Theorem spmd_lockstep (s : script S A) sts : good (spmd true red ops s sts).
Proof.
  destruct sts as [|st sts]; [split; [discriminate|]|].
  - intros l E p q Hp. injection E as <-. destruct Hp.
  - cbn [spmd]. apply together_good. intros b Hb. apply in_map_iff in Hb. destruct Hb as (st' & <- & _). right. eauto.
Qed.
End Lockstep.

(* ---------------------------------------------------------------- pieces *)

Fixpoint zip3 (f : T -> T -> T -> T) (x y z : list T) : list T :=
  match x, y, z with a :: x, b :: y, c :: z => f a b c :: zip3 f x y z | _, _, _ => [] end.

Lemma zip3_spec f x : forall y z, length y = length x -> length z = length x ->
  length (zip3 f x y z) = length x /\ forall t, (t < length x)%nat -> nth t (zip3 f x y z) s0 = f (nth t x s0) (nth t y s0) (nth t z s0).
Proof.
  induction x as [|a x IH]; intros [|b y] [|c z] Hy Hz; cbn in *; try lia; [split; [reflexivity|intros; lia]|].
  destruct (IH y z) as (L & E); [lia|lia|]. split; [lia|]. intros [|t] Ht; [reflexivity|apply E; lia].
Qed.

Lemma zip3_app f x x' : forall y z y' z', length y = length x -> length z = length x -> zip3 f (x ++ x') (y ++ y') (z ++ z') = zip3 f x y z ++ zip3 f x' y' z'.
Proof. induction x as [|a x IH]; intros [|b y] [|c z] y' z' Hy Hz; cbn in *; try lia; [reflexivity|]. rewrite IH by lia. reflexivity. Qed.

Lemma each_ok f (st : store) d i j l : zlen (st i) = zlen (st d) -> zlen (st j) = zlen (st d) -> zlen (st l) = zlen (st d) ->
  each f st d i j l = Ok (zip3 f (st i) (st j) (st l)).
Proof.
  intros Hi Hj Hl. unfold each. rewrite Hi, Hj, Hl, Z.eqb_refl. cbn [assert_ bind]. f_equal.
  destruct (zip3_spec f (st i) (st j) (st l)) as (L & E); [unfold zlen in *; lia..|].
  apply (list_ext s0); [rewrite zlen_map_zrange by (unfold zlen; lia); unfold zlen in *; lia|].
  intros t Ht. rewrite zlen_map_zrange in Ht by (unfold zlen; lia). rewrite zn_map_zrange by lia. unfold zn. rewrite E; [reflexivity|unfold zlen in *; lia].
Qed.

Lemma pieces_len sizes (xs ys : list (list T)) X Y : pieces sizes xs X -> pieces sizes ys Y -> zlen X = zlen Y.
Proof.
  intros (Hx & <-) (Hy & <-). revert ys sizes Hx Hy. induction xs as [|x xs IH]; intros ys sizes Hx Hy; subst sizes; destruct ys as [|y ys]; try discriminate Hy; [reflexivity|].
  cbn in Hy. injection Hy as H1 H2. cbn. rewrite !zlen_app. rewrite H1. f_equal. now apply (IH ys (map zlen xs)).
Qed.

Lemma cut_len sizes (sts : list store) (st : store) : cut sizes sts st -> forall s u v, In s sts -> zlen (s u) = zlen (s v).
Proof.
  intros C s u v Hs. pose proof (proj1 (C u)) as Hu. pose proof (proj1 (C v)) as Hv. rewrite <- Hv in Hu. rewrite !map_map in Hu.
  clear - Hu Hs. revert s Hs. induction sts as [|a sts IH]; intros s []; cbn in Hu; injection Hu as H1 H2; [subst; exact H1|now apply IH].
Qed.

Lemma cut_whole sizes (sts : list store) (st : store) u v : cut sizes sts st -> zlen (st u) = zlen (st v).
Proof. intros C. eapply pieces_len; apply C. Qed.

(** Every rank puts its piece of a vector into register d. *)
Definition puts (d : Z) (sts : list store) (zs : list (list T)) : list store := map (fun p => put (fst p) d (snd p)) (combine sts zs).

Lemma cut_puts sizes (sts : list store) (st : store) d zs Z : cut sizes sts st -> pieces sizes zs Z -> cut sizes (puts d sts zs) (put st d Z) /\ length zs = length sts.
Proof.
  intros C Pz.
  assert (L : length zs = length sts).
  { pose proof (proj1 (C d)) as H. rewrite <- (proj1 Pz) in H. apply (f_equal (@length _)) in H. rewrite !map_length in H. now symmetry. }
  split; [|exact L]. intros v. unfold puts. rewrite map_map. unfold put. destruct (Z.eqb_spec v d) as [->|N].
  - replace (map _ (combine sts zs)) with zs; [exact Pz|]. clear - L. revert zs L. induction sts as [|s sts IH]; intros [|z zs] L; cbn in *; try lia; [reflexivity|].
    f_equal. apply IH. lia.
  - replace (map _ (combine sts zs)) with (map (fun s => s v) sts); [apply C|]. clear - L. revert zs L. induction sts as [|s sts IH]; intros [|z zs] L; cbn in *; try lia; [reflexivity|].
    f_equal. apply IH. lia.
Qed.

Lemma pieces_zip3 f sizes (xs ys zs : list (list T)) X Y Z : pieces sizes xs X -> pieces sizes ys Y -> pieces sizes zs Z ->
  pieces sizes (map (fun p => zip3 f (fst (fst p)) (snd (fst p)) (snd p)) (combine (combine xs ys) zs)) (zip3 f X Y Z).
Proof.
  intros (Hx & <-) (Hy & <-) (Hz & <-). revert ys zs sizes Hx Hy Hz.
  induction xs as [|x xs IH]; intros ys zs sizes Hx Hy Hz; subst sizes; destruct ys as [|y ys]; try discriminate Hy; destruct zs as [|z zs]; try discriminate Hz; [split; reflexivity|].
  cbn in Hy, Hz. injection Hy as H1 H2. injection Hz as H3 H4. destruct (IH ys zs (map zlen xs) eq_refl H2 H4) as (E1 & E2).
  destruct (zip3_spec f x y z) as (L & _); [unfold zlen in *; lia..|].
  split; cbn [map combine fst snd concat].
  - rewrite E1. f_equal. unfold zlen in *. lia.
  - rewrite zip3_app by (unfold zlen in *; lia). rewrite E2. reflexivity.
Qed.

Section Ring.
Context (R : ring_laws S).

Lemma dot_app (x y x' y' : list T) : length y = length x -> dot (x ++ x') (y ++ y') = sadd (dot x y) (dot x' y').
Proof.
  intros H. unfold dot. rewrite <- (sum_list_app R), <- map_app. do 2 f_equal. revert y H. induction x as [|a x IH]; intros [|b y] H; cbn in *; try lia; [reflexivity|]. rewrite IH by lia. reflexivity.
Qed.

Lemma l_inner_dot (x y : list T) : zlen x = zlen y -> l_inner x y = Ok (dot x y).
Proof.
  intros H. rewrite l_inner_ok by exact H. f_equal.
  rewrite (fold_left_range R). unfold dot, sum_range. f_equal. apply (list_ext s0).
  - rewrite zlen_map_zrange by (unfold zlen; lia). unfold zlen. rewrite map_length, combine_length. unfold zlen in H. lia.
  - intros t Ht. rewrite zlen_map_zrange in Ht by (unfold zlen; lia). rewrite zn_map_zrange by lia.
    rewrite (zn_map (s0, s0) s0) by (unfold zlen in *; rewrite combine_length; lia). unfold zn. rewrite combine_nth by (unfold zlen in *; lia). reflexivity.
Qed.

Lemma pieces_dot sizes (sts : list store) (st : store) i j : cut sizes sts st -> sum_list (map (fun s => dot (s i) (s j)) sts) = dot (st i) (st j).
Proof.
  intros C. pose proof (proj2 (C i)) as Ei. pose proof (proj2 (C j)) as Ej. rewrite <- Ei, <- Ej.
  assert (L : forall s, In s sts -> zlen (s i) = zlen (s j)) by (intros; now apply (cut_len sizes sts st C)).
  clear - L R. induction sts as [|s sts IH]; [reflexivity|]. cbn [map concat]. rewrite sum_cons, IH by (intros; apply L; now right).
  rewrite dot_app; [reflexivity|]. specialize (L s (or_introl eq_refl)). unfold zlen in L. lia.
Qed.

Lemma expect_map {A X Y} (f : blocked S A -> option X) (g : Y -> blocked S A) (h : Y -> X) l :
  (forall y, In y l -> f (g y) = Some (h y)) -> (forall e, f (BRaise e) = None) -> expect f (map g l) = Done (map h l).
Proof.
  intros H N. induction l as [|y l IH]; [reflexivity|]. cbn [map expect]. rewrite (H y (or_introl eq_refl)), IH by (intros; apply H; now right).
  specialize (H y (or_introl eq_refl)). destruct (g y); try reflexivity. rewrite N in H. discriminate H.
Qed.

Lemma map_get_shift {X Y} (F : Z -> res X -> Y) (G : X -> Y) (l : list X) : (forall r x, F r (Ok x) = G x) ->
  map (fun r => F r (get l (r - 1))) (zrange 1 (1 + zlen l)) = map G l.
Proof.
  intros H. destruct l as [|x0 l0] eqn:El; [reflexivity|]. rewrite <- El in *. clear El. apply (list_ext (G x0)).
  - rewrite !zlen_map, zlen_zrange by (pose proof (zlen_nonneg l); lia). lia.
  - intros t Ht. rewrite zlen_map, zlen_zrange in Ht by (pose proof (zlen_nonneg l); lia).
    rewrite (zn_map 0 (G x0)) by (rewrite zlen_zrange by lia; lia). rewrite zn_zrange by lia.
    rewrite (get_ok x0) by lia. rewrite H. rewrite (zn_map x0 (G x0)) by lia. do 2 f_equal. lia.
Qed.

Context {A : Type} (red : allreduce (S := S)) (sizes : list Z).
Context (ops : Z -> list (list T) -> list (list T) -> res (list (list T))) (whole : Z -> list T -> list T -> res (list T)).
Hypothesis SR : sums red.
Hypothesis CO : collective sizes ops whole.

Definition agree (o : outcome (list (A * store))) (r : res (A * store)) : Prop :=
  match r with
  | Ok (a, st') => exists sts', o = Done (map (fun s => (a, s)) sts') /\ cut sizes sts' st'
  | Fail f => o = Crash f
  end.

Lemma together_run (s : script S A) : forall st st0 sts, cut sizes (st0 :: sts) st ->
  agree (together true red ops s st0 (map (advance true s) sts)) (run whole s st).
Proof.
  induction s as [a|f|i j k IH|i j k IH|d i j l f k IH|i j k IH|o i d k IH]; intros st st0 sts C; cbn [together run].
  - cbn [agree]. exists (st0 :: sts). split; [|exact C].
    rewrite (expect_map halted _ (fun s => (a, s))) by (intros; reflexivity). reflexivity.
  - reflexivity.
  - rewrite (cut_whole _ _ _ i j C), Z.eqb_refl. rewrite (cut_len _ _ _ C st0 i j) by now left. rewrite Z.eqb_refl. cbn [assert_ bind].
    replace (map (advance true (Sizes i j k)) sts) with (map (advance true k) sts); [now apply IH|].
    apply map_ext_in. intros s Hs. cbn [advance]. rewrite (cut_len _ _ _ C s i j) by now right. rewrite Z.eqb_refl. reflexivity.
  - replace (map (advance true (Swap i j k)) sts) with (map (advance true k) (map (fun s => put (put s i (s j)) j (s i)) sts)) by (rewrite map_map; reflexivity).
    apply IH. change (put (put st0 i (st0 j)) j (st0 i) :: map (fun s => put (put s i (s j)) j (s i)) sts) with (map (fun s : store => put (put s i (s j)) j (s i)) (st0 :: sts)).
    intros v. rewrite map_map. unfold put. destruct (v =? j); [apply C|]. destruct (v =? i); apply C.
  - rewrite !each_ok by (try apply (cut_whole _ _ _ _ _ C); now apply (cut_len _ _ _ C); left). cbn [bind].
    set (g := fun s : store => zip3 f (s i) (s j) (s l)).
    replace (map (advance true (Each d i j l f k)) sts) with (map (advance true k) (map (fun s => put s d (g s)) sts)).
    2:{ rewrite map_map. apply map_ext_in. intros s Hs. cbn [advance]. rewrite each_ok by (now apply (cut_len _ _ _ C); right). reflexivity. }
    apply IH.
    assert (P : pieces sizes (map g (st0 :: sts)) (zip3 f (st i) (st j) (st l))).
    { replace (map g (st0 :: sts)) with (map (fun p => zip3 f (fst (fst p)) (snd (fst p)) (snd p)) (combine (combine (map (fun s => s i) (st0 :: sts)) (map (fun s => s j) (st0 :: sts))) (map (fun s => s l) (st0 :: sts)))).
      - apply pieces_zip3; apply C.
      - generalize (st0 :: sts) as q. clear. induction q as [|s q IHq]; [reflexivity|]. cbn. rewrite IHq. reflexivity. }
    destruct (cut_puts sizes _ st d _ _ C P) as (C' & _). unfold puts in C'.
    change (zip3 f (st0 i) (st0 j) (st0 l)) with (g st0).
    replace (put st0 d (g st0) :: map (fun s => put s d (g s)) sts) with (map (fun p => put (fst p) d (snd p)) (combine (st0 :: sts) (map g (st0 :: sts)))); [exact C'|].
    clear. cbn. f_equal. induction sts as [|s sts IHq]; [reflexivity|]. cbn. rewrite IHq. reflexivity.
  - rewrite !l_inner_dot by (try apply (cut_whole _ _ _ _ _ C); apply (cut_len _ _ _ C); now left). cbn [bind].
    rewrite (expect_map at_inner _ (fun s => (dot (s i) (s j), k, s))).
    2:{ intros s Hs. cbn [advance]. rewrite l_inner_dot by (apply (cut_len _ _ _ C); now right). reflexivity. }
    2:{ reflexivity. }
    cbn [obind]. set (ds := dot (st0 i) (st0 j) :: _).
    assert (E : forall r, red r ds = dot (st i) (st j)).
    { intros r. rewrite (sums_list R) by (exact SR || discriminate). rewrite <- (pieces_dot _ _ _ i j C). subst ds. cbn [map]. rewrite map_map. reflexivity. }
    rewrite E.
    set (l := map (fun s : store => (dot (s i) (s j), k, s)) sts).
    replace (zlen ds) with (1 + zlen l) by (subst ds l; rewrite zlen_cons, !zlen_map; rewrite ?(Z.add_comm 1); reflexivity).
    rewrite (map_get_shift (fun r (x : res (T * (T -> script S A) * store)) => match x with Ok (_, k, st) => advance true (k (red r ds)) st | Fail e => BRaise e end)
       (fun x => advance true (snd (fst x) (dot (st i) (st j))) (snd x))).
    2:{ intros r ((dd, kk), ss). rewrite E. reflexivity. }
    subst l. rewrite map_map. cbn [fst snd]. now apply IH.
  - rewrite (expect_map (at_apply o) _ (fun s => (i, d, k, s))).
    2:{ intros s Hs. cbn [advance at_apply]. rewrite Z.eqb_refl. reflexivity. }
    2:{ reflexivity. }
    cbn [obind]. rewrite !map_map.
    match goal with |- context [ops o ?a ?b] => change (ops o a b) with (ops o (st0 i :: map (fun s : store => s i) sts) (st0 d :: map (fun s : store => s d) sts)) end.
    pose proof (CO o _ _ _ _ (C i) (C d)) as H. cbn [map] in H.
    destruct (whole o (st i) (st d)) as [Y|e]; cbn [bind]; [|rewrite H; reflexivity].
    destruct H as (zs & E & P). rewrite E. destruct (cut_puts sizes _ st d _ _ C P) as (C' & L).
    destruct zs as [|z zs]; [discriminate L|]. cbn in L.
    replace (map _ (combine (map (fun s => (i, d, k, s)) sts) zs)) with (map (advance true k) (puts d sts zs)); [now apply IH|].
    unfold puts. rewrite map_map. clear - L. revert zs L. induction sts as [|s sts IHq]; intros [|y zs] L; cbn in *; try lia; [reflexivity|]. f_equal. apply IHq. lia.
Qed.

Theorem spmd_run (s : script S A) st sts : sts <> [] -> cut sizes sts st -> agree (spmd true red ops s sts) (run whole s st).
Proof. intros N C. destruct sts as [|st0 sts]; [congruence|]. now apply together_run. Qed.

End Ring.
End SpmdProofs.
