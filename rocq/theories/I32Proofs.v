(** Proofs about the arithmetic on int. *)

From Coq Require Import ZArith List Bool Lia.
From Verif Require Import Base Scalar Spec Dense DenseFacts Sparse CsrFacts Rows HistoryProofs Coo CooSpec CooProofs Block BlockSpec BlockFacts I32 I32Spec LifeProofs ProductProofs Accum HypreProofs.
Import ListNotations.
Open Scope Z_scope.

Lemma i32_ok a : is_int a -> i32 a = Ok a.
Proof. unfold is_int, i32. intros (H1 & H2). apply Z.leb_le in H1, H2. now rewrite H1, H2. Qed.

Lemma i32_over a : int_max < a -> i32 a = Fail FUB.
Proof. intros H. unfold i32. destruct (Z.leb_spec a int_max); [lia|]. now rewrite andb_false_r. Qed.

Lemma int_range a : 0 <= a <= int_max -> is_int a.
Proof. unfold is_int, int_min. lia. Qed.

(** ** A counter that only grows *)

Definition grows {B} (m : Z) (mu : B -> Z) (f g : res B) : Prop :=
  0 <= m -> forall b, f = Ok b ->
  m <= mu b /\ (mu b <= int_max -> g = Ok b) /\ (m <= int_max -> int_max < mu b -> g = Fail FUB).

Lemma grows_bind {A B} m (mu1 : A -> Z) (mu2 : B -> Z) f g k h :
  grows m mu1 f g -> (forall a, f = Ok a -> grows (mu1 a) mu2 (k a) (h a)) -> grows m mu2 (bind f k) (bind g h).
Proof.
  intros H1 H2 Hm b E. destruct f as [a|] eqn:Ef; cbn [bind] in E; [|discriminate]. destruct (H1 Hm a eq_refl) as (L1 & O1 & F1).
  destruct (H2 a eq_refl ltac:(lia) b E) as (L2 & O2 & F2). split; [lia|]. split.
  - intros H. rewrite O1 by lia. cbn [bind]. auto.
  - intros H3 H4. destruct (Z.le_gt_cases (mu1 a) int_max) as [H|H]; [rewrite O1 by exact H; cbn [bind]; auto|]. now rewrite F1 by lia.
Qed.

Lemma grows_same {A B} m (mu : B -> Z) (f : res A) k h :
  (forall a, f = Ok a -> grows m mu (k a) (h a)) -> grows m mu (bind f k) (bind f h).
Proof. intros H Hm b E. destruct f as [a|]; cbn [bind] in *; [|discriminate]. now apply (H a). Qed.

Lemma grows_int {B} m (mu : B -> Z) f e h : is_int e -> grows m mu f (h e) -> grows m mu f (bind (i32 e) h).
Proof. intros H G. now rewrite (i32_ok _ H). Qed.

Lemma grows_ret {B} m (mu : B -> Z) b : m <= mu b -> m <= int_max \/ int_max < m -> (int_max < mu b -> int_max < m) -> grows m mu (Ok b) (Ok b).
Proof. intros H _ H2 Hm b' [= <-]. split; [exact H|]. split; [reflexivity|]. intros. specialize (H2 ltac:(assumption)). lia. Qed.

Lemma grows_keep {B} (mu : B -> Z) b : grows (mu b) mu (Ok b) (Ok b).
Proof. apply grows_ret; lia. Qed.

Lemma grows_fold {St X} (mu : St -> Z) (f g : St -> X -> res St) l : (forall s x, In x l -> grows (mu s) mu (f s x) (g s x)) ->
  forall s, grows (mu s) mu (foldM f l s) (foldM g l s).
Proof.
  induction l as [|x l IH]; intros H s; cbn [foldM]; [apply grows_keep|].
  apply (grows_bind _ mu); [apply H; now left|]. intros a _. apply IH. intros s' x' Hx. apply H. now right.
Qed.

Lemma grows_for {St} (mu : St -> Z) lo hi (f g : Z -> St -> res St) s : (forall i s, lo <= i < hi -> grows (mu s) mu (f i s) (g i s)) ->
  grows (mu s) mu (for_ lo hi s f) (for_ lo hi s g).
Proof. intros H. unfold for_. apply grows_fold. intros s' i Hi. apply H, In_zrange, Hi. Qed.

(** ** Two programs that agree *)

Definition agree {B} (I : B -> Prop) (f g : res B) : Prop := forall b, f = Ok b -> g = Ok b /\ I b.

Lemma agree_bind {A B} (I : A -> Prop) (J : B -> Prop) f g k h :
  agree I f g -> (forall a, I a -> agree J (k a) (h a)) -> agree J (bind f k) (bind g h).
Proof. intros H1 H2 b E. destruct f as [a|]; cbn [bind] in E; [|discriminate]. destruct (H1 a eq_refl) as (-> & Ha). cbn [bind]. now apply H2. Qed.

Lemma agree_same {A B} (J : B -> Prop) (f : res A) k h : (forall a, f = Ok a -> agree J (k a) (h a)) -> agree J (bind f k) (bind f h).
Proof. intros H b E. destruct f as [a|]; cbn [bind] in *; [|discriminate]. now apply (H a). Qed.

Lemma agree_int {B} (J : B -> Prop) f e h : is_int e -> agree J f (h e) -> agree J f (bind (i32 e) h).
Proof. intros H G. now rewrite (i32_ok _ H). Qed.

Lemma agree_ret {B} (J : B -> Prop) b : J b -> agree J (Ok b) (Ok b).
Proof. intros H b' [= <-]. now split. Qed.

Lemma agree_weaken {B} (I J : B -> Prop) f g : agree I f g -> (forall b, I b -> J b) -> agree J f g.
Proof. intros H HJ b E. destruct (H b E). auto. Qed.

Lemma agree_refl {B} (f : res B) : agree (fun _ => True) f f.
Proof. intros b E. now split. Qed.

Lemma agree_fold {St X} (I : St -> Prop) (f g : St -> X -> res St) l : (forall s x, In x l -> I s -> agree I (f s x) (g s x)) ->
  forall s, I s -> agree I (foldM f l s) (foldM g l s).
Proof.
  induction l as [|x l IH]; intros H s Hs; cbn [foldM]; [now apply agree_ret|].
  apply (agree_bind I); [apply H; [now left|exact Hs]|]. intros a Ha. apply IH; [|exact Ha]. intros s' x' Hx. apply H. now right.
Qed.

Lemma agree_for {St} (I : Z -> St -> Prop) lo hi (f g : Z -> St -> res St) s : lo <= hi -> I lo s ->
  (forall i s, lo <= i < hi -> I i s -> agree (I (i + 1)) (f i s) (g i s)) -> agree (I hi) (for_ lo hi s f) (for_ lo hi s g).
Proof.
  intros Hle H0 Hs. unfold for_. assert (Hn : exists n, hi - lo = Z.of_nat n) by (exists (Z.to_nat (hi - lo)); lia).
  destruct Hn as (n & Hn). revert lo s Hle H0 Hs Hn. induction n as [|n IH]; intros lo s Hle H0 Hs Hn.
  - rewrite zrange_empty by lia. cbn. apply agree_ret. now replace hi with lo by lia.
  - rewrite zrange_cons by lia. cbn [foldM]. apply (agree_bind (I (lo + 1))); [apply Hs; [lia|exact H0]|].
    intros a Ha. apply IH; [lia|exact Ha| |lia]. intros i s' Hi. apply Hs. lia.
Qed.

Lemma agree_for_inv {St} (I : St -> Prop) lo hi (f g : Z -> St -> res St) s : I s ->
  (forall i s, lo <= i < hi -> I s -> agree I (f i s) (g i s)) -> agree I (for_ lo hi s f) (for_ lo hi s g).
Proof. intros H0 Hs. unfold for_. apply agree_fold; [|exact H0]. intros s' i Hi. apply Hs, In_zrange, Hi. Qed.

(** ** Sums of counters *)

Fixpoint zsum (l : list Z) : Z := match l with [] => 0 | a :: l => a + zsum l end.
Definition nonneg (l : list Z) : Prop := forall a, In a l -> 0 <= a.

Lemma zsum_nonneg l : nonneg l -> 0 <= zsum l.
Proof. induction l as [|a l IH]; intros H; cbn; [lia|]. specialize (IH (fun x Hx => H x (or_intror Hx))). specialize (H a (or_introl eq_refl)). lia. Qed.

Lemma zsum_ge l a : nonneg l -> In a l -> a <= zsum l.
Proof.
  induction l as [|b l IH]; intros H; [now intros []|]. intros [->|Hin]; cbn.
  - pose proof (zsum_nonneg l (fun x Hx => H x (or_intror Hx))). lia.
  - specialize (IH (fun x Hx => H x (or_intror Hx)) Hin). specialize (H b (or_introl eq_refl)). lia.
Qed.

Lemma zsum_upd l k a c : nth_error l k = Some a -> zsum (upd l k c) = zsum l - a + c.
Proof. revert k. induction l as [|b l IH]; intros [|k] H; cbn in *; try discriminate; [injection H as ->; lia|]. rewrite (IH _ H). lia. Qed.

Lemma nonneg_upd l k c : nonneg l -> 0 <= c -> nonneg (upd l k c).
Proof. intros H Hc x Hx. destruct (In_upd _ _ _ _ Hx) as [-> |H']; auto. Qed.

Lemma zsum_repeat n : zsum (repeat 0 n) = 0.
Proof. induction n; cbn; lia. Qed.

Lemma nonneg_repeat n : nonneg (repeat 0 n).
Proof. intros a H. apply repeat_spec in H. lia. Qed.

Lemma skipn_upd {A} (l : list A) i k a : (i <= k)%nat -> skipn i (upd l k a) = upd (skipn i l) (k - i) a.
Proof. revert i k. induction l as [|x l IH]; intros [|i] [|k] H; cbn; try reflexivity; try lia; try (now destruct (k - i)%nat); try (apply IH; lia). Qed.

Lemma skipn_get {A} (l : list A) i a : nth_error l i = Some a -> skipn i l = a :: skipn (Datatypes.S i) l.
Proof. revert i. induction l as [|x l IH]; intros [|i] H; cbn in *; try discriminate; [now injection H as ->|]. now apply IH. Qed.

Lemma nonneg_skipn l i : nonneg l -> nonneg (skipn i l).
Proof. intros H a Ha. apply H. rewrite <- (firstn_skipn i l). apply in_app_iff. now right. Qed.

Lemma set_inv {A} (l l' : list A) i a : set l i a = Ok l' -> 0 <= i < zlen l /\ l' = upd l (Z.to_nat i) a.
Proof. unfold set. destruct (Z.leb_spec 0 i); destruct (Z.ltb_spec i (zlen l)); cbn; try discriminate. intros [= <-]. now split. Qed.

Lemma vec_inv {A} n (a : A) l : vec n a = Ok l -> 0 <= n /\ l = repeat a (Z.to_nat n) /\ zlen l = n.
Proof. unfold vec. destruct (Z.ltb_spec n 0); [discriminate|]. intros [= <-]. split; [lia|]. split; [reflexivity|]. unfold zlen. rewrite repeat_length. lia. Qed.

(** Counting into an array *)
Lemma count_ok (l : list Z) : (forall c, In c l -> is_int (c + 1)) -> forall ip, nonneg ip -> zsum ip + zlen l <= int_max ->
  agree (fun ip' => nonneg ip' /\ zsum ip' = zsum ip + zlen l /\ zlen ip' = zlen ip)
    (foldM (fun ip col => n <- get ip (col + 1) ;; set ip (col + 1) (n + 1)) l ip)
    (foldM (fun ip col => c1 <- i32 (col + 1) ;; n <- get ip c1 ;; n1 <- i32 (n + 1) ;; set ip c1 n1) l ip).
Proof.
  induction l as [|c l IH]; intros Hc ip Hp Hs; cbn [foldM].
  - apply agree_ret. split; [exact Hp|]. rewrite zlen_nil. split; [lia|reflexivity].
  - rewrite zlen_cons in *. pose proof (zlen_nonneg l).
    apply (agree_bind (fun ip' => nonneg ip' /\ zsum ip' = zsum ip + 1 /\ zlen ip' = zlen ip)).
    + apply agree_int; [apply Hc; now left|]. apply agree_same. intros n Hn. destruct (get_range _ _ _ Hn) as (Hr & En).
      assert (Hn0 : 0 <= n) by (apply Hp; now apply nth_error_In in En). pose proof (zsum_ge ip n Hp ltac:(now apply nth_error_In in En)).
      apply agree_int; [apply int_range; lia|]. intros ip' E. split; [exact E|]. apply set_inv in E. destruct E as (_ & ->).
      split; [apply nonneg_upd; [exact Hp|lia]|]. rewrite (zsum_upd _ _ n) by exact En. rewrite zlen_upd'. split; [lia|reflexivity].
    + intros ip' (P & Q & R). intros b E. destruct (IH ltac:(intros; apply Hc; now right) ip' P ltac:(lia) b E) as (E' & P' & Q' & R').
      split; [exact E'|]. split; [exact P'|]. split; lia.
Qed.

(** Adding up an array in place *)
Lemma prefix_ok n N ip : 0 <= n < int_max -> N <= int_max -> nonneg ip -> zlen ip = n + 1 -> zsum ip <= N ->
  agree (fun ip' => nonneg ip' /\ zlen ip' = n + 1)
    (for_ 0 n ip (fun i ip => a <- get ip (i + 1) ;; b <- get ip i ;; set ip (i + 1) (a + b)))
    (for_ 0 n ip (fun i ip => i1 <- i32 (i + 1) ;; a <- get ip i1 ;; b <- get ip i ;; c <- i32 (a + b) ;; set ip i1 c)).
Proof.
  intros Hn HN Hp Hl Hs.
  assert (G : agree (fun ip' => nonneg ip' /\ zlen ip' = n + 1 /\ zsum (skipn (Z.to_nat n) ip') <= N)
    (for_ 0 n ip (fun i ip => a <- get ip (i + 1) ;; b <- get ip i ;; set ip (i + 1) (a + b)))
    (for_ 0 n ip (fun i ip => i1 <- i32 (i + 1) ;; a <- get ip i1 ;; b <- get ip i ;; c <- i32 (a + b) ;; set ip i1 c))).
  { apply (agree_for (fun i ip => nonneg ip /\ zlen ip = n + 1 /\ zsum (skipn (Z.to_nat i) ip) <= N)); [lia|now split|].
    intros i q Hi (P & L & Q). apply agree_int; [apply int_range; lia|]. apply agree_same. intros a Ha. apply agree_same. intros b Hb.
    destruct (get_range _ _ _ Ha) as (_ & Ea). destruct (get_range _ _ _ Hb) as (_ & Eb).
    assert (Ha0 : 0 <= a) by (apply P; now apply nth_error_In in Ea). assert (Hb0 : 0 <= b) by (apply P; now apply nth_error_In in Eb).
    replace (Z.to_nat (i + 1)) with (Datatypes.S (Z.to_nat i)) in Ea by lia.
    rewrite (skipn_get _ _ _ Eb) in Q. cbn [zsum] in Q.
    assert (Hsk : zsum (skipn (Datatypes.S (Z.to_nat i)) q) = a + zsum (skipn (Datatypes.S (Datatypes.S (Z.to_nat i))) q)) by now rewrite (skipn_get _ _ _ Ea).
    pose proof (zsum_nonneg _ (nonneg_skipn q (Datatypes.S (Datatypes.S (Z.to_nat i))) P)).
    apply agree_int; [apply int_range; lia|]. intros q' E. split; [exact E|]. apply set_inv in E. destruct E as (_ & ->).
    split; [apply nonneg_upd; [exact P|lia]|]. rewrite zlen_upd'. split; [exact L|].
    rewrite skipn_upd by lia. rewrite Nat.sub_diag. replace (Z.to_nat (i + 1)) with (Datatypes.S (Z.to_nat i)) by lia.
    rewrite (skipn_get _ _ _ Ea). cbn [upd zsum]. lia. }
  intros b E. destruct (G b E) as (E' & P & L & _). now repeat split.
Qed.

Section I32Proofs.
Context {S : scalar}.
Notation T := (car S).
Notation csr := (csr S).
Notation dense := (dense S).

Lemma idx_range (A : csr) j c : csr_valid A -> get (c_idx A) j = Ok c -> 0 <= c < c_cols A.
Proof. intros V E. apply (get_Ok_inv 0) in E. destruct E as (Hj & ->). now apply (cv_idx V). Qed.

Ltac by_same := apply agree_same; intros.

Lemma for_entries_agree {St} (I : St -> Prop) rows ip (s : St) f g : rows <= int_max -> I s ->
  (forall i j s, 0 <= i < rows -> I s -> agree I (f i j s) (g i j s)) -> agree I (for_entries rows ip s f) (for_entries_i rows ip s g).
Proof.
  intros Hr Hs H. unfold for_entries, for_entries_i. apply agree_for_inv; [exact Hs|]. intros i s' Hi Hs'.
  apply agree_same. intros lo _. apply agree_int; [apply int_range; lia|]. apply agree_same. intros hi _.
  apply agree_for_inv; [exact Hs'|]. intros j s'' _ Hs''. now apply H.
Qed.

Lemma transpose_agree (A : csr) : fits A -> agree (fun _ => True) (sp_transpose A) (sp_transpose_i A).
Proof.
  intros (V & Hr & Hc & Hn). pose proof (cv_rows V). pose proof (cv_cols V). unfold sp_transpose, sp_transpose_i.
  apply agree_int; [apply int_range; lia|]. apply agree_same. intros ip Eip. destruct (vec_inv _ _ _ Eip) as (_ & Hip & Lip).
  apply agree_int; [apply int_range; unfold sp_nnz in *; pose proof (zlen_nonneg (c_val A)); lia|].
  apply agree_same. intros ix Eix. destruct (vec_inv _ _ _ Eix) as (_ & _ & Lix). apply agree_same. intros d Ed.
  apply (agree_bind (fun ip' => nonneg ip' /\ zsum ip' = zsum ip + zlen (c_idx A) /\ zlen ip' = zlen ip)).
  { apply count_ok; [|subst ip; apply nonneg_repeat|subst ip; rewrite zsum_repeat, (cv_len V); exact Hn].
    intros c Hin. destruct (In_zn 0 _ _ Hin) as (k & Hk & <-). assert (0 <= zn 0 (c_idx A) k < c_cols A) by (apply (cv_idx V); exact Hk). apply int_range. lia. }
  intros ip1 (P1 & Q1 & L1). apply (agree_bind (fun ip' => nonneg ip' /\ zlen ip' = c_cols A + 1)).
  { apply (prefix_ok _ (sp_nnz A)); [lia|exact Hn|exact P1|lia|]. rewrite Q1. subst ip. rewrite zsum_repeat, (cv_len V). unfold sp_nnz. lia. }
  intros ip2 _. apply (agree_bind (fun st : list Z * list Z * list T => let '(_, ix, _) := st in zlen ix = sp_nnz A)).
  { apply for_entries_agree; [lia|exact Lix|]. intros i j [[q x] y] Hi Hx. apply agree_same. intros row _. apply agree_same. intros v _.
    apply agree_same. intros p _. apply agree_same. intros x' Ex. apply set_inv in Ex. destruct Ex as (Hp & ->). apply agree_same. intros y' _.
    apply agree_int; [apply int_range; lia|]. apply agree_same. intros q' _. apply agree_ret. now rewrite zlen_upd'. }
  intros [[q x] y] _. apply agree_refl.
Qed.

Lemma transpose_fits (A : csr) : fits A -> forall B, sp_transpose A = Ok B -> sp_transpose_i A = Ok B.
Proof. intros H B E. now apply (transpose_agree A H). Qed.

Lemma sp_make_nnz ip ix (d : list T) r c A : sp_make ip ix d r c = Ok A -> sp_nnz A = zlen d.
Proof. intros H. apply sp_make_inv in H. now destruct H as (-> & _). Qed.

(** Count first, then fill: the outcome is decided by the count. *)
Definition decides {B} (N : B -> Z) (f g : res B) : Prop :=
  forall C, f = Ok C -> (N C <= int_max -> g = Ok C) /\ (int_max < N C -> g = Fail FUB).

Lemma decides_bind {A B} (mu : A -> Z) (N : B -> Z) f g k h : grows 0 mu f g ->
  (forall a, f = Ok a -> agree (fun C => N C = mu a) (k a) (k a)) ->
  (forall a, f = Ok a -> 0 <= mu a <= int_max -> agree (fun _ => True) (k a) (h a)) -> decides N (bind f k) (bind g h).
Proof.
  intros H1 H2 H3 C E. destruct f as [a|]; cbn [bind] in E; [|discriminate]. destruct (H1 ltac:(lia) a eq_refl) as (L & O & F).
  destruct (H2 a eq_refl C E) as (_ & EN). split; intros H.
  - rewrite O by lia. cbn [bind]. now apply (H3 a eq_refl ltac:(lia)).
  - rewrite F by (unfold int_max in *; lia). reflexivity.
Qed.

Lemma decides_same {A B} (N : B -> Z) (f : res A) k h : (forall a, f = Ok a -> decides N (k a) (h a)) -> decides N (bind f k) (bind f h).
Proof. intros H b E. destruct f as [a|]; cbn [bind] in *; [|discriminate]. now apply (H a). Qed.

Lemma decides_int {B} (N : B -> Z) f e h : is_int e -> decides N f (h e) -> decides N f (bind (i32 e) h).
Proof. intros H G. now rewrite (i32_ok _ H). Qed.

(** ** Products *)

Lemma product_decides (A B : csr) : fits A -> fits B -> decides (@sp_nnz S) (sp_spmult A B) (sp_spmult_i A B).
Proof.
  intros (VA & RA & CA & NA) (VB & RB & CB & NB). pose proof (cv_rows VA). unfold sp_spmult, sp_spmult_i.
  apply decides_same. intros mk0 _. unfold sp_spmult_marker, sp_spmult_marker_i. apply decides_same. intros _ _. cbv zeta.
  apply decides_int; [apply int_range; lia|]. apply decides_same. intros ip0 _. apply decides_same. intros ip _.
  apply (decides_bind (fun st : list Z * list Z * Z => snd st)).
  - refine (grows_for (fun st : list Z * list Z * Z => snd st) 0 (c_rows A) _ _ (_, ip, 0) _). intros i [[mk p] n] Hi. cbn [snd].
    apply grows_same. intros lo _. apply grows_int; [apply int_range; lia|]. apply grows_same. intros hi _.
    apply (grows_bind n (fun st : list Z * Z => snd st)).
    + apply (grows_for (fun st : list Z * Z => snd st) lo hi _ _ (mk, n)). intros j st Hj. apply grows_same. intros c Ec. pose proof (idx_range A j c VA Ec).
      apply grows_same. intros lo2 _. apply grows_int; [apply int_range; lia|]. apply grows_same. intros hi2 _.
      apply grows_for. intros k [mk' n'] _. cbn [snd]. apply grows_same. intros cb _. apply grows_same. intros m _.
      destruct (m =? i); [apply (grows_keep (fun st : list Z * Z => snd st) (mk', n'))|]. apply grows_same. intros mk'' _.
      intros Hn0 b [= <-]. cbn [snd]. split; [lia|]. split; [intros H'; now rewrite i32_ok by (apply int_range; lia)|].
      intros _ Hov. now rewrite i32_over.
    + intros [mk' n'] _. cbn [snd]. apply grows_int; [apply int_range; lia|]. apply grows_same. intros p' _. apply (grows_keep (fun st : list Z * list Z * Z => snd st) (mk', p', n')).
  - intros [[mk p] n] _. cbn [snd]. apply agree_same. intros ix Eix. apply agree_same. intros d Ed. destruct (vec_inv _ _ _ Ed) as (_ & _ & Ld).
    apply (agree_bind (fun st : list Z * list Z * list T * Z => let '(_, _, d, _) := st in zlen d = n)).
    + apply agree_for_inv; [exact Ld|]. intros i st Hi Hst. do 2 by_same. apply agree_for_inv; [exact Hst|]. intros j s' Hj Hs'. do 3 by_same.
      apply agree_for_inv; [exact Hs'|]. intros k [[[mk' x] y] t] _ Hy. do 4 by_same. destruct (_ <? _).
      * do 2 by_same. apply agree_same. intros y' Ey. apply set_inv in Ey. destruct Ey as (_ & ->). apply agree_ret. now rewrite zlen_upd'.
      * by_same. apply agree_same. intros y' Ey. apply set_inv in Ey. destruct Ey as (_ & ->). apply agree_ret. now rewrite zlen_upd'.
    + intros [[[mk' x] y] t] Hy C E. split; [exact E|]. now rewrite (sp_make_nnz _ _ _ _ _ _ E).
  - intros [[mk p] n] _ Hn. cbn [snd] in Hn. apply agree_same. intros ix Eix. destruct (vec_inv _ _ _ Eix) as (_ & _ & Lix). apply agree_same. intros d Ed.
    apply (agree_bind (fun st : list Z * list Z * list T * Z => let '(_, ix, _, _) := st in zlen ix = n)).
    + apply agree_for_inv; [exact Lix|]. intros i st Hi Hst. cbv zeta. by_same. apply agree_int; [apply int_range; lia|]. by_same.
      apply agree_for_inv; [exact Hst|]. intros j s' Hj Hs'. apply agree_same. intros c Ec. pose proof (idx_range A j c VA Ec). by_same.
      apply agree_int; [apply int_range; lia|]. by_same. apply agree_for_inv; [exact Hs'|]. intros k [[[mk' x] y] t] _ Hx.
      do 4 by_same. destruct (_ <? _).
      * by_same. apply agree_same. intros x' Ex. apply set_inv in Ex. destruct Ex as (Ht & ->). by_same. apply agree_int; [apply int_range; lia|].
        apply agree_ret. now rewrite zlen_upd'.
      * do 2 by_same. now apply agree_ret.
    + intros [[[mk' x] y] t] _. apply agree_refl.
Qed.

(** ** GetSubMatrix *)

Lemma sub_decides (A : csr) rows cols marker : fits A -> (forall r, In r rows -> 0 <= r < c_rows A) -> zlen rows <= int_max -> zlen cols <= int_max ->
  decides (fun r : csr * list Z => sp_nnz (fst r)) (sp_submatrix A rows cols marker) (sp_submatrix_i A rows cols marker).
Proof.
  intros (V & HR & HC & HN) Hrows Hr Hc. pose proof (zlen_nonneg rows). pose proof (zlen_nonneg cols).
  unfold sp_submatrix, sp_submatrix_i. apply decides_same. intros _ _. apply decides_same. intros ip0 _. apply decides_same. intros ip _.
  apply decides_int; [now apply int_range|]. apply decides_int; [now apply int_range|]. apply decides_same. intros mk _.
  apply (decides_bind (fun st : list Z * Z => snd st)).
  - refine (grows_for (fun st : list Z * Z => snd st) 0 (zlen rows) _ _ (ip, 0) _). intros i [p n] Hi. cbn [snd].
    apply grows_same. intros row Erow. apply get_In in Erow. specialize (Hrows _ Erow). apply grows_same. intros _ _. apply grows_same. intros lo _.
    apply grows_int; [apply int_range; lia|]. apply grows_same. intros hi _. apply (grows_bind n (fun n => n)).
    + apply (grows_for (fun n => n)). intros j n' _. apply grows_same. intros c _. apply grows_same. intros m _.
      destruct (m =? -1); [apply (grows_keep (fun n => n))|]. intros Hn0 b [= <-]. split; [lia|]. split; [intros H'; now rewrite i32_ok by (apply int_range; lia)|].
      intros _ Hov. now rewrite i32_over.
    + intros n' _. apply grows_int; [apply int_range; lia|]. apply grows_same. intros p' _. apply (grows_keep (fun st : list Z * Z => snd st) (p', n')).
  - intros [p n] _. cbn [snd]. by_same. apply agree_same. intros d Ed. destruct (vec_inv _ _ _ Ed) as (_ & _ & Ld).
    apply (agree_bind (fun st : list Z * list T * Z => let '(_, d, _) := st in zlen d = n)).
    + apply agree_fold; [|exact Ld]. intros st row _ Hst. do 2 by_same. apply agree_for_inv; [exact Hst|]. intros j [[x y] t] _ Hy. do 2 by_same.
      destruct (_ =? _); [now apply agree_ret|]. do 2 by_same. apply agree_same. intros y' Ey. apply set_inv in Ey. destruct Ey as (_ & ->). apply agree_ret. now rewrite zlen_upd'.
    + intros [[x y] t] Hy. by_same. apply agree_same. intros B EB. apply agree_ret. cbn [fst]. now rewrite (sp_make_nnz _ _ _ _ _ _ EB).
  - intros [p n] _ Hn. cbn [snd] in Hn. apply agree_same. intros ix Eix. destruct (vec_inv _ _ _ Eix) as (_ & _ & Lix). by_same.
    apply (agree_bind (fun st : list Z * list T * Z => let '(ix, _, _) := st in zlen ix = n)).
    + apply agree_fold; [|exact Lix]. intros st row Hin Hst. specialize (Hrows _ Hin). by_same. apply agree_int; [apply int_range; lia|]. by_same.
      apply agree_for_inv; [exact Hst|]. intros j [[x y] t] _ Hx. do 2 by_same. destruct (_ =? _); [now apply agree_ret|].
      apply agree_same. intros x' Ex. apply set_inv in Ex. destruct Ex as (Ht & ->). do 2 by_same. apply agree_int; [apply int_range; lia|]. apply agree_ret. now rewrite zlen_upd'.
    + intros [[x y] t] _. apply agree_refl.
Qed.

(** ** Combine *)

Lemma combine_decides (M : bmat S) : bm_ok M -> bm_rows M < int_max -> bm_cols M < int_max -> zlen (bm_ro M) <= int_max ->
  decides (@sp_nnz S) (bm_combine M) (bm_combine_i M).
Proof.
  intros K Hr Hc Hl. assert (Hrows : 0 <= bm_rows M) by (rewrite (bk_rows _ K); apply total_nonneg, (bk_ro _ K)).
  unfold bm_combine, bm_combine_i, bm_nnz_i. apply (decides_bind (fun n : Z => n)).
  - apply (grows_fold (fun n => n)). intros n row _. apply (grows_fold (fun n => n)). intros n' B _ Hn b [= <-].
    unfold sp_nnz. pose proof (zlen_nonneg (c_val B)). split; [lia|]. split; [intros H'; now rewrite i32_ok by (apply int_range; lia)|]. intros _ Hov. now rewrite i32_over.
  - intros n _. do 2 by_same. apply agree_same. intros d Ed. destruct (vec_inv _ _ _ Ed) as (_ & _ & Ld). by_same.
    apply (agree_bind (fun st : list Z * list Z * list T * Z => let '(_, _, d, _) := st in zlen d = n)).
    + unfold bm_for. apply agree_for_inv; [exact Ld|]. intros i s Hi Hs. do 2 by_same.
      apply (agree_bind (fun st : Z * (list Z * list Z * list T * Z) => let '(_, (_, _, d, _)) := st in zlen d = n)).
      * apply agree_for_inv; [now destruct s as [[[? ?] ?] ?]|]. intros row [lr s'] _ Hs'. cbn [bind].
        apply (agree_bind (fun st : list Z * list Z * list T * Z => let '(_, _, d, _) := st in zlen d = n)).
        -- apply agree_for_inv; [now destruct s' as [[[? ?] ?] ?]|]. intros j s2 _ Hs2. by_same. destruct (_ || _); [now apply agree_ret|]. do 3 by_same.
           apply agree_for_inv; [exact Hs2|]. intros jj [[[p x] y] t] _ Hy. do 3 by_same. apply agree_same. intros y' Ey. apply set_inv in Ey. destruct Ey as (_ & ->). apply agree_ret. now rewrite zlen_upd'.
        -- intros [[[p x] y] t] Hy. apply (agree_bind (fun st : list Z * list Z * list T * Z => let '(_, _, d, _) := st in zlen d = n)).
           ++ by_same. now apply agree_ret.
           ++ intros [[[p' x'] y'] t'] Hy'. now apply agree_ret.
      * intros [lr [[[p x] y] t]] Hy. now apply agree_ret.
    + intros [[[p x] y] t] Hy C E. split; [exact E|]. now rewrite (sp_make_nnz _ _ _ _ _ _ E).
  - intros n _ Hn. apply agree_int; [apply int_range; lia|]. by_same. apply agree_same. intros ix Eix. destruct (vec_inv _ _ _ Eix) as (_ & _ & Lix). do 2 by_same.
    apply (agree_bind (fun st : list Z * list Z * list T * Z => let '(_, ix, _, _) := st in zlen ix = n)).
    + unfold bm_for. apply agree_for_inv; [exact Lix|]. intros i s Hi Hs. apply agree_same. intros lo Elo. apply agree_int; [apply int_range; lia|].
      apply agree_same. intros hi Ehi. apply (get_Ok_inv 0) in Elo, Ehi. destruct Elo as (_ & Elo). destruct Ehi as (_ & Ehi). fold (ofs (bm_ro M) i) in Elo. fold (ofs (bm_ro M) (i + 1)) in Ehi.
      assert (Hlohi : 0 <= lo <= hi /\ hi <= bm_rows M).
      { rewrite (bk_rows _ K), Elo, Ehi. pose proof (ofs_nonneg (bm_ro M) i (bk_ro _ K)). pose proof (of_mono _ (bk_ro _ K) i). pose proof (ofs_nonneg (bm_ro M) (i + 1) (bk_ro _ K)). unfold nblocks in *. lia. }
      apply (agree_bind (fun st : Z * (list Z * list Z * list T * Z) => let '(_, (_, ix, _, _)) := st in zlen ix = n)).
      * apply (agree_weaken (fun st : Z * (list Z * list Z * list T * Z) => let '(lr, (_, ix, _, _)) := st in lr = hi - lo /\ zlen ix = n)); [|intros b Hb; destruct b as [? [[[? ?] ?] ?]]; exact (proj2 Hb)].
        refine (agree_for (fun row st => let '(lr, (_, ix, _, _)) := st in lr = row - lo /\ zlen ix = n) _ _ _ _ _ _ _ _); [lia|destruct s as [[[? ?] ?] ?]; split; [lia|exact Hs]|].
        intros row [lr s'] Hrow Hs'. cbn [bind].
        assert (Hlr : lr = row - lo) by (destruct s' as [[[? ?] ?] ?]; apply Hs').
        apply (agree_bind (fun st : list Z * list Z * list T * Z => let '(_, ix, _, _) := st in zlen ix = n)).
        -- apply agree_for_inv; [destruct s' as [[[? ?] ?] ?]; apply Hs'|]. intros j s2 Hj Hs2. apply agree_same. intros B EB. destruct (_ || _) eqn:Ez; [now apply agree_ret|].
           apply agree_same. intros offset Eo. apply (get_Ok_inv 0) in Eo. destruct Eo as (_ & Eo).
           apply agree_int; [apply int_range; lia|]. do 2 by_same.
           apply agree_for_inv; [exact Hs2|]. intros jj [[[p x] y] t] _ Hx. apply agree_same. intros c Ec. by_same.
           assert (EBb : B = bm_block M i j).
           { unfold bm_at in EB. apply bind_Ok in EB. destruct EB as (rw & Erw & EB). apply (get_Ok_inv []) in Erw. apply (get_Ok_inv sp_empty) in EB. destruct Erw as (_ & ->). now destruct EB as (_ & ->). }
           destruct (bk_block _ K i j) as [Be|(VB & _ & CB)]; [unfold nblocks; lia|unfold nblocks; lia|rewrite EBb, Be in Ez; discriminate Ez|]. rewrite <- EBb in VB, CB.
           pose proof (idx_range B jj c VB Ec). pose proof (ofs_nonneg (bm_co M) j (bk_co _ K)). pose proof (ofs_nonneg (bm_co M) (j + 1) (bk_co _ K)).
           rewrite <- (bk_cols _ K) in *. unfold bsize, nblocks, ofs in *.
           apply agree_int; [apply int_range; lia|]. apply agree_same. intros x' Ex. apply set_inv in Ex. destruct Ex as (Ht & ->). by_same.
           apply agree_int; [apply int_range; lia|]. apply agree_ret. now rewrite zlen_upd'.
        -- intros [[[p x] y] t] Hx. apply agree_int; [apply int_range; lia|]. apply agree_int; [apply int_range; lia|].
           intros b E. cbn [bind] in E |- *. apply bind_Ok in E. destruct E as (s3 & E3 & E). apply bind_Ok in E3. destruct E3 as (p' & -> & [= <-]). cbn [bind]. injection E as <-. split; [reflexivity|]. split; [lia|exact Hx].
      * intros [lr [[[p x] y] t]] Hx. now apply agree_ret.
    + intros [[[p x] y] t] _. apply agree_refl.
Qed.

(** ** CooMatrix *)

Definition counted (s : list Z * list umap) : Prop :=
  nonneg (fst s) /\ zlen (fst s) = zlen (snd s) + 1 /\ forall r, 0 <= r < zlen (snd s) -> zn 0 (fst s) (r + 1) = zlen (zn [] (snd s) r).

Definition count1 (st : list Z * list umap) (e : entry S) : res (list Z * list umap) :=
  let (ip, im) := st in
  m <- get im (erow e) ;;
  match umap_find m (ecol e) with
  | Some _ => Ok (ip, im)
  | None => n <- get ip (erow e + 1) ;; ip <- set ip (erow e + 1) (n + 1) ;;
            im <- set im (erow e) (umap_put m (ecol e) (zlen m)) ;;
            Ok (ip, im)
  end.

Definition count1_i (st : list Z * list umap) (e : entry S) : res (list Z * list umap) :=
  let (ip, im) := st in
  m <- get im (erow e) ;;
  match umap_find m (ecol e) with
  | Some _ => Ok (ip, im)
  | None => r1 <- i32 (erow e + 1) ;; n <- get ip r1 ;; n1 <- i32 (n + 1) ;; ip <- set ip r1 n1 ;;
            sz <- i32 (zlen m) ;;
            im <- set im (erow e) (umap_put m (ecol e) sz) ;;
            Ok (ip, im)
  end.

Lemma count1_ok s e s1 : counted s -> zlen (snd s) < int_max -> count1 s e = Ok s1 ->
  counted s1 /\ zlen (snd s1) = zlen (snd s) /\ zsum (fst s) <= zsum (fst s1) /\
  (count1_i s e = Ok s1 \/ count1_i s e = Fail FUB /\ int_max < zsum (fst s1)).
Proof.
  destruct s as [ip im]. intros (P & L & K) Hb E. cbn [fst snd] in *. unfold count1 in E. unfold count1_i.
  apply bind_Ok in E. destruct E as (m & Em & E). rewrite Em. cbn [bind]. apply (get_Ok_inv []) in Em. destruct Em as (Hr & Em).
  destruct (umap_find m (ecol e)) as [v|] eqn:Ef.
  - injection E as <-. cbn [fst snd]. split; [repeat split; assumption|]. split; [reflexivity|]. split; [lia|]. now left.
  - apply bind_Ok in E. destruct E as (n & En & E). apply bind_Ok in E. destruct E as (ip' & Eip & E). apply bind_Ok in E. destruct E as (im' & Eim & E). injection E as <-.
    assert (HR : 0 <= erow e < zlen im) by exact Hr.
    rewrite (i32_ok (erow e + 1)) by (apply int_range; lia). cbn [bind]. rewrite En. cbn [bind].
    pose proof Eip as Eip0. pose proof Eim as Eim0.
    apply set_inv in Eip, Eim. destruct Eip as (Hi1 & ->). destruct Eim as (Hi2 & ->).
    destruct (get_range _ _ _ En) as (_ & En'). pose proof En as En2. apply (get_Ok_inv 0) in En2. destruct En2 as (_ & En2).
    specialize (K (erow e) Hr) as Kr. rewrite <- En2, <- Em in Kr. pose proof (zlen_nonneg m) as Hm.
    assert (Hs1 : zsum (upd ip (Z.to_nat (erow e + 1)) (n + 1)) = zsum ip + 1) by (rewrite (zsum_upd _ _ n) by exact En'; lia).
    assert (Hge : n + 1 <= zsum (upd ip (Z.to_nat (erow e + 1)) (n + 1))).
    { pose proof (zsum_ge ip n P ltac:(now apply nth_error_In in En')). lia. }
    cbn [fst snd]. split; [|split; [apply zlen_upd'|split; [lia|]]].
    + split; [apply nonneg_upd; [exact P|lia]|]. cbn [fst snd]. rewrite !zlen_upd'. split; [exact L|]. intros r Hr'.
      rewrite !zn_upd by lia. destruct (Z.eqb_spec r (erow e)) as [->|Hne].
      * destruct (Z.eqb_spec (erow e + 1) (erow e + 1)); [|lia]. rewrite umap_put_new by (now apply umap_find_In). rewrite zlen_app. unfold zlen at 2. cbn. lia.
      * destruct (Z.eqb_spec (r + 1) (erow e + 1)); [lia|]. now apply K.
    + destruct (Z.le_gt_cases (n + 1) int_max) as [H|H].
      * left. rewrite i32_ok by (apply int_range; lia). cbn [bind]. rewrite Eip0. cbn [bind]. rewrite i32_ok by (apply int_range; lia). cbn [bind]. now rewrite Eim0.
      * right. rewrite i32_over by lia. split; [reflexivity|lia].
Qed.

Lemma count_fold l : forall s s', counted s -> zlen (snd s) < int_max -> foldM count1 l s = Ok s' ->
  counted s' /\ zlen (snd s') = zlen (snd s) /\ zsum (fst s) <= zsum (fst s') /\
  (foldM count1_i l s = Ok s' \/ foldM count1_i l s = Fail FUB /\ int_max < zsum (fst s')).
Proof.
  induction l as [|e l IH]; intros s s' C Hb E; cbn [foldM] in *.
  - injection E as <-. split; [exact C|]. split; [reflexivity|]. split; [lia|]. now left.
  - apply bind_Ok in E. destruct E as (s1 & E1 & E). destruct (count1_ok s e s1 C Hb E1) as (C1 & L1 & S1 & D1).
    destruct (IH s1 s' C1 ltac:(lia) E) as (C2 & L2 & S2 & D2). split; [exact C2|]. split; [lia|]. split; [lia|].
    destruct D1 as [-> |(-> & H)]; cbn [bind]; [exact D2|]. right. split; [reflexivity|lia].
Qed.

Lemma partial_sum_ok l : forall a, 0 <= a -> nonneg l ->
  (a + zsum l <= int_max -> partial_sum_i a l = Ok (partial_sum_from a l)) /\ (a <= int_max -> int_max < a + zsum l -> partial_sum_i a l = Fail FUB).
Proof.
  induction l as [|x l IH]; intros a Ha Hn; cbn [partial_sum_i partial_sum_from zsum]; [split; [reflexivity|lia]|].
  assert (Hx : 0 <= x) by (apply Hn; now left). assert (Hl : nonneg l) by (intros y Hy; apply Hn; now right). pose proof (zsum_nonneg l Hl).
  destruct (IH (a + x) ltac:(lia) Hl) as (I1 & I2). split.
  - intros H'. rewrite i32_ok by (apply int_range; lia). cbn [bind]. rewrite I1 by lia. reflexivity.
  - intros H1 H2. destruct (Z.le_gt_cases (a + x) int_max); [rewrite i32_ok by (apply int_range; lia); cbn [bind]; rewrite I2 by lia; reflexivity|]. now rewrite i32_over by lia.
Qed.

Lemma partial_sum_last l : forall a, l <> [] -> last (partial_sum_from a l) 0 = a + zsum l.
Proof.
  induction l as [|x l IH]; intros a H; [congruence|]. cbn [partial_sum_from zsum]. destruct l as [|y l]; [cbn; lia|].
  specialize (IH (a + x) ltac:(discriminate)). cbn [partial_sum_from] in IH |- *. cbn [last] in IH |- *. rewrite IH. cbn [zsum]. lia.
Qed.

Lemma zlen_partial_sum l : forall a, zlen (partial_sum_from a l) = zlen l.
Proof. induction l as [|x l IH]; intros a; cbn [partial_sum_from]; [reflexivity|]. now rewrite !zlen_cons, IH. Qed.

Lemma last_zn (l : list Z) : l <> [] -> zn 0 l (zlen l - 1) = last l 0.
Proof.
  intros H. destruct (exists_last H) as (l' & x & ->). rewrite last_last. rewrite zlen_app. unfold zlen at 2. cbn [length]. unfold zn.
  replace (Z.to_nat (zlen l' + Z.of_nat 1 - 1)) with (length l') by (unfold zlen; lia). rewrite app_nth2 by lia. now rewrite Nat.sub_diag.
Qed.

Lemma find_size_int (M : coo S) : fst (coo_find_size M) <= int_max -> snd (coo_find_size M) <= int_max ->
  coo_find_size_i M = Ok (coo_find_size M).
Proof.
  intros Hr Hc. unfold coo_find_size, coo_find_size_i in *. destruct (Coo.o_set M) eqn:Es; [reflexivity|].
  rewrite (find_size_fold (o_entries M) 0 0) in *. cbn [fst snd] in *.
  pose proof (proj1 (fold_max_ge (@erow S) (o_entries M) 0)). pose proof (proj1 (fold_max_ge (@ecol S) (o_entries M) 0)).
  rewrite !i32_ok by (apply int_range; lia). reflexivity.
Qed.

Lemma coo_size_of (M : coo S) C : coo_to_sparse M = Ok C -> c_rows C = fst (coo_find_size M) /\ c_cols C = snd (coo_find_size M) /\ 0 <= c_rows C /\ 0 <= c_cols C.
Proof.
  unfold coo_to_sparse. destruct (coo_find_size M) as [r c]. cbn [fst snd]. destruct (o_entries M).
  - unfold sp_zero. intros H. apply bind_Ok in H. destruct H as ([] & Hr & H). apply bind_Ok in H. destruct H as ([] & Hc & H). apply assert_Ok in Hr, Hc. apply Z.leb_le in Hr, Hc.
    apply bind_Ok in H. destruct H as (p & _ & H). injection H as <-. cbn. now repeat split.
  - intros H. apply bind_Ok in H. destruct H as (p & _ & H). apply bind_Ok in H. destruct H as (im & _ & H). apply bind_Ok in H. destruct H as ([? ?] & _ & H).
    cbv zeta in H. do 3 (apply bind_Ok in H; destruct H as (? & _ & H)). apply bind_Ok in H. destruct H as ([? ?] & _ & H). apply sp_make_inv in H. destruct H as (-> & _ & _ & _ & H1 & H2 & _). cbn. now repeat split.
Qed.

Definition fill1 (ip : list Z) (im : list umap) (st : list Z * list T) (e : entry S) : res (list Z * list T) :=
  let (ix, d) := st in
  p <- get ip (erow e) ;; m <- get im (erow e) ;; q <- umap_at m (ecol e) ;;
  ix <- set ix (p + q) (ecol e) ;;
  o <- get d (p + q) ;; d <- set d (p + q) (sadd o (evalue e)) ;;
  Ok (ix, d).

Definition fill1_i (ip : list Z) (im : list umap) (st : list Z * list T) (e : entry S) : res (list Z * list T) :=
  let (ix, d) := st in
  p <- get ip (erow e) ;; m <- get im (erow e) ;; q <- umap_at m (ecol e) ;;
  k <- i32 (p + q) ;;
  ix <- set ix k (ecol e) ;;
  o <- get d k ;; d <- set d k (sadd o (evalue e)) ;;
  Ok (ix, d).

Lemma fill1_ok ip im n s e s1 : zlen (fst s) = n -> zlen (snd s) = n -> fill1 ip im s e = Ok s1 ->
  zlen (fst s1) = n /\ zlen (snd s1) = n /\ (n <= int_max -> fill1_i ip im s e = Ok s1).
Proof.
  destruct s as [ix d]. cbn [fst snd]. intros Hx Hd E. unfold fill1 in E. unfold fill1_i.
  apply bind_Ok in E. destruct E as (p & Ep & E). apply bind_Ok in E. destruct E as (m & Em & E). apply bind_Ok in E. destruct E as (q & Eq & E).
  apply bind_Ok in E. destruct E as (ix' & Ex & E). apply bind_Ok in E. destruct E as (o & Eo & E). apply bind_Ok in E. destruct E as (d' & Ed & E). injection E as <-.
  rewrite Ep, Em. cbn [bind]. rewrite Eq. cbn [bind]. cbn [fst snd].
  pose proof (set_inv _ _ _ _ Ex) as (H1 & E1). pose proof (set_inv _ _ _ _ Ed) as (_ & E2).
  split; [now rewrite E1, zlen_upd'|]. split; [now rewrite E2, zlen_upd'|]. intros H.
  rewrite (i32_ok (p + q)) by (apply int_range; lia). cbn [bind]. rewrite Ex. cbn [bind]. rewrite Eo. cbn [bind]. now rewrite Ed.
Qed.

Lemma fill_fold ip im n l : forall s s1, zlen (fst s) = n -> zlen (snd s) = n -> foldM (fill1 ip im) l s = Ok s1 ->
  zlen (snd s1) = n /\ (n <= int_max -> foldM (fill1_i ip im) l s = Ok s1).
Proof.
  induction l as [|e l IH]; intros s s1 Hx Hd E; cbn [foldM] in *.
  - injection E as <-. now split.
  - apply bind_Ok in E. destruct E as (s2 & E1 & E). destruct (fill1_ok _ _ _ _ _ _ Hx Hd E1) as (Hx2 & Hd2 & F).
    destruct (IH _ _ Hx2 Hd2 E) as (H1 & H2). split; [exact H1|]. intros H. rewrite (F H). cbn [bind]. now apply H2.
Qed.

Lemma coo_decides (M : coo S) C : coo_to_sparse M = Ok C -> c_rows C < int_max -> c_cols C <= int_max ->
  (sp_nnz C <= int_max -> coo_to_sparse_i M = Ok C) /\ (int_max < sp_nnz C -> coo_to_sparse_i M = Fail FUB).
Proof.
  intros E Hr Hc. destruct (coo_size_of M C E) as (ER & EC & Hr0 & Hc0). unfold coo_to_sparse_i. rewrite (find_size_int M) by lia. cbn [bind].
  unfold coo_to_sparse in E. destruct (coo_find_size M) as [rows cols] eqn:Es. cbn [fst snd] in *. rewrite ER, EC in *.
  destruct (o_entries M) as [|e0 l0] eqn:Ee.
  { unfold sp_zero in E. unfold sp_zero_i. rewrite !(proj2 (Z.leb_le _ _)) in * by lia. cbn [assert_ bind] in *. rewrite (i32_ok (rows + 1)) by (apply int_range; lia). cbn [bind].
    split; [intros _; exact E|]. apply bind_Ok in E. destruct E as (p & _ & E). injection E as <-. unfold sp_nnz. cbn. unfold zlen. cbn. unfold int_max. lia. }
  rewrite <- Ee in *. clear Ee e0 l0. rewrite (i32_ok (rows + 1)) by (apply int_range; lia). cbn [bind].
  apply bind_Ok in E. destruct E as (ip & Eip & E). rewrite Eip. cbn [bind]. apply bind_Ok in E. destruct E as (im & Eim & E). rewrite Eim. cbn [bind].
  destruct (vec_inv _ _ _ Eip) as (_ & Hip & Lip). destruct (vec_inv _ _ _ Eim) as (_ & Him & Lim).
  apply bind_Ok in E. destruct E as ([ip1 im1] & E1 & E). fold count1 in E1. fold count1_i.
  assert (C0 : counted (ip, im)).
  { unfold counted. cbn [fst snd]. split; [subst ip; apply nonneg_repeat|]. split; [lia|]. intros r Hr'. subst ip im. rewrite !zn_repeat by lia. reflexivity. }
  destruct (count_fold (o_entries M) (ip, im) (ip1, im1) C0 ltac:(cbn; lia) E1) as ((P1 & L1 & _) & L2 & _ & D). cbn [fst snd] in *.
  cbv zeta in E. apply bind_Ok in E. destruct E as (nnz & En & E). apply bind_Ok in E. destruct E as (ix & Eix & E). apply bind_Ok in E. destruct E as (d & Ed & E).
  destruct (vec_inv _ _ _ Eix) as (Hnz & _ & Lix). destruct (vec_inv _ _ _ Ed) as (_ & _ & Ld).
  assert (HN : nnz = zsum ip1).
  { assert (Hne : ip1 <> []) by (intros ->; change (zlen (@nil Z)) with 0 in L1; lia). pose proof En as En'. apply (get_Ok_inv 0) in En'. destruct En' as (_ & ->).
    unfold partial_sum. rewrite last_zn by (destruct ip1; [congruence|discriminate]). rewrite partial_sum_last by exact Hne. lia. }
  apply bind_Ok in E. destruct E as ([x y] & E2 & E). fold (fill1 (partial_sum ip1) im1) in E2.
  destruct (fill_fold _ _ nnz _ (ix, d) (x, y) Lix Ld E2) as (Hy & F). cbn [snd] in Hy. rewrite (sp_make_nnz _ _ _ _ _ _ E), Hy.
  destruct (partial_sum_ok ip1 0 ltac:(lia) P1) as (S1 & S2). split; intros H.
  - destruct D as [-> |(_ & H')]; [|lia]. cbn [bind]. rewrite S1 by lia. cbn [bind]. fold (partial_sum ip1). rewrite En. cbn [bind]. rewrite Eix, Ed. cbn [bind].
    fold (fill1_i (partial_sum ip1) im1). rewrite F by exact H. cbn [bind]. exact E.
  - destruct D as [-> |(-> & _)]; [|reflexivity]. cbn [bind]. rewrite S2 by (unfold int_max in *; lia). reflexivity.
Qed.

(** ** DenseMatrix *)

Lemma d_zeros_fits rows cols : 0 <= rows -> 0 <= cols ->
  (rows * cols <= int_max -> d_zeros_i (S := S) rows cols = d_zeros rows cols) /\ (int_max < rows * cols -> d_zeros_i (S := S) rows cols = Fail FUB).
Proof.
  intros Hr Hc. unfold d_zeros_i, d_zeros, d_make_i, d_make. split; intros H; [|now rewrite i32_over].
  rewrite i32_ok by (apply int_range; nia). cbn [bind]. rewrite vec_ok by nia. reflexivity.
Qed.

Lemma d_make_fits rows cols (data : list T) : 0 <= rows -> 0 <= cols ->
  (rows * cols <= int_max -> d_make_i rows cols data = d_make rows cols data) /\ (int_max < rows * cols -> d_make_i rows cols data = Fail FUB).
Proof.
  intros Hr Hc. unfold d_make_i, d_make. rewrite !(proj2 (Z.leb_le _ _)) by lia. cbn [assert_ bind]. split; intros H; [|now rewrite i32_over].
  rewrite i32_ok by (apply int_range; nia). reflexivity.
Qed.

Lemma d_size_fits (D : dense) rows cols v : 0 <= rows -> 0 <= cols ->
  (rows * cols <= int_max -> d_set_size_val_i D rows cols v = d_set_size_val D rows cols v) /\ (int_max < rows * cols -> d_set_size_val_i D rows cols v = Fail FUB).
Proof.
  intros Hr Hc. unfold d_set_size_val_i, d_set_size_val. rewrite !(proj2 (Z.leb_le _ _)) by lia. cbn [assert_ bind]. split; intros H; [|now rewrite i32_over].
  rewrite i32_ok by (apply int_range; nia). reflexivity.
Qed.

Lemma dense_negative (rows cols : Z) : int_min <= rows * cols <= int_max -> rows < 0 \/ cols < 0 ->
  d_zeros_i (S := S) rows cols = d_zeros rows cols /\
  (forall data : list (car S), d_make_i rows cols data = Fail FAssert /\ d_make rows cols data = Fail FAssert) /\
  (forall (D : dense) v, d_set_size_val_i D rows cols v = Fail FAssert /\ d_set_size_val D rows cols v = Fail FAssert).
Proof.
  intros Hp Hn. assert (Hm : forall data : list (car S), d_make_i rows cols data = Fail FAssert /\ d_make rows cols data = Fail FAssert).
  { intros data. unfold d_make_i, d_make. destruct (Z.leb_spec 0 rows), (Z.leb_spec 0 cols); try lia; split; reflexivity. }
  split; [|split; [exact Hm|]].
  - unfold d_zeros_i, d_zeros. rewrite i32_ok by exact Hp. cbn [bind]. destruct (vec (rows * cols) s0) as [data|]; [|reflexivity]. cbn [bind]. destruct (Hm data) as (-> & ->). reflexivity.
  - intros D v. unfold d_set_size_val_i, d_set_size_val. destruct (Z.leb_spec 0 rows), (Z.leb_spec 0 cols); try lia; split; reflexivity.
Qed.

Lemma in_range_inv (D : dense) i j : in_range D i j = true -> 0 <= i < d_rows D /\ 0 <= j < d_cols D.
Proof. unfold in_range. rewrite !andb_true_iff, !Z.leb_le, !Z.ltb_lt. lia. Qed.

Lemma d_get_fits (D : dense) i j : d_rows D * d_cols D <= int_max -> d_get_i D i j = d_get D i j.
Proof.
  intros H. unfold d_get_i, d_get. destruct (in_range D i j) eqn:E; [|reflexivity]. cbn [assert_ bind]. apply in_range_inv in E.
  rewrite (i32_ok (j * d_rows D)) by (apply int_range; nia). cbn [bind]. rewrite i32_ok by (apply int_range; nia). reflexivity.
Qed.

Lemma d_set_fits (D : dense) i j v : d_rows D * d_cols D <= int_max -> d_set_i D i j v = d_set D i j v.
Proof.
  intros H. unfold d_set_i, d_set. destruct (in_range D i j) eqn:E; [|reflexivity]. cbn [assert_ bind]. apply in_range_inv in E.
  rewrite (i32_ok (j * d_rows D)) by (apply int_range; nia). cbn [bind]. rewrite i32_ok by (apply int_range; nia). reflexivity.
Qed.

Lemma d_set_shape (D E : dense) i j v : d_set D i j v = Ok E -> d_rows E = d_rows D /\ d_cols E = d_cols D.
Proof.
  unfold d_set. intros H. apply bind_Ok in H. destruct H as ([] & _ & H). apply bind_Ok in H. destruct H as (d & _ & H). injection H as <-. now split.
Qed.

Lemma d_transpose_fits (D : dense) : d_fits D -> forall E, d_transpose D = Ok E -> d_transpose_i D = Ok E.
Proof.
  intros ((Hr & Hc & _) & _ & _ & H) E. unfold d_transpose, d_transpose_i, d_transpose_into.
  cut (agree (fun _ => True) (out <- d_zeros (d_cols D) (d_rows D) ;; out <- d_set_size out (d_cols D) (d_rows D) ;;
    for_ 0 (d_rows D) out (fun i out => for_ 0 (d_cols D) out (fun j out => v <- d_get D i j ;; d_set out j i v)))
   (out <- d_zeros_i (d_cols D) (d_rows D) ;; out <- d_set_size_val_i out (d_cols D) (d_rows D) s0 ;;
    for_ 0 (d_rows D) out (fun i out => for_ 0 (d_cols D) out (fun j out => v <- d_get_i D i j ;; d_set_i out j i v)))).
  { intros A HE. now apply (A E). }
  rewrite (proj1 (d_zeros_fits (d_cols D) (d_rows D) Hc Hr)) by nia. apply agree_same. intros out _.
  rewrite (proj1 (d_size_fits out (d_cols D) (d_rows D) s0 Hc Hr)) by nia. change (d_set_size_val out (d_cols D) (d_rows D) s0) with (d_set_size out (d_cols D) (d_rows D)).
  apply agree_same. intros o Eo. assert (So : d_rows o = d_cols D /\ d_cols o = d_rows D).
  { unfold d_set_size in Eo. rewrite !(proj2 (Z.leb_le _ _)) in Eo by lia. cbn in Eo. injection Eo as <-. now split. }
  apply (agree_weaken (fun o : dense => d_rows o = d_cols D /\ d_cols o = d_rows D)); [|trivial].
  apply agree_for_inv; [exact So|]. intros i s Hi Is. apply agree_for_inv; [exact Is|]. intros j s' Hj (I1 & I2).
  rewrite d_get_fits by lia. apply agree_same. intros v _. rewrite d_set_fits by (rewrite I1, I2; lia).
  intros b Eb. split; [exact Eb|]. apply d_set_shape in Eb. destruct Eb as (-> & ->). now split.
Qed.

(** ** Sizes without room for the row pointers *)

Lemma transpose_widest (A : csr) : c_cols A = int_max -> sp_transpose_i A = Fail FUB.
Proof. intros H. unfold sp_transpose_i. rewrite H. reflexivity. Qed.

Lemma zero_tallest cols : 0 <= cols -> sp_zero_i (S := S) int_max cols = Fail FUB.
Proof. intros H. unfold sp_zero_i. rewrite (proj2 (Z.leb_le 0 cols)) by lia. reflexivity. Qed.

Lemma zero_fits rows cols : rows < int_max -> sp_zero_i (S := S) rows cols = sp_zero rows cols.
Proof.
  intros H. unfold sp_zero_i, sp_zero. destruct (Z.leb_spec 0 rows); [|reflexivity]. cbn [assert_ bind]. destruct (0 <=? cols); [|reflexivity]. cbn [assert_ bind].
  rewrite i32_ok by (apply int_range; lia). reflexivity.
Qed.

(** ** Small matrices with a product that is too large *)

(** The n x 1 matrix and the 1 x n matrix of ones *)
Definition ones_col (n : Z) : csr := csr_of_rows n 1 (fun _ => [(0, s1)]).
Definition ones_row (n : Z) : csr := csr_of_rows 1 n (fun _ => map (fun j => (j, s1)) (zrange 0 n)).

Lemma off_least {X} (f : Z -> list X) c n : 0 <= n -> (forall i, 0 <= i < n -> c <= zlen (f i)) -> n * c <= off f n.
Proof.
  intros Hn. revert n Hn. apply (natlike_ind (fun n => (forall i, 0 <= i < n -> c <= zlen (f i)) -> n * c <= off f n)).
  - intros _. unfold off, cat. rewrite zrange_empty by lia. change (0 * c <= 0). lia.
  - intros n Hn IH H. unfold Z.succ. rewrite off_succ by lia. specialize (IH ltac:(intros i Hi; apply H; lia)). specialize (H n ltac:(lia)). lia.
Qed.

Lemma off_const {X} (f : Z -> list X) c n : 0 <= n -> (forall i, 0 <= i < n -> zlen (f i) = c) -> off f n = n * c.
Proof.
  intros Hn. revert n Hn. apply (natlike_ind (fun n => (forall i, 0 <= i < n -> zlen (f i) = c) -> off f n = n * c)).
  - intros _. unfold off, cat. now rewrite zrange_empty by lia.
  - intros n Hn IH H. unfold Z.succ. rewrite off_succ by lia. rewrite IH by (intros i Hi; apply H; lia). rewrite H by lia. lia.
Qed.

Lemma ones_fit n : 1 <= n < int_max -> fits (ones_col n) /\ fits (ones_row n) /\ sp_nnz (ones_col n) = n /\ sp_nnz (ones_row n) = n.
Proof.
  intros Hn. assert (E1 : sp_nnz (ones_col n) = n) by (unfold sp_nnz; cbn [c_val ones_col csr_of_rows]; rewrite zlen_map; change (off (fun _ : Z => [(0, s1 (s := S))]) n = n); rewrite (off_const _ 1) by (try lia; reflexivity); lia).
  assert (E2 : sp_nnz (ones_row n) = n).
  { unfold sp_nnz; cbn [c_val ones_row csr_of_rows]. rewrite zlen_map. change (off (fun _ : Z => map (fun j => (j, s1 (s := S))) (zrange 0 n)) 1 = n).
    rewrite (off_const _ n); [lia|lia|]. intros i _. rewrite zlen_map, zlen_zrange by lia. lia. }
  assert (V1 : csr_valid (ones_col n)) by (apply csr_of_rows_valid; [lia|lia|]; intros i p _ [<-|[]]; cbn; lia).
  assert (V2 : csr_valid (ones_row n)) by (apply csr_of_rows_valid; [lia|lia|]; intros i p _ Hp; apply in_map_iff in Hp; destruct Hp as (j & <- & Hj); now apply In_zrange in Hj).
  unfold fits. rewrite E1, E2. cbn [c_rows c_cols ones_col ones_row csr_of_rows]. pose proof (eq_refl : int_max = 2147483647).
  split; [|split; [|split; reflexivity]]; (split; [assumption|lia]).
Qed.

Lemma ones_product n : 1 <= n < int_max -> int_max < n * n -> sp_spmult_i (ones_col n) (ones_row n) = Fail FUB.
Proof.
  intros Hn Ho. destruct (ones_fit n Hn) as (F1 & F2 & _). destruct F1 as (V1 & F1). destruct F2 as (V2 & F2).
  pose proof (sp_spmult_eq (ones_col n) (ones_row n) V1 V2 eq_refl) as E.
  apply (product_decides (ones_col n) (ones_row n) (conj V1 F1) (conj V2 F2) _ E).
  unfold sp_nnz. cbn [c_val csr_of_rows]. rewrite zlen_map. apply (Z.lt_le_trans _ _ _ Ho).
  change (n * n <= off (prod_row (ones_col n) (ones_row n)) n). apply off_least; [lia|]. intros i Hi.
  assert (L : zlen (zrange 0 n) <= zlen (map fst (prod_row (ones_col n) (ones_row n) i))).
  { apply inj_le. apply NoDup_incl_length; [apply NoDup_zrange|]. intros j Hj. apply In_zrange in Hj. unfold prod_row. rewrite acc_In_keys.
    unfold prods. unfold ones_col at 1. rewrite csr_of_rows_row by lia. cbn [row_to_entries map flat_map]. rewrite app_nil_r. cbn [ecol fst snd]. unfold ones_row. rewrite row_of_rows by lia.
    rewrite !map_map. cbn [fst]. rewrite map_id. now apply In_zrange. }
  rewrite zlen_map in L. rewrite zlen_zrange in L by lia. lia.
Qed.

End I32Proofs.
