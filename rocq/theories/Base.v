(** Common vocabulary of the model: outcomes of a C++ call, checked arrays,
    counted loops.  Nothing in this file models a particular function of /repo;
    it fixes the meaning of [v[i]], [assert(b)] and [for (int i = a; i < b; ++i)]
    that all the model files share. *)

From Coq Require Import ZArith List Lia Bool FinFun.
Import ListNotations.
Open Scope Z_scope.

(** How a call can fail.
    [FAssert]: an [assert] evaluated to false (debug build).
    [FUB]: undefined behaviour (access outside an array, dereferencing [end()], ...).
    [FThrow]: a C++ exception leaves the function ([linalgcpp_verify], ...). *)
Inductive fault : Type := FAssert | FUB | FThrow.

Inductive res (A : Type) : Type :=
| Ok (a : A)
| Fail (f : fault).
Arguments Ok {A} _.
Arguments Fail {A} _.

Definition bind {A B : Type} (m : res A) (k : A -> res B) : res B :=
  match m with
  | Ok a => k a
  | Fail f => Fail f
  end.

Notation "x <- m ;; k" := (bind m (fun x => k))
  (at level 61, m at next level, right associativity).
Notation "' p <- m ;; k" := (bind m (fun x => match x with p => k end))
  (at level 61, p pattern, m at next level, right associativity).
Notation "m ;;; k" := (bind m (fun _ => k)) (at level 61, right associativity).

(** [assert(b);] *)
Definition assert_ (b : bool) : res unit := if b then Ok tt else Fail FAssert.

(** Size of an array as the C++ [int] obtained by [static_cast<int>(v.size())]. *)
Definition zlen {A : Type} (l : list A) : Z := Z.of_nat (length l).

(** Checked read [v[i]]. *)
Definition get {A : Type} (l : list A) (i : Z) : res A :=
  if i <? 0 then Fail FUB
  else match nth_error l (Z.to_nat i) with
       | Some a => Ok a
       | None => Fail FUB
       end.

Fixpoint upd {A : Type} (l : list A) (n : nat) (a : A) : list A :=
  match l, n with
  | [], _ => []
  | _ :: l', O => a :: l'
  | b :: l', S n' => b :: upd l' n' a
  end.

(** Checked write [v[i] = a]. *)
Definition set {A : Type} (l : list A) (i : Z) (a : A) : res (list A) :=
  if (0 <=? i) && (i <? zlen l) then Ok (upd l (Z.to_nat i) a) else Fail FUB.

(** [std::vector<A>(n, a)]; a negative [n] would be a request of about 2^64 elements
    and throws. *)
Definition vec {A : Type} (n : Z) (a : A) : res (list A) :=
  if n <? 0 then Fail FThrow else Ok (repeat a (Z.to_nat n)).

(** The integers lo, lo+1, ..., hi-1. *)
Definition zrange (lo hi : Z) : list Z :=
  map (fun k => lo + Z.of_nat k) (seq 0 (Z.to_nat (hi - lo))).

Fixpoint foldM {S X : Type} (f : S -> X -> res S) (l : list X) (s : S) : res S :=
  match l with
  | [] => Ok s
  | x :: l' => s' <- f s x ;; foldM f l' s'
  end.

(** [for (int i = lo; i < hi; ++i) body] where the body does not change [hi]. *)
Definition for_ {S : Type} (lo hi : Z) (s : S) (body : Z -> S -> res S) : res S :=
  foldM (fun s i => body i s) (zrange lo hi) s.

(** [for (int i = hi; i > lo; --i) body]. *)
Definition for_down {S : Type} (hi lo : Z) (s : S) (body : Z -> S -> res S) : res S :=
  foldM (fun s i => body i s) (rev (zrange (lo + 1) (hi + 1))) s.

(** Reading an array at a position known to be inside (specifications only). *)
Definition zn {A : Type} (d : A) (l : list A) (i : Z) : A := nth (Z.to_nat i) l d.

(** A call returns normally with a result satisfying [P]: no failed assert, no
    undefined behaviour, no exception. *)
Definition returns {A : Type} (m : res A) (P : A -> Prop) : Prop :=
  match m with
  | Ok a => P a
  | Fail _ => False
  end.

Arguments zn : simpl never.
Arguments zlen : simpl never.
Arguments get : simpl never.
Arguments set : simpl never.
Arguments vec : simpl never.
Arguments zrange : simpl never.
Arguments for_ : simpl never.
Arguments for_down : simpl never.

(* ------------------------------------------------------------------ *)
(** * Facts about arrays *)

Lemma zlen_nonneg {A} (l : list A) : 0 <= zlen l.
Proof. unfold zlen; lia. Qed.

Lemma zlen_nil A : zlen (@nil A) = 0.
Proof. reflexivity. Qed.

Lemma zlen_cons {A} (a : A) l : zlen (a :: l) = zlen l + 1.
Proof. unfold zlen; cbn [length]; lia. Qed.

Lemma zlen_app {A} (l1 l2 : list A) : zlen (l1 ++ l2) = zlen l1 + zlen l2.
Proof. unfold zlen; rewrite app_length; lia. Qed.

Lemma zlen_map {A B} (f : A -> B) l : zlen (map f l) = zlen l.
Proof. unfold zlen; rewrite map_length; lia. Qed.

Lemma zlen_repeat {A} (a : A) n : zlen (repeat a n) = Z.of_nat n.
Proof. unfold zlen; rewrite repeat_length; lia. Qed.

Lemma zlen_rev {A} (l : list A) : zlen (rev l) = zlen l.
Proof. unfold zlen; rewrite rev_length; lia. Qed.

Lemma zlen_0_nil {A} (l : list A) : zlen l = 0 -> l = [].
Proof. destruct l; [reflexivity|]. rewrite zlen_cons. pose proof (zlen_nonneg l). lia. Qed.

Lemma get_ok {A} (d : A) l i : 0 <= i < zlen l -> get l i = Ok (zn d l i).
Proof.
  intros H. unfold get, zn, zlen in *.
  destruct (Z.ltb_spec i 0); [lia|].
  rewrite (nth_error_nth' l d) by lia. reflexivity.
Qed.

Lemma get_Ok_inv {A} (d : A) l i a : get l i = Ok a -> 0 <= i < zlen l /\ a = zn d l i.
Proof.
  unfold get, zn, zlen. destruct (Z.ltb_spec i 0); [discriminate|].
  destruct (nth_error l (Z.to_nat i)) eqn:E; [|discriminate].
  intros H1; injection H1 as <-. split.
  - assert (nth_error l (Z.to_nat i) <> None) by congruence.
    apply nth_error_Some in H0. lia.
  - symmetry. apply nth_error_nth. exact E.
Qed.

Lemma get_out {A} (l : list A) i : ~ (0 <= i < zlen l) -> get l i = Fail FUB.
Proof.
  intros H. unfold get, zlen in *. destruct (Z.ltb_spec i 0); [reflexivity|].
  rewrite (proj2 (nth_error_None l (Z.to_nat i))) by lia. reflexivity.
Qed.

Lemma upd_length {A} (l : list A) n a : length (upd l n a) = length l.
Proof. revert n; induction l; intros [|n]; cbn; auto. Qed.

Lemma zlen_upd {A} (l : list A) n a : zlen (upd l n a) = zlen l.
Proof. unfold zlen; rewrite upd_length; reflexivity. Qed.

Lemma nth_upd {A} (d : A) l n m a :
  (n < length l)%nat -> nth m (upd l n a) d = if Nat.eqb m n then a else nth m l d.
Proof.
  revert n m; induction l as [|b l IH]; intros n m H; [cbn in H; lia|].
  destruct n, m; cbn in *; try reflexivity. apply IH; lia.
Qed.

Lemma zn_upd {A} (d : A) l i j a :
  0 <= i < zlen l -> 0 <= j ->
  zn d (upd l (Z.to_nat i) a) j = if j =? i then a else zn d l j.
Proof.
  intros Hi Hj. unfold zn, zlen in *. rewrite nth_upd by lia.
  destruct (Z.eqb_spec j i); destruct (Nat.eqb_spec (Z.to_nat j) (Z.to_nat i)); auto; lia.
Qed.

Lemma set_ok {A} (l : list A) i a : 0 <= i < zlen l -> set l i a = Ok (upd l (Z.to_nat i) a).
Proof.
  intros H. unfold set.
  destruct (Z.leb_spec 0 i); [|lia]. destruct (Z.ltb_spec i (zlen l)); [|lia]. reflexivity.
Qed.

Lemma set_out {A} (l : list A) i a : ~ (0 <= i < zlen l) -> set l i a = Fail FUB.
Proof.
  intros H. unfold set.
  destruct (Z.leb_spec 0 i); [|reflexivity]. destruct (Z.ltb_spec i (zlen l)); [lia|reflexivity].
Qed.

Lemma set_Ok_inv {A} (l : list A) i a l' :
  set l i a = Ok l' -> 0 <= i < zlen l /\ l' = upd l (Z.to_nat i) a.
Proof.
  unfold set. destruct (Z.leb_spec 0 i), (Z.ltb_spec i (zlen l)); cbn; intros H1; try discriminate.
  injection H1 as <-. split; [lia|reflexivity].
Qed.

Lemma vec_ok {A} n (a : A) : 0 <= n -> vec n a = Ok (repeat a (Z.to_nat n)).
Proof. intros H. unfold vec. destruct (Z.ltb_spec n 0); [lia|reflexivity]. Qed.

Lemma zn_repeat {A} (d a : A) n i : 0 <= i < Z.of_nat n -> zn d (repeat a n) i = a.
Proof.
  intros H. unfold zn.
  assert (Hn : (Z.to_nat i < n)%nat) by lia. clear H.
  revert Hn. generalize (Z.to_nat i). induction n; intros m Hm; [lia|].
  destruct m; cbn; [reflexivity|]. apply IHn; lia.
Qed.

Lemma zn_app_l {A} (d : A) l1 l2 i : 0 <= i < zlen l1 -> zn d (l1 ++ l2) i = zn d l1 i.
Proof. intros H. unfold zn, zlen in *. apply app_nth1. lia. Qed.

Lemma zn_app_r {A} (d : A) l1 l2 i : zlen l1 <= i -> zn d (l1 ++ l2) i = zn d l2 (i - zlen l1).
Proof.
  intros H. unfold zn, zlen in *. rewrite app_nth2 by lia. f_equal. lia.
Qed.

Lemma zn_cons_0 {A} (d : A) a l : zn d (a :: l) 0 = a.
Proof. reflexivity. Qed.

Lemma zn_cons_pos {A} (d : A) a l i : 0 < i -> zn d (a :: l) i = zn d l (i - 1).
Proof.
  intros H. unfold zn. replace (Z.to_nat i) with (S (Z.to_nat (i - 1))) by lia. reflexivity.
Qed.

Lemma zn_map {A B} (d : A) (e : B) (f : A -> B) l i :
  0 <= i < zlen l -> zn e (map f l) i = f (zn d l i).
Proof.
  intros H. unfold zn, zlen in *.
  rewrite (nth_indep _ e (f d)) by (rewrite map_length; lia). apply map_nth.
Qed.

Lemma zn_In {A} (d : A) l i : 0 <= i < zlen l -> In (zn d l i) l.
Proof. intros H. unfold zn, zlen in *. apply nth_In. lia. Qed.

Lemma In_zn {A} (d : A) l a : In a l -> exists i, 0 <= i < zlen l /\ zn d l i = a.
Proof.
  intros H. destruct (In_nth l a d H) as (n & Hn & E).
  exists (Z.of_nat n). unfold zlen, zn. rewrite Nat2Z.id. split; [lia|exact E].
Qed.

Lemma list_ext {A} (d : A) l1 l2 :
  zlen l1 = zlen l2 -> (forall i, 0 <= i < zlen l1 -> zn d l1 i = zn d l2 i) -> l1 = l2.
Proof.
  unfold zlen, zn. intros Hl H.
  apply (nth_ext l1 l2 d d); [lia|]. intros n Hn.
  specialize (H (Z.of_nat n)). rewrite Nat2Z.id in H. apply H. lia.
Qed.

Lemma Forall_zn {A} (d : A) (P : A -> Prop) l :
  (forall i, 0 <= i < zlen l -> P (zn d l i)) <-> Forall P l.
Proof.
  rewrite Forall_forall. split.
  - intros H a Ha. destruct (In_zn d l a Ha) as (i & Hi & <-). auto.
  - intros H i Hi. apply H, zn_In, Hi.
Qed.

(* ------------------------------------------------------------------ *)
(** * Ranges *)

Lemma zrange_empty lo hi : hi <= lo -> zrange lo hi = [].
Proof. intros H. unfold zrange. replace (Z.to_nat (hi - lo)) with O by lia. reflexivity. Qed.

Lemma zrange_length lo hi : length (zrange lo hi) = Z.to_nat (hi - lo).
Proof. unfold zrange. rewrite map_length, seq_length. reflexivity. Qed.

Lemma zlen_zrange lo hi : lo <= hi -> zlen (zrange lo hi) = hi - lo.
Proof. intros H. unfold zlen. rewrite zrange_length. lia. Qed.

Lemma zrange_cons lo hi : lo < hi -> zrange lo hi = lo :: zrange (lo + 1) hi.
Proof.
  intros H. unfold zrange.
  replace (Z.to_nat (hi - lo)) with (S (Z.to_nat (hi - (lo + 1)))) by lia.
  cbn [seq map]. f_equal; [lia|].
  rewrite <- seq_shift, map_map. apply map_ext. intros; lia.
Qed.

Lemma zrange_snoc lo hi : lo < hi -> zrange lo hi = zrange lo (hi - 1) ++ [hi - 1].
Proof.
  intros H. unfold zrange.
  replace (Z.to_nat (hi - lo)) with (S (Z.to_nat (hi - 1 - lo))) by lia.
  rewrite seq_S, map_app. cbn [map]. f_equal. f_equal. lia.
Qed.

Lemma zrange_app lo mid hi : lo <= mid <= hi -> zrange lo hi = zrange lo mid ++ zrange mid hi.
Proof.
  intros H. unfold zrange.
  replace (Z.to_nat (hi - lo)) with (Z.to_nat (mid - lo) + Z.to_nat (hi - mid))%nat by lia.
  rewrite seq_app, map_app. f_equal. cbn [plus].
  rewrite <- (Nat.add_0_r (Z.to_nat (mid - lo))) at 1.
  generalize (Z.to_nat (hi - mid)) as n. intros n.
  assert (E : Z.of_nat (Z.to_nat (mid - lo)) = mid - lo) by lia.
  revert E. generalize (Z.to_nat (mid - lo)) as m. intros m E.
  rewrite Nat.add_0_r.
  assert (forall k, map (fun k => lo + Z.of_nat k) (seq (m + k) n) = map (fun k => mid + Z.of_nat k) (seq k n)).
  { induction n; intros k; cbn; [reflexivity|]. f_equal; [lia|].
    replace (S (m + k)) with (m + S k)%nat by lia. apply IHn. }
  specialize (H0 O). rewrite Nat.add_0_r in H0. exact H0.
Qed.

Lemma In_zrange lo hi i : In i (zrange lo hi) <-> lo <= i < hi.
Proof.
  unfold zrange. rewrite in_map_iff. split.
  - intros (k & <- & H). apply in_seq in H. lia.
  - intros H. exists (Z.to_nat (i - lo)). split; [lia|]. apply in_seq. lia.
Qed.

Lemma NoDup_zrange lo hi : NoDup (zrange lo hi).
Proof.
  unfold zrange. apply FinFun.Injective_map_NoDup; [|apply seq_NoDup].
  intros x y H. lia.
Qed.

Lemma zn_zrange d lo hi i : 0 <= i < hi - lo -> zn d (zrange lo hi) i = lo + i.
Proof.
  intros H. unfold zrange, zn.
  rewrite (nth_indep _ d (lo + Z.of_nat 0)) by (rewrite map_length, seq_length; lia).
  rewrite (map_nth (fun k => lo + Z.of_nat k)), seq_nth by lia. lia.
Qed.

Lemma map_zn_zrange {A} (d : A) l : map (zn d l) (zrange 0 (zlen l)) = l.
Proof.
  apply (list_ext d).
  - rewrite zlen_map, zlen_zrange by apply zlen_nonneg. lia.
  - intros i Hi. rewrite zlen_map, zlen_zrange in Hi by apply zlen_nonneg.
    rewrite (zn_map 0) by (rewrite zlen_zrange by apply zlen_nonneg; lia).
    rewrite zn_zrange by lia. f_equal.
Qed.

(* ------------------------------------------------------------------ *)
(** * Reasoning about calls *)

Lemma returns_Ok {A} (a : A) (P : A -> Prop) : P a -> returns (Ok a) P.
Proof. auto. Qed.

Lemma returns_bind {A B} (m : res A) (k : A -> res B) (P : B -> Prop) :
  returns m (fun a => returns (k a) P) -> returns (bind m k) P.
Proof. destruct m; auto. Qed.

Lemma returns_bind_inv {A B} (m : res A) (k : A -> res B) (P : B -> Prop) :
  returns (bind m k) P -> returns m (fun a => returns (k a) P).
Proof. destruct m; auto. Qed.

Lemma returns_weaken {A} (m : res A) (P Q : A -> Prop) :
  returns m P -> (forall a, P a -> Q a) -> returns m Q.
Proof. destruct m; cbn; auto. Qed.

Lemma returns_conj {A} (m : res A) (P Q : A -> Prop) :
  returns m P -> returns m Q -> returns m (fun a => P a /\ Q a).
Proof. destruct m; cbn; auto. Qed.

Lemma returns_Ok_inv {A} (m : res A) (P : A -> Prop) a : returns m P -> m = Ok a -> P a.
Proof. intros H ->. exact H. Qed.

Lemma returns_exists {A} (m : res A) (P : A -> Prop) :
  returns m P <-> exists a, m = Ok a /\ P a.
Proof.
  split.
  - destruct m; cbn; [eauto|contradiction].
  - intros (a & -> & H). exact H.
Qed.

Lemma returns_assert (b : bool) (P : unit -> Prop) :
  b = true -> P tt -> returns (assert_ b) P.
Proof. intros ->; cbn; auto. Qed.

Lemma returns_get {A} (d : A) l i (P : A -> Prop) :
  0 <= i < zlen l -> P (zn d l i) -> returns (get l i) P.
Proof. intros H Hp. rewrite (get_ok d) by exact H. exact Hp. Qed.

Lemma returns_set {A} (l : list A) i a (P : list A -> Prop) :
  0 <= i < zlen l -> P (upd l (Z.to_nat i) a) -> returns (set l i a) P.
Proof. intros H Hp. rewrite set_ok by exact H. exact Hp. Qed.

Lemma returns_vec {A} n (a : A) (P : list A -> Prop) :
  0 <= n -> P (repeat a (Z.to_nat n)) -> returns (vec n a) P.
Proof. intros H Hp. rewrite vec_ok by exact H. exact Hp. Qed.

Lemma foldM_app {S X} (f : S -> X -> res S) l1 l2 s :
  foldM f (l1 ++ l2) s = (s' <- foldM f l1 s ;; foldM f l2 s').
Proof.
  revert s; induction l1; intros s; cbn; [reflexivity|].
  destruct (f s a); cbn; auto.
Qed.

Lemma foldM_ext {S X} (f g : S -> X -> res S) l s :
  (forall s x, In x l -> f s x = g s x) -> foldM f l s = foldM g l s.
Proof.
  revert s; induction l; intros s H; cbn; [reflexivity|].
  rewrite H by (left; reflexivity). destruct (g s a); cbn; [|reflexivity].
  apply IHl. intros; apply H; right; assumption.
Qed.

Lemma foldM_map {S X Y} (f : S -> Y -> res S) (h : X -> Y) l s :
  foldM f (map h l) s = foldM (fun s x => f s (h x)) l s.
Proof.
  revert s; induction l; intros s; cbn; [reflexivity|].
  destruct (f s (h a)); cbn; auto.
Qed.

Lemma foldM_flat_map {S X Y} (f : S -> Y -> res S) (h : X -> list Y) l s :
  foldM f (flat_map h l) s = foldM (fun s x => foldM f (h x) s) l s.
Proof.
  revert s; induction l; intros s; cbn; [reflexivity|].
  rewrite foldM_app. destruct (foldM f (h a) s); cbn; auto.
Qed.

Lemma foldM_pure {S X} (g : S -> X -> S) l s :
  foldM (fun s x => Ok (g s x)) l s = Ok (fold_left g l s).
Proof. revert s; induction l; intros s; cbn; auto. Qed.

(** Invariant rule for folds: [I done s], where [done] is the prefix processed. *)
Lemma returns_foldM {S X} (I : list X -> S -> Prop) (f : S -> X -> res S) l s (P : S -> Prop) :
  I [] s ->
  (forall pre x post s, l = pre ++ x :: post -> I pre s -> returns (f s x) (I (pre ++ [x]))) ->
  (forall s, I l s -> P s) ->
  returns (foldM f l s) P.
Proof.
  intros H0 Hs Hf.
  enough (forall rest pre s, l = pre ++ rest -> I pre s -> returns (foldM f rest s) P) by (eapply H; [|exact H0]; reflexivity).
  clear s H0. induction rest as [|x rest IH]; intros pre s E HI; cbn.
  - apply Hf. rewrite app_nil_r in E. subst. exact HI.
  - pose proof (Hs pre x rest s E HI) as H. destruct (f s x); cbn in *; [|contradiction].
    apply (IH (pre ++ [x])); [|exact H]. rewrite <- app_assoc. exact E.
Qed.

Lemma returns_for {S} (I : Z -> S -> Prop) lo hi s (body : Z -> S -> res S) (P : S -> Prop) :
  lo <= hi ->
  I lo s ->
  (forall i s, lo <= i < hi -> I i s -> returns (body i s) (I (i + 1))) ->
  (forall s, I hi s -> P s) ->
  returns (for_ lo hi s body) P.
Proof.
  intros Hle H0 Hs Hf. unfold for_.
  assert (Hn : exists n, hi - lo = Z.of_nat n) by (exists (Z.to_nat (hi - lo)); lia).
  destruct Hn as (n & Hn). revert lo s Hle H0 Hs Hn.
  induction n; intros lo s Hle H0 Hs Hn.
  - rewrite zrange_empty by lia. cbn. apply Hf. replace hi with lo by lia. exact H0.
  - rewrite zrange_cons by lia. cbn.
    pose proof (Hs lo s ltac:(lia) H0) as Hb.
    destruct (body lo s); cbn in *; [|contradiction].
    apply IHn; [lia|exact Hb| |lia]. intros; apply Hs; [lia|assumption].
Qed.

Lemma for_empty {S} lo hi (s : S) body : hi <= lo -> for_ lo hi s body = Ok s.
Proof. intros H. unfold for_. rewrite zrange_empty by exact H. reflexivity. Qed.

Lemma for_ext {S} lo hi (s : S) f g :
  (forall i s, lo <= i < hi -> f i s = g i s) -> for_ lo hi s f = for_ lo hi s g.
Proof. intros H. unfold for_. apply foldM_ext. intros t i Hi. apply H, In_zrange, Hi. Qed.

Lemma for_split {S} lo mid hi (s : S) body :
  lo <= mid <= hi -> for_ lo hi s body = (s' <- for_ lo mid s body ;; for_ mid hi s' body).
Proof. intros H. unfold for_. rewrite (zrange_app lo mid hi H). apply foldM_app. Qed.

(** Invariant rule for a loop counting down from [hi] to [lo + 1]. *)
Lemma returns_for_down {S} (I : Z -> S -> Prop) hi lo s (body : Z -> S -> res S) (P : S -> Prop) :
  lo <= hi ->
  I hi s ->
  (forall i s, lo < i <= hi -> I i s -> returns (body i s) (I (i - 1))) ->
  (forall s, I lo s -> P s) ->
  returns (for_down hi lo s body) P.
Proof.
  intros Hle H0 Hs Hf. unfold for_down.
  assert (Hn : exists n, hi - lo = Z.of_nat n) by (exists (Z.to_nat (hi - lo)); lia).
  destruct Hn as (n & Hn). revert hi s Hle H0 Hs Hn.
  induction n; intros hi s Hle H0 Hs Hn.
  - rewrite zrange_empty by lia. cbn. apply Hf. replace lo with hi by lia. exact H0.
  - rewrite zrange_snoc by lia. rewrite rev_app_distr. cbn [rev app foldM].
    replace (hi + 1 - 1) with hi by lia.
    pose proof (Hs hi s ltac:(lia) H0) as Hb.
    destruct (body hi s); cbn in *; [|contradiction].
    replace hi with ((hi - 1) + 1) at 1 by lia.
    apply IHn; [lia|exact Hb| |lia]. intros; apply Hs; [lia|assumption].
Qed.
