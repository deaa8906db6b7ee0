(** Accumulating (key, value) pairs in first-seen order: what the marker arrays of
    the sparse product and the maps of CooMatrix::ToSparse compute for one row.
    Proof device. *)

From Coq Require Import ZArith List Lia Bool Permutation.
From Verif Require Import Base Scalar Spec LoopFacts CsrFacts SumFacts.
Import ListNotations.
Open Scope Z_scope.

Section Accum.
Context {T : Type} (plus : T -> T -> T) (init : T -> T).

Fixpoint acc_add (l : list (Z * T)) (c : Z) (v : T) : list (Z * T) :=
  match l with
  | [] => [(c, init v)]
  | (c', v') :: l' => if c' =? c then (c', plus v' v) :: l' else (c', v') :: acc_add l' c v
  end.

Definition acc_from (a l : list (Z * T)) : list (Z * T) :=
  fold_left (fun a p => acc_add a (fst p) (snd p)) l a.
Definition acc (l : list (Z * T)) : list (Z * T) := acc_from [] l.

Lemma acc_add_new l c v : ~ In c (map fst l) -> acc_add l c v = l ++ [(c, init v)].
Proof.
  induction l as [|[c' v'] l IH]; cbn; intros H; [reflexivity|].
  destruct (Z.eqb_spec c' c); [tauto|]. now rewrite IH by tauto.
Qed.

Lemma acc_add_old l c v d : In c (map fst l) ->
  exists t, 0 <= t < zlen l /\ fst (zn d l t) = c /\
    acc_add l c v = upd l (Z.to_nat t) (c, plus (snd (zn d l t)) v).
Proof.
  induction l as [|[c' v'] l IH]; cbn [map In acc_add]; intros H; [contradiction|].
  destruct (Z.eqb_spec c' c) as [->|Hne].
  - exists 0. rewrite zlen_cons. pose proof (zlen_nonneg l). repeat split; lia.
  - destruct IH as (t & Ht & Hf & E); [cbn in H; tauto|]. exists (t + 1).
    rewrite zlen_cons. split; [lia|]. rewrite zn_cons_pos by lia.
    replace (t + 1 - 1) with t by lia. split; [exact Hf|].
    replace (Z.to_nat (t + 1)) with (S (Z.to_nat t)) by lia. cbn. now rewrite E.
Qed.

Lemma acc_add_keys l c v :
  map fst (acc_add l c v) = if existsb (Z.eqb c) (map fst l) then map fst l else map fst l ++ [c].
Proof.
  induction l as [|[c' v'] l IH]; cbn; [reflexivity|].
  rewrite (Z.eqb_sym c c'). destruct (Z.eqb_spec c' c); cbn; [reflexivity|].
  rewrite IH. destruct (existsb (Z.eqb c) (map fst l)); reflexivity.
Qed.

Lemma existsb_In c l : existsb (Z.eqb c) l = true <-> In c l.
Proof.
  rewrite existsb_exists. split.
  - intros (x & Hx & E). apply Z.eqb_eq in E. now subst.
  - intros H. exists c. split; [exact H|apply Z.eqb_refl].
Qed.

Lemma existsb_not_In c l : existsb (Z.eqb c) l = false <-> ~ In c l.
Proof. rewrite <- existsb_In. destruct (existsb (Z.eqb c) l); split; congruence. Qed.

Lemma NoDup_snoc {X} (l : list X) a : NoDup l -> ~ In a l -> NoDup (l ++ [a]).
Proof.
  intros H Ha. apply (Permutation_NoDup (l := a :: l)); [apply Permutation_cons_append|].
  now constructor.
Qed.

Lemma acc_add_NoDup l c v : NoDup (map fst l) -> NoDup (map fst (acc_add l c v)).
Proof.
  intros H. rewrite acc_add_keys. destruct (existsb (Z.eqb c) (map fst l)) eqn:E; [exact H|].
  apply existsb_not_In in E. now apply NoDup_snoc.
Qed.

Lemma acc_from_NoDup l : forall a, NoDup (map fst a) -> NoDup (map fst (acc_from a l)).
Proof.
  induction l as [|p l IH]; intros a H; [exact H|]. cbn. apply IH, acc_add_NoDup, H.
Qed.

Lemma acc_NoDup l : NoDup (map fst (acc l)).
Proof. apply acc_from_NoDup. constructor. Qed.

Lemma acc_add_In_keys l c v k : In k (map fst (acc_add l c v)) <-> In k (map fst l) \/ k = c.
Proof.
  rewrite acc_add_keys. destruct (existsb (Z.eqb c) (map fst l)) eqn:E.
  - apply existsb_In in E. split; [tauto|]. intros [H| ->]; assumption.
  - rewrite in_app_iff. cbn. intuition.
Qed.

Lemma acc_from_In_keys l : forall a k, In k (map fst (acc_from a l)) <-> In k (map fst a) \/ In k (map fst l).
Proof.
  induction l as [|[c v] l IH]; intros a k; cbn; [tauto|].
  fold (acc_from (acc_add a c v) l). rewrite IH, acc_add_In_keys. cbn. intuition.
Qed.

Lemma acc_In_keys l k : In k (map fst (acc l)) <-> In k (map fst l).
Proof. unfold acc. rewrite acc_from_In_keys. cbn. tauto. Qed.

Lemma acc_snoc l c v : acc (l ++ [(c, v)]) = acc_add (acc l) c v.
Proof. unfold acc, acc_from. rewrite fold_left_app. reflexivity. Qed.

Lemma acc_app_len l1 l2 : zlen (acc l1) <= zlen (acc (l1 ++ l2)).
Proof.
  revert l1. induction l2 as [|[c v] l2 IH]; intros l1; [rewrite app_nil_r; lia|].
  replace (l1 ++ (c, v) :: l2) with ((l1 ++ [(c, v)]) ++ l2) by (rewrite <- app_assoc; reflexivity).
  etransitivity; [|apply IH]. rewrite acc_snoc.
  rewrite <- (zlen_map fst (acc_add _ _ _)), acc_add_keys, <- (zlen_map fst (acc l1)).
  destruct (existsb _ _); [lia|]. rewrite zlen_app, zlen_cons, zlen_nil. lia.
Qed.

(** Distinct keys in first-seen order. *)
Definition keys (l : list Z) : list Z :=
  fold_left (fun ks c => if existsb (Z.eqb c) ks then ks else ks ++ [c]) l [].

Lemma keys_snoc l c : keys (l ++ [c]) = if existsb (Z.eqb c) (keys l) then keys l else keys l ++ [c].
Proof. unfold keys. now rewrite fold_left_app. Qed.

Lemma acc_keys l : map fst (acc l) = keys (map fst l).
Proof.
  induction l as [|[c v] l IH] using rev_ind; [reflexivity|].
  rewrite acc_snoc, map_app, acc_add_keys. cbn [map]. rewrite keys_snoc. now rewrite IH.
Qed.

Lemma keys_In l c : In c (keys l) <-> In c l.
Proof.
  revert c. induction l as [|b l IH] using rev_ind; intros c; [reflexivity|].
  rewrite keys_snoc, in_app_iff. cbn. destruct (existsb (Z.eqb b) (keys l)) eqn:E.
  - apply existsb_In in E. rewrite IH in E. rewrite IH. split; [tauto|].
    intros [H|[<-|[]]]; assumption.
  - rewrite in_app_iff, IH. cbn. tauto.
Qed.

End Accum.

(** Accumulation keeps the sum for every key. *)
Section AccSum.
Context {S : scalar}.
Hypothesis R : ring_laws S.
Notation T := (car S).
Context (init : T -> T) (Hinit : forall v, init v = v).

Definition key_sum (l : list (Z * T)) (c : Z) : T :=
  sum_list (map (fun p => if fst p =? c then snd p else s0) l).

Lemma acc_add_sum l c v k :
  key_sum (acc_add sadd init l c v) k = sadd (key_sum l k) (if c =? k then v else s0).
Proof.
  induction l as [|[c' v'] l IH]; cbn [acc_add].
  - unfold key_sum. cbn. rewrite Hinit. now apply sadd_comm.
  - unfold key_sum in *. destruct (Z.eqb_spec c' c) as [->|Hne].
    + cbn [map fst snd]. rewrite !sum_cons. destruct (c =? k).
      * rewrite <- !sadd_assoc by exact R. f_equal. now apply sadd_comm.
      * now rewrite !sadd_0_l, sadd_0_r by exact R.
    + cbn [map fst snd]. rewrite !sum_cons. rewrite IH. now rewrite sadd_assoc by exact R.
Qed.

Lemma key_sum_nil k : key_sum [] k = s0.
Proof. reflexivity. Qed.

Lemma key_sum_cons c v l k : key_sum ((c, v) :: l) k = sadd (if c =? k then v else s0) (key_sum l k).
Proof. reflexivity. Qed.

Lemma acc_from_sum l k : forall a, key_sum (acc_from sadd init a l) k = sadd (key_sum a k) (key_sum l k).
Proof.
  induction l as [|[c v] l IH]; intros a.
  - rewrite key_sum_nil. now rewrite sadd_0_r by exact R.
  - change (acc_from sadd init a ((c, v) :: l)) with (acc_from sadd init (acc_add sadd init a c v) l).
    rewrite IH, acc_add_sum, key_sum_cons. now rewrite sadd_assoc by exact R.
Qed.

Lemma acc_sum l k : key_sum (acc sadd init l) k = key_sum l k.
Proof. unfold acc. rewrite acc_from_sum, key_sum_nil. now rewrite sadd_0_l by exact R. Qed.

End AccSum.
