(** Two loop shapes that occur all over the code. *)

From Coq Require Import ZArith List Lia Bool Permutation.
From Verif Require Import Base.
Import ListNotations.
Open Scope Z_scope.

Lemma res_of_returns {A} (m : res A) a : returns m (fun b => b = a) -> m = Ok a.
Proof. destruct m; cbn; [intros ->; reflexivity|contradiction]. Qed.

(** for (i = 0; i < n; ++i) out[i] = f(i); *)
Lemma for_fill {A} (d : A) (f : Z -> A) (m : Z -> list A -> res A) n (out : list A) :
  zlen out = n ->
  (forall i o, 0 <= i < n -> m i o = Ok (f i)) ->
  for_ 0 n out (fun i out => v <- m i out ;; set out i v) = Ok (map f (zrange 0 n)).
Proof.
  intros Hl Hm. pose proof (zlen_nonneg out). apply res_of_returns.
  apply (returns_for (fun i o => zlen o = n /\ forall k, 0 <= k < i -> zn d o k = f k)).
  - lia.
  - split; [exact Hl|]. intros; lia.
  - intros i o Hi (Ho & Hk). rewrite Hm by exact Hi. cbn. apply returns_set; [lia|].
    rewrite zlen_upd. split; [exact Ho|]. intros k Hk'. rewrite zn_upd by lia.
    destruct (Z.eqb_spec k i); [subst; reflexivity|]. apply Hk. lia.
  - intros o (Ho & Hk). apply (list_ext d).
    + rewrite zlen_map, zlen_zrange by lia. lia.
    + intros i Hi. rewrite Hk by lia. rewrite (zn_map 0) by (rewrite zlen_zrange by lia; lia).
      rewrite zn_zrange by lia. reflexivity.
Qed.

(** for (e : l) out[key(e)] = f(out[key(e)], e); *)
Lemma scatter {A X} (d : A) (key : X -> Z) (f : A -> X -> A) (body : list A -> X -> res (list A)) l (out : list A) :
  (forall e, In e l -> 0 <= key e < zlen out) ->
  (forall e o, In e l -> zlen o = zlen out ->
     body o e = Ok (upd o (Z.to_nat (key e)) (f (zn d o (key e)) e))) ->
  exists out', foldM body l out = Ok out' /\ zlen out' = zlen out /\
    forall j, 0 <= j < zlen out ->
      zn d out' j = fold_left f (filter (fun e => key e =? j) l) (zn d out j).
Proof.
  revert out. induction l as [|e l IH]; intros out Hk Hb.
  - exists out. cbn. auto.
  - cbn [foldM]. rewrite Hb by (auto; left; reflexivity). cbn [bind].
    assert (He : 0 <= key e < zlen out) by (apply Hk; left; reflexivity).
    destruct (IH (upd out (Z.to_nat (key e)) (f (zn d out (key e)) e))) as (out' & E & Hl & Hv).
    + intros e' He'. rewrite zlen_upd. apply Hk. right; assumption.
    + intros e' o He' Ho. rewrite zlen_upd in Ho. apply Hb; [right|]; assumption.
    + exists out'. rewrite zlen_upd in *. split; [exact E|]. split; [exact Hl|].
      intros j Hj. rewrite Hv by exact Hj. rewrite zn_upd by lia. cbn [filter].
      rewrite (Z.eqb_sym (key e) j). destruct (Z.eqb_spec j (key e)); subst; reflexivity.
Qed.

Lemma zn_map_zrange {A} (d : A) (f : Z -> A) n i : 0 <= i < n -> zn d (map f (zrange 0 n)) i = f i.
Proof.
  intros H. rewrite (zn_map 0) by (rewrite zlen_zrange by lia; lia). rewrite zn_zrange by lia. reflexivity.
Qed.

Lemma zlen_map_zrange {A} (f : Z -> A) n : 0 <= n -> zlen (map f (zrange 0 n)) = n.
Proof. intros H. rewrite zlen_map, zlen_zrange by lia. lia. Qed.

Lemma zn_map_const {A B} (d b : B) (l : list A) i : 0 <= i < zlen l -> zn d (map (fun _ => b) l) i = b.
Proof.
  intros H. destruct l as [|a l]; [unfold zlen in H; cbn in H; lia|].
  now rewrite (zn_map a) by exact H.
Qed.

Lemma fold_left_ext_in {A X} (f g : A -> X -> A) l a :
  (forall a x, In x l -> f a x = g a x) -> fold_left f l a = fold_left g l a.
Proof.
  revert a; induction l; intros b H; cbn; [reflexivity|].
  rewrite H by (left; reflexivity). apply IHl. intros; apply H; right; assumption.
Qed.

Lemma fold_left_map {A X Y} (f : A -> Y -> A) (h : X -> Y) l a :
  fold_left f (map h l) a = fold_left (fun a x => f a (h x)) l a.
Proof. revert a; induction l; intros b; cbn; auto. Qed.

Lemma foldM_pure_in {St X} (f : St -> X -> res St) (g : St -> X -> St) l s :
  (forall s x, In x l -> f s x = Ok (g s x)) -> foldM f l s = Ok (fold_left g l s).
Proof. intros H. rewrite <- foldM_pure. apply foldM_ext. exact H. Qed.
