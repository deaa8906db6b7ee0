(** Block vectors and block operators after a move: proofs. *)

From Coq Require Import ZArith List Lia Bool.
From Verif Require Import Base Scalar Life LifeSpec LifeProofs.
Import ListNotations.
Open Scope Z_scope.

Section More.
Context {S : scalar}.

Lemma bv_moved (st : list (bvec S)) y : 0 <= y < zlen st ->
  exists st' o o', lrun bv_class st [LMove y] = Ok st' /\ get st y = Ok o /\ get st' (zlen st) = Ok o /\
    get st' y = Ok o' /\ bv_data o' = [] /\ bv_offs o' = [].
Proof.
  intros H. assert (Hs : forall a b : bvec S, k_swap bv_class a b = (b, a)) by (now intros [] []).
  destruct (get_ex st y H) as (o & E & _). unfold lrun. cbn [foldM lstep]. rewrite E. cbn [bind]. unfold move_ctor. rewrite Hs.
  rewrite set_upd by exact H. cbn [bind]. exists (upd st (Z.to_nat y) (k_fresh bv_class) ++ [o]), o, (k_fresh bv_class).
  split; [reflexivity|]. split; [reflexivity|]. split.
  - unfold get. destruct (Z.ltb_spec (zlen st) 0); [pose proof (zlen_nonneg st); lia|].
    pose proof (zlen_upd' st (Z.to_nat y) (k_fresh bv_class)) as L. rewrite nth_error_app2 by (unfold zlen in *; lia).
    replace (Z.to_nat (zlen st) - length (upd st (Z.to_nat y) (k_fresh bv_class)))%nat with 0%nat by (unfold zlen in *; lia). reflexivity.
  - split; [now apply get_upd_same|]. split; reflexivity.
Qed.

Lemma bo_moved (st : list (bobj S)) y : 0 <= y < zlen st ->
  exists st' o o' n, lrun bo_class st [LMove y] = Ok st' /\ get st y = Ok o /\ get st' (zlen st) = Ok n /\ bo_value n = bo_value o /\
    get st' y = Ok o' /\ bo_value o' = (0, 0, [], [], [], BVec [] [0], BVec [] [0]) /\ bo_tmp_ o' = bo_tmp_ o.
Proof.
  intros H. destruct (get_ex st y H) as (o & E & _). unfold lrun. cbn [foldM lstep]. rewrite E. cbn [bind].
  set (m := move_ctor bo_class o). rewrite (surjective_pairing m).
  rewrite set_upd by exact H. cbn [bind]. exists (upd st (Z.to_nat y) (snd m) ++ [fst m]), o, (snd m), (fst m).
  split; [reflexivity|]. split; [reflexivity|]. split.
  - unfold get. destruct (Z.ltb_spec (zlen st) 0); [pose proof (zlen_nonneg st); lia|].
    pose proof (zlen_upd' st (Z.to_nat y) (snd m)) as L. rewrite nth_error_app2 by (unfold zlen in *; lia).
    replace (Z.to_nat (zlen st) - length (upd st (Z.to_nat y) (snd m)))%nat with 0%nat by (unfold zlen in *; lia). reflexivity.
  - split; [subst m; now destruct o as [? ? ? ? ? [] [] ?]|]. split; [now apply get_upd_same|].
    subst m; now destruct o as [? ? ? ? ? [] [] ?].
Qed.
End More.
