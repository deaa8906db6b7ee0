(** Proofs about copied communication packages. *)

From Coq Require Import ZArith List Bool Lia.
From Verif Require Import Base Scalar Spec LoopFacts Dense Sparse Par ParSpec HypreTranspose HypreTransposeSpec ParMatvecSpec HypreSort LifeProofs ParProofs PrintProofs CommPkg CommPkgSpec.
Import ListNotations.
Open Scope Z_scope.

Lemma copied_used mem n l : used mem n l -> copied mem n = Ok l.
Proof.
  intros (L & rest & ->). unfold copied. assert (Hn : 0 <= n) by (rewrite <- L; unfold zlen; lia). rewrite vec_ok by exact Hn. cbn [bind].
  assert (G : returns (for_ 0 n (repeat 0 (Z.to_nat n)) (fun i v => x <- get (l ++ rest) i ;; set v i x))
    (fun v => zlen v = n /\ forall i, 0 <= i < n -> zn 0 v i = zn 0 l i)).
  { apply (returns_for (fun k v => zlen v = n /\ forall i, 0 <= i < k -> zn 0 v i = zn 0 l i)); [exact Hn| | |].
    - split; [unfold zlen; rewrite repeat_length; lia|]. intros; lia.
    - intros k v Hk (Lv & Hv). rewrite (get_ok 0) by (rewrite zlen_app; pose proof (zlen_nonneg rest); lia). cbn [bind]. rewrite set_ok by lia. cbn [returns].
      split; [now rewrite zlen_upd'|]. intros i Hi. rewrite zn_upd by lia. destruct (Z.eqb_spec i k) as [->|].
      + unfold zn. rewrite app_nth1; [reflexivity|]. unfold zlen in L. lia.
      + apply Hv. lia.
    - auto. }
  destruct (for_ 0 n _ _) as [v|]; [|contradiction]. destruct G as (Lv & Hv). f_equal. apply (nth_ext _ _ 0 0).
  - unfold zlen in *. lia.
  - intros k Hk. specialize (Hv (Z.of_nat k)). unfold zn in Hv. rewrite Nat2Z.id in Hv. apply Hv. unfold zlen in Lv. lia.
Qed.

Lemma make_stores h k : stores h k -> make_comm_pkg (Some (Some h)) = Ok (PPkg (zlen (k_sp k)) (zlen (k_rp k)) k).
Proof.
  intros (E1 & U1 & U2 & U3 & E2 & U4 & U5). unfold make_comm_pkg, comm_pkg. cbn [assert_ bind]. rewrite E1, E2.
  rewrite (copied_used _ _ _ U1), (copied_used _ _ _ U2). cbn [bind]. destruct U2 as (L2 & _). pose proof (zlen_nonneg (k_sp k)).
  rewrite (get_ok 0) by lia. cbn [bind]. replace (zlen (k_ss k) - 1) with (zlen (k_sp k)) by lia.
  rewrite (copied_used _ _ _ U3), (copied_used _ _ _ U4), (copied_used _ _ _ U5). cbn [bind]. destruct k. reflexivity.
Qed.

Definition pkg_of (k : commpkg) : ppkg := PPkg (zlen (k_sp k)) (zlen (k_rp k)) k.

Lemma make_all (hs : list hmat) ks : zlen hs = zlen ks -> (forall r h k, get hs r = Ok h -> get ks r = Ok k -> exists m, h = Some m /\ stores m k) ->
  ranks (zlen ks) (fun r => h <- get hs r ;; make_comm_pkg (Some h)) = Ok (map pkg_of ks).
Proof.
  intros L H. rewrite (ranks_ok _ _ (fun r => pkg_of (zn no_pkg ks r))).
  - f_equal. rewrite <- (map_map (fun r => zn no_pkg ks r) pkg_of). f_equal. apply (nth_ext _ _ no_pkg no_pkg).
    + pose proof (zlen_map_zrange (fun r => zn no_pkg ks r) (zlen ks) (zlen_nonneg ks)) as E. unfold zlen in *. lia.
    + intros k Hk. pose proof (zlen_map_zrange (fun r => zn no_pkg ks r) (zlen ks) (zlen_nonneg ks)) as E.
      pose proof (zn_map_zrange no_pkg (fun r => zn no_pkg ks r) (zlen ks) (Z.of_nat k)) as Q. unfold zn in Q at 1. rewrite Nat2Z.id in Q. rewrite Q; [unfold zn; now rewrite Nat2Z.id|]. unfold zlen in *. lia.
  - intros r Hr. rewrite (get_ok (None : hmat)) by lia. cbn [bind]. destruct (H r (zn (None : hmat) hs r) (zn no_pkg ks r)) as (m & E & Hm); [apply get_ok; lia|apply get_ok; lia|].
    unfold hmat in *. rewrite E. apply make_stores. exact Hm.
Qed.

Section Halo.
Context {S : scalar}.
Notation parmat := (parmat S).

Lemma get_some {B} (l : list B) i : 0 <= i < zlen l -> exists b, get l i = Ok b.
Proof.
  destruct l as [|d l']; intros Hi; [unfold zlen in Hi; cbn in Hi; lia|]. exists (zn d (d :: l') i). apply get_ok. exact Hi.
Qed.

Lemma segment_item M N (As : list parmat) ks xs X r q A kr kq i j xq c : distributed M N As -> packages As ks -> holds pm_cs As xs X ->
  get As r = Ok A -> get ks r = Ok kr -> 0 <= i < zlen (k_rp kr) -> zn 0 (k_rs kr) i <= c < zn 0 (k_rs kr) (i + 1) ->
  zn 0 (k_rp kr) i = q -> get ks q = Ok kq -> 0 <= j < zlen (k_sp kq) -> zn 0 (k_sp kq) j = r -> get xs q = Ok xq ->
  get xq (zn 0 (k_se kq) (zn 0 (k_ss kq) j + (c - zn 0 (k_rs kr) i))) = Ok (X (zn 0 (pm_map A) c)).
Proof.
  intros D P ((Lx & Fx) & Hx) HA Kr Hi Bc Eq Kq Hj Ej Xq. pose proof (pk_len _ _ P) as Lk. pose proof (proj1 (get_range _ _ _ Kq)) as Rq.
  destruct (get_some As q ltac:(lia)) as (B & HB). destruct (pk_match _ _ P r q A B kr kq i j HA HB Kr Kq Hi Eq Hj Ej) as (Es & Ht).
  specialize (Ht (c - zn 0 (k_rs kr) i) ltac:(lia)). replace (zn 0 (k_rs kr) i + (c - zn 0 (k_rs kr) i)) with c in Ht by lia.
  destruct (pk_send _ _ P q B kq HB Kq) as (_ & Sg & Se). pose proof (segments_bounds _ _ _ j Sg ltac:(lia)) as B1. pose proof (segments_bounds _ _ _ (j + 1) Sg ltac:(lia)) as B2.
  set (e := zn 0 (k_se kq) (zn 0 (k_ss kq) j + (c - zn 0 (k_rs kr) i))) in *.
  assert (He : 0 <= e < pm_cols B) by (apply Se; lia). destruct (ds_valid _ _ _ D q B HB) as (V & _). pose proof (pv_dcols _ V) as Ec. pose proof (Fx q B xq HB Xq) as Fq.
  unfold pm_cols in He. rewrite (get_ok s0) by lia. f_equal. rewrite (Hx q B xq e HB Xq) by lia. now rewrite <- Ht.
Qed.

(** The values of the columns of the offd block arrive, and nothing else does. *)
Lemma halo_arrives M N (As : list parmat) ks xs X r A c : distributed M N As -> packages As ks -> holds pm_cs As xs X ->
  get As r = Ok A -> 0 <= c < zlen (pm_map A) -> forall v, arrives ks xs r c v <-> v = X (zn 0 (pm_map A) c).
Proof.
  intros D P H HA Hc v. split.
  - intros (kr & i & kq & j & xq & Kr & Hi & Bc & Kq & Hj & Ej & Xq & Gv).
    rewrite (segment_item M N As ks xs X r _ A kr kq i j xq c D P H HA Kr Hi Bc eq_refl Kq Hj Ej Xq) in Gv. now apply Ok_inj in Gv.
  - intros ->. pose proof (pk_len _ _ P) as Lk. pose proof (proj1 (get_range _ _ _ HA)) as Rr. destruct (get_some ks r ltac:(lia)) as (kr & Kr).
    destruct (pk_recv _ _ P r A kr HA Kr) as (_ & Sg). destruct (segments_owner _ _ _ c (zlen_nonneg _) Sg Hc) as (i & Hi & Bc).
    destruct (pk_from _ _ P r kr i Kr Hi) as (kq & Kq & Iq). destruct (In_zn 0 _ _ Iq) as (j & Hj & Ej). pose proof (proj1 (get_range _ _ _ Kq)) as Rq.
    destruct (get_some xs (zn 0 (k_rp kr) i)) as (xq & Xq); [destruct H as ((Lx & _) & _); lia|].
    exists kr, i, kq, j, xq. do 7 (split; [assumption|]). exact (segment_item M N As ks xs X r _ A kr kq i j xq c D P H HA Kr Hi Bc eq_refl Kq Hj Ej Xq).
Qed.

(** What the ranks have after MakeCommPkg is hypre's package. *)
Lemma made_halo M N (As : list parmat) ks hs xs X : distributed M N As -> packages As ks -> zlen hs = zlen As ->
  (forall r h k, get hs r = Ok h -> get ks r = Ok k -> exists m, h = Some m /\ stores m k) -> holds pm_cs As xs X ->
  exists made, ranks (zlen As) (fun r => h <- get hs r ;; make_comm_pkg (Some h)) = Ok made /\
    forall r A c, get As r = Ok A -> 0 <= c < zlen (pm_map A) -> forall v, arrives (map pk_arrays made) xs r c v <-> v = X (zn 0 (pm_map A) c).
Proof.
  intros D P L Hs H. pose proof (pk_len _ _ P) as Lk. exists (map pkg_of ks). split.
  - rewrite <- Lk. apply make_all; [rewrite Lk; exact L|exact Hs].
  - rewrite map_map. cbn [pkg_of pk_arrays]. rewrite map_id. intros r A c HA Hc. exact (halo_arrives M N As ks xs X r A c D P H HA Hc).
Qed.

End Halo.
