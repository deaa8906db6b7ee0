(** Proofs about the products with vectors. *)

From Coq Require Import ZArith List Bool Lia.
From Verif Require Import Base Scalar Spec Dense Sparse SumFacts LoopFacts CsrFacts Eigen EigenProofs Par ParSpec ParProofs ParSplitProofs HypreTransposeSpec ParMatvec ParMatvecSpec.
Import ListNotations.
Open Scope Z_scope.

(** A rank that fails an assertion ends the run. *)
Lemma ranks_fail {A} p (f : Z -> res A) : (forall r, 0 <= r < p -> (exists a, f r = Ok a) \/ f r = Fail FAssert) ->
  (exists r, 0 <= r < p /\ f r = Fail FAssert) -> ranks p f = Fail FAssert.
Proof.
  intros H (r & Hr & E). unfold ranks. rewrite (zrange_app 0 r p) by lia. rewrite foldM_app.
  assert (H' : forall acc : list A, exists l, foldM (fun acc r => x <- f r ;; Ok (acc ++ [x])) (zrange 0 r) acc = Ok l \/
                         foldM (fun acc r => x <- f r ;; Ok (acc ++ [x])) (zrange 0 r) acc = Fail FAssert).
  { assert (G : forall q, In q (zrange 0 r) -> (exists a, f q = Ok a) \/ f q = Fail FAssert) by (intros q Hq; apply In_zrange in Hq; apply H; lia).
    induction (zrange 0 r) as [|q l IH]; intros acc; cbn [foldM]; [exists acc; auto|].
    destruct (G q) as [(a & ->)| ->]; [now left| |]; cbn [bind].
    - apply IH. intros q' Hq'. apply G. now right.
    - exists []. now right. }
  specialize (H' []).
  destruct H' as (l & [-> | ->]); cbn [bind]; [|reflexivity].
  rewrite zrange_cons by lia. cbn [foldM]. rewrite E. reflexivity.
Qed.

Section ParMatvec.
Context {S : scalar}.
Notation T := (car S).
Notation parmat := (parmat S).
Implicit Types (H : hypre S) (As : list parmat).

Definition vnone : hvec S := HVec [] [].

Lemma at_rank As r : 0 <= r < zlen As -> get As r = Ok (zn pm_none As r).
Proof. intros H. now apply get_ok. Qed.

Lemma drows M N As : distributed M N As -> forall r, 0 <= r < zlen As ->
  let A := zn pm_none As r in c_rows (pm_diag A) = zn 0 (pm_rs A) 1 - zn 0 (pm_rs A) 0 /\ c_cols (pm_diag A) = zn 0 (pm_cs A) 1 - zn 0 (pm_cs A) 0 /\
    0 <= c_rows (pm_diag A) /\ 0 <= c_cols (pm_diag A) /\ pm_grows A = M /\ pm_gcols A = N /\ pm_valid A.
Proof.
  intros D r Hr A. destruct (ds_valid _ _ _ D r A (at_rank As r Hr)) as (V & E1 & E2).
  pose proof (pv_drows A V). pose proof (pv_dcols A V). pose proof (pv_rrange A V). pose proof (pv_crange A V). repeat (split; [lia|]). exact V.
Qed.

(** What a rank holds before and after: lists by rank *)
Definition by_rank (p : Z) (n : Z -> Z) (f : Z -> Z -> T) : list (list T) := map (fun r => map (f r) (zrange 0 (n r))) (zrange 0 p).

Lemma map_const_zeros (l : list T) : map (fun _ => s0) l = repeat (@s0 S) (length l).
Proof. induction l as [|a l IH]; [reflexivity|]. cbn. now rewrite IH. Qed.

Lemma zlen_zeros (l : list T) : zlen (map (fun _ => @s0 S) l) = zlen l.
Proof. apply zlen_map. Qed.

Definition nrows As r := c_rows (pm_diag (zn pm_none As r)).
Definition ncols As r := c_cols (pm_diag (zn pm_none As r)).
Definition with_part (part : parmat -> list Z) As (vs : list (list T)) : list (hvec S) :=
  map (fun r => HVec (part (zn pm_none As r)) (zn [] vs r)) (zrange 0 (zlen As)).
Definition cleared (vs : list (list T)) : list (list T) := map (map (fun _ => s0)) vs.

Lemma zn_cleared (vs : list (list T)) r : 0 <= r < zlen vs -> zn [] (cleared vs) r = map (fun _ => s0) (zn [] vs r).
Proof. intros Hr. unfold cleared. now rewrite (zn_map [] []) by exact Hr. Qed.

Lemma fits_len part As vs : fits part As vs -> forall r, 0 <= r < zlen As ->
  zlen (zn [] vs r) = zn 0 (part (zn pm_none As r)) 1 - zn 0 (part (zn pm_none As r)) 0.
Proof. intros (L & F) r Hr. apply (F r); [now apply at_rank|]. apply get_ok. lia. Qed.

Lemma with_part_laid part As vs : laid part As (with_part part As vs).
Proof.
  pose proof (zlen_nonneg As) as Hp. unfold with_part. split; [rewrite zlen_map_zrange; lia|].
  intros r A v EA Ev. apply (get_Ok_inv pm_none) in EA. destruct EA as (Hr & ->). apply (get_Ok_inv vnone) in Ev. destruct Ev as (_ & ->).
  rewrite zn_map_zrange by lia. reflexivity.
Qed.

Lemma with_part_data part As vs : zlen vs = zlen As -> map hv_data (with_part part As vs) = vs.
Proof.
  intros L. unfold with_part. rewrite map_map. cbn [hv_data]. rewrite <- L. apply map_zn_zrange.
Qed.

Lemma fits_cleared part As vs : fits part As vs -> fits part As (cleared vs).
Proof.
  intros (L & F). split; [unfold cleared; now rewrite zlen_map|]. intros r A v EA Ev.
  apply (get_Ok_inv []) in Ev. destruct Ev as (Hr & ->). unfold cleared in Hr. rewrite zlen_map in Hr.
  rewrite zn_cleared by exact Hr. rewrite zlen_map. apply (F r A); [exact EA|]. now apply get_ok.
Qed.

Lemma view_mult_run H M N As ins outs :
  distributed M N As -> fits pm_cs As ins -> fits pm_rs As outs ->
  view_mult H As ins outs = Ok (by_rank (zlen As) (nrows As) (hy_matvec H As (with_part pm_rs As ins) (with_part pm_cs As (cleared outs)))).
Proof.
  intros D Fi Fo. pose proof (proj1 Fi) as Li. pose proof (proj1 Fo) as Lo. unfold view_mult. cbv zeta.
  rewrite (ranks_ok _ _ (fun r => HVec (pm_rs (zn pm_none As r)) (zn [] ins r))).
  2: { intros r Hr. rewrite (at_rank As r Hr). cbn [bind]. rewrite (get_ok []) by lia. cbn [bind]. rewrite (get_ok []) by lia. cbn [bind].
       destruct (drows _ _ _ D r Hr) as (E1 & E2 & _). rewrite (fits_len _ _ _ Fi r Hr), (fits_len _ _ _ Fo r Hr), E1, E2, !Z.eqb_refl. reflexivity. }
  cbn [bind]. rewrite (ranks_ok _ _ (fun r => HVec (pm_cs (zn pm_none As r)) (zn [] (cleared outs) r))).
  2: { intros r Hr. rewrite (at_rank As r Hr). cbn [bind]. rewrite (get_ok []) by lia. cbn [bind]. now rewrite zn_cleared by lia. }
  cbn [bind]. apply ranks_ok. intros r Hr. rewrite (at_rank As r Hr). cbn [bind].
  rewrite (get_ok vnone) by (rewrite zlen_map_zrange; lia). cbn [bind]. rewrite zn_map_zrange by lia. cbn [hv_data].
  destruct (drows _ _ _ D r Hr) as (E1 & E2 & _).
  rewrite zn_cleared by lia. rewrite writes_all by (rewrite zlen_map, (fits_len _ _ _ Fo r Hr); lia). reflexivity.
Qed.

Lemma view_multAT_run H M N As ins outs :
  distributed M N As -> fits pm_rs As ins -> fits pm_cs As outs ->
  view_multAT H As ins outs = Ok (by_rank (zlen As) (ncols As) (hy_matvecT H As (with_part pm_cs As ins) (with_part pm_rs As (cleared outs)))).
Proof.
  intros D Fi Fo. pose proof (proj1 Fi) as Li. pose proof (proj1 Fo) as Lo. unfold view_multAT. cbv zeta.
  rewrite (ranks_ok _ _ (fun r => HVec (pm_cs (zn pm_none As r)) (zn [] ins r))).
  2: { intros r Hr. rewrite (at_rank As r Hr). cbn [bind]. rewrite (get_ok []) by lia. cbn [bind]. rewrite (get_ok []) by lia. cbn [bind].
       destruct (drows _ _ _ D r Hr) as (E1 & E2 & _). rewrite (fits_len _ _ _ Fi r Hr), (fits_len _ _ _ Fo r Hr), E1, E2, !Z.eqb_refl. reflexivity. }
  cbn [bind]. rewrite (ranks_ok _ _ (fun r => HVec (pm_rs (zn pm_none As r)) (zn [] (cleared outs) r))).
  2: { intros r Hr. rewrite (at_rank As r Hr). cbn [bind]. rewrite (get_ok []) by lia. cbn [bind]. now rewrite zn_cleared by lia. }
  cbn [bind]. apply ranks_ok. intros r Hr. rewrite (at_rank As r Hr). cbn [bind].
  rewrite (get_ok vnone) by (rewrite zlen_map_zrange; lia). cbn [bind]. rewrite zn_map_zrange by lia. cbn [hv_data].
  destruct (drows _ _ _ D r Hr) as (E1 & E2 & _).
  rewrite zn_cleared by lia. rewrite writes_all by (rewrite zlen_map, (fits_len _ _ _ Fo r Hr); lia). reflexivity.
Qed.

Lemma by_rank_holds (part : parmat -> list Z) As n f (X : vect S) :
  (forall r, 0 <= r < zlen As -> n r = zn 0 (part (zn pm_none As r)) 1 - zn 0 (part (zn pm_none As r)) 0 /\ 0 <= n r) ->
  (forall r i, 0 <= r < zlen As -> 0 <= i < n r -> f r i = X (zn 0 (part (zn pm_none As r)) 0 + i)) ->
  holds part As (by_rank (zlen As) n f) X.
Proof.
  intros Hn Hf. pose proof (zlen_nonneg As) as Hp. unfold by_rank.
  assert (L : zlen (map (fun r => map (f r) (zrange 0 (n r))) (zrange 0 (zlen As))) = zlen As) by (rewrite zlen_map_zrange; lia).
  split; [split; [exact L|]|].
  - intros r A v EA Ev. apply (get_Ok_inv pm_none) in EA. destruct EA as (Hr & ->). apply (get_Ok_inv []) in Ev. destruct Ev as (_ & ->).
    rewrite zn_map_zrange by lia. destruct (Hn r Hr) as (E & Hn0). rewrite zlen_map_zrange; lia.
  - intros r A v i EA Ev Hi. apply (get_Ok_inv pm_none) in EA. destruct EA as (Hr & ->). apply (get_Ok_inv []) in Ev. destruct Ev as (_ & ->).
    rewrite zn_map_zrange in * by lia. destruct (Hn r Hr) as (E & Hn0). rewrite zlen_map_zrange in Hi by lia.
    rewrite zn_map_zrange by lia. apply Hf; lia.
Qed.

(* ---------------------------------------------------------------- the overloads for views *)

Lemma same_split_laid As vs : same_split As -> laid pm_cs As (with_part pm_rs As vs) /\ laid pm_rs As (with_part pm_cs As vs).
Proof.
  intros E. destruct (with_part_laid pm_rs As vs) as (L1 & F1). destruct (with_part_laid pm_cs As vs) as (L2 & F2).
  split; split; try assumption; intros r A v EA Ev; [rewrite (F1 r A v EA Ev)|rewrite (F2 r A v EA Ev)]; [|symmetry]; exact (E r A EA).
Qed.

Lemma view_mult_value H M N As ins outs X :
  multiplies H -> distributed M N As -> tiles pm_cs N As -> same_split As -> holds pm_cs As ins X -> fits pm_rs As outs ->
  exists ys, view_mult H As ins outs = Ok ys /\ holds pm_rs As ys (mat_vec (world_mat As) N X).
Proof.
  intros MU D C E HX Fo. rewrite (view_mult_run H M N) by (auto; apply HX). eexists. split; [reflexivity|].
  apply by_rank_holds.
  - intros r Hr. destruct (drows _ _ _ D r Hr) as (E1 & E2 & E3 & _). unfold nrows. lia.
  - intros r i Hr Hi. destruct (same_split_laid As ins E) as (L1 & _). destruct (same_split_laid As (cleared outs) E) as (_ & L2).
    apply (mu_matvec H MU M N); auto.
    + rewrite with_part_data; [exact HX|apply HX].
    + rewrite with_part_data by (unfold cleared; rewrite zlen_map; apply Fo). now apply fits_cleared.
    + now apply at_rank.
Qed.

Lemma view_multAT_value H M N As ins outs X :
  multiplies H -> distributed M N As -> tiles pm_rs M As -> same_split As -> holds pm_rs As ins X -> fits pm_cs As outs ->
  exists ys, view_multAT H As ins outs = Ok ys /\ holds pm_cs As ys (mat_vec (mat_T (world_mat As)) M X).
Proof.
  intros MU D C E HX Fo. rewrite (view_multAT_run H M N) by (auto; apply HX). eexists. split; [reflexivity|].
  apply by_rank_holds.
  - intros r Hr. destruct (drows _ _ _ D r Hr) as (E1 & E2 & E3 & E4 & _). unfold ncols. lia.
  - intros r i Hr Hi. destruct (same_split_laid As ins E) as (_ & L1). destruct (same_split_laid As (cleared outs) E) as (L2 & _).
    apply (mu_matvecT H MU M N); auto.
    + rewrite with_part_data; [exact HX|apply HX].
    + rewrite with_part_data by (unfold cleared; rewrite zlen_map; apply Fo). now apply fits_cleared.
    + now apply at_rank.
Qed.

Lemma fresh_fits (part : parmat -> list Z) As n :
  (forall r, 0 <= r < zlen As -> n (zn pm_none As r) = zn 0 (part (zn pm_none As r)) 1 - zn 0 (part (zn pm_none As r)) 0 /\ 0 <= n (zn pm_none As r)) ->
  exists outs, ranks (zlen As) (fun r => A <- get As r ;; vec (n A) (@s0 S)) = Ok outs /\ fits part As outs.
Proof.
  intros Hn. pose proof (zlen_nonneg As) as Hp. rewrite (ranks_ok _ _ (fun r => repeat (@s0 S) (Z.to_nat (n (zn pm_none As r))))).
  2: { intros r Hr. rewrite (at_rank As r Hr). cbn [bind]. apply vec_ok. apply Hn. exact Hr. }
  eexists. split; [reflexivity|]. split; [rewrite zlen_map_zrange; lia|].
  intros r A v EA Ev. apply (get_Ok_inv pm_none) in EA. destruct EA as (Hr & ->). apply (get_Ok_inv []) in Ev. destruct Ev as (_ & ->).
  rewrite zn_map_zrange by lia. rewrite zlen_repeat. destruct (Hn r Hr). lia.
Qed.

Lemma view_mult_new_value H M N As ins X :
  multiplies H -> distributed M N As -> tiles pm_cs N As -> same_split As -> holds pm_cs As ins X ->
  exists ys, view_mult_new H As ins = Ok ys /\ holds pm_rs As ys (mat_vec (world_mat As) N X).
Proof.
  intros MU D C E HX. unfold view_mult_new. destruct (fresh_fits pm_rs As (fun A => c_rows (pm_diag A))) as (outs & -> & F).
  { intros r Hr. destruct (drows _ _ _ D r Hr) as (E1 & E2 & E3 & _). lia. }
  cbn [bind]. now apply (view_mult_value H M N).
Qed.

Lemma view_multAT_new_value H M N As ins X :
  multiplies H -> distributed M N As -> tiles pm_rs M As -> same_split As -> holds pm_rs As ins X ->
  exists ys, view_multAT_new H As ins = Ok ys /\ holds pm_cs As ys (mat_vec (mat_T (world_mat As)) M X).
Proof.
  intros MU D C E HX. unfold view_multAT_new. destruct (fresh_fits pm_cs As (fun A => c_cols (pm_diag A))) as (outs & -> & F).
  { intros r Hr. destruct (drows _ _ _ D r Hr) as (E1 & E2 & E3 & E4 & _). lia. }
  cbn [bind]. now apply (view_multAT_value H M N).
Qed.

(* ---------------------------------------------------------------- the overloads for ParVectors *)

Definition of_parts (part : parmat -> list Z) As (vs : list (list T)) : list (hvec S) :=
  map (fun r => HVec (part (zn pm_none As r)) (zn [] vs r)) (zrange 0 (zlen As)).

Lemma laid_part part As (vs : list (hvec S)) r : laid part As vs -> 0 <= r < zlen As -> hv_part (zn vnone vs r) = part (zn pm_none As r).
Proof. intros (L & F) Hr. apply (F r); [now apply at_rank|]. apply get_ok. lia. Qed.

Lemma fits_data part As (vs : list (hvec S)) r : fits part As (map hv_data vs) -> 0 <= r < zlen As ->
  zlen (hv_data (zn vnone vs r)) = zn 0 (part (zn pm_none As r)) 1 - zn 0 (part (zn pm_none As r)) 0.
Proof.
  intros F Hr. rewrite <- (fits_len _ _ _ F r Hr). destruct F as (L & _). rewrite zlen_map in L. now rewrite (zn_map vnone []) by lia.
Qed.

Definition zeroed (vs : list (hvec S)) : list (hvec S) := map (fun y => HVec (hv_part y) (map (fun _ => s0) (hv_data y))) vs.

Lemma zeroed_laid part As vs : laid part As vs -> laid part As (zeroed vs).
Proof.
  intros (L & F). split; [unfold zeroed; now rewrite zlen_map|]. intros r A v EA Ev. apply (get_Ok_inv vnone) in Ev. destruct Ev as (Hr & ->).
  unfold zeroed in *. rewrite zlen_map in Hr. rewrite (zn_map vnone) by exact Hr. cbn [hv_part]. apply (F r A _ EA). now apply get_ok.
Qed.

Lemma zeroed_data vs : map hv_data (zeroed vs) = cleared (map hv_data vs).
Proof. unfold zeroed, cleared. now rewrite !map_map. Qed.

Lemma by_ranks_data (As : list parmat) part n (f : Z -> Z -> T) :
  map hv_data (map (fun r => HVec (part r) (map (f r) (zrange 0 (n r)))) (zrange 0 (zlen As))) = by_rank (zlen As) n f.
Proof. unfold by_rank. now rewrite map_map. Qed.

Lemma par_matvec_run H M N As ins outs :
  distributed M N As -> laid pm_cs As ins -> fits pm_cs As (map hv_data ins) -> laid pm_rs As outs -> fits pm_rs As (map hv_data outs) ->
  par_matvec H As ins outs = Ok (map (fun r => HVec (pm_rs (zn pm_none As r)) (map (hy_matvec H As ins (zeroed outs) r) (zrange 0 (nrows As r)))) (zrange 0 (zlen As))).
Proof.
  intros D Li Fi Lo Fo. pose proof (proj1 Li) as Ni. pose proof (proj1 Lo) as No. unfold par_matvec. cbv zeta.
  rewrite (ranks_ok _ _ (fun _ => tt)).
  2: { intros r Hr. rewrite (at_rank As r Hr). cbn [bind]. rewrite (get_ok vnone) by lia. cbn [bind]. rewrite (get_ok vnone) by lia. cbn [bind].
       destruct (drows _ _ _ D r Hr) as (E1 & E2 & E3 & E4 & E5 & E6 & V).
       rewrite (fits_data _ _ _ r Fi Hr), (fits_data _ _ _ r Fo Hr), E1, E2, !Z.eqb_refl. cbn [assert_ bind].
       unfold gsize. rewrite (laid_part _ _ _ r Li Hr), (laid_part _ _ _ r Lo Hr).
       rewrite (get_ok 0) by (rewrite (pv_cs _ V); lia). cbn [bind]. rewrite (get_ok 0) by (rewrite (pv_rs _ V); lia). cbn [bind].
       unfold pm_gcols, pm_grows. now rewrite !Z.eqb_refl. }
  cbn [bind]. rewrite (ranks_ok _ _ (fun r => zn vnone (zeroed outs) r)).
  2: { intros r Hr. rewrite (get_ok vnone) by lia. cbn [bind]. unfold zeroed. now rewrite (zn_map vnone) by lia. }
  assert (Nz : zlen (zeroed outs) = zlen As) by (unfold zeroed; now rewrite zlen_map).
  assert (Em : map (fun r => zn vnone (zeroed outs) r) (zrange 0 (zlen As)) = zeroed outs) by (rewrite <- Nz; apply map_zn_zrange).
  rewrite Em. cbn [bind]. apply ranks_ok. intros r Hr. rewrite (at_rank As r Hr). cbn [bind].
  rewrite (get_ok vnone) by lia. cbn [bind].
  destruct (drows _ _ _ D r Hr) as (E1 & E2 & E3 & _). pose proof (fits_cleared _ _ _ Fo) as Fz. rewrite <- zeroed_data in Fz.
  rewrite writes_all by (rewrite (fits_data _ _ _ r Fz Hr); lia). cbn [bind]. now rewrite (laid_part _ _ _ r (zeroed_laid _ _ _ Lo) Hr).
Qed.

Lemma par_matvecT_run H M N As ins outs :
  distributed M N As -> laid pm_rs As ins -> fits pm_rs As (map hv_data ins) -> laid pm_cs As outs -> fits pm_cs As (map hv_data outs) ->
  par_matvecT H As ins outs = Ok (map (fun r => HVec (pm_cs (zn pm_none As r)) (map (hy_matvecT H As ins (zeroed outs) r) (zrange 0 (ncols As r)))) (zrange 0 (zlen As))).
Proof.
  intros D Li Fi Lo Fo. pose proof (proj1 Li) as Ni. pose proof (proj1 Lo) as No. unfold par_matvecT. cbv zeta.
  rewrite (ranks_ok _ _ (fun _ => tt)).
  2: { intros r Hr. rewrite (at_rank As r Hr). cbn [bind]. rewrite (get_ok vnone) by lia. cbn [bind]. rewrite (get_ok vnone) by lia. cbn [bind].
       destruct (drows _ _ _ D r Hr) as (E1 & E2 & E3 & E4 & E5 & E6 & V).
       rewrite (fits_data _ _ _ r Fi Hr), (fits_data _ _ _ r Fo Hr), E1, E2, !Z.eqb_refl. cbn [assert_ bind].
       unfold gsize. rewrite (laid_part _ _ _ r Li Hr), (laid_part _ _ _ r Lo Hr).
       rewrite (get_ok 0) by (rewrite (pv_rs _ V); lia). cbn [bind]. rewrite (get_ok 0) by (rewrite (pv_cs _ V); lia). cbn [bind].
       unfold pm_gcols, pm_grows. now rewrite !Z.eqb_refl. }
  cbn [bind]. rewrite (ranks_ok _ _ (fun r => zn vnone (zeroed outs) r)).
  2: { intros r Hr. rewrite (get_ok vnone) by lia. cbn [bind]. unfold zeroed. now rewrite (zn_map vnone) by lia. }
  assert (Nz : zlen (zeroed outs) = zlen As) by (unfold zeroed; now rewrite zlen_map).
  assert (Em : map (fun r => zn vnone (zeroed outs) r) (zrange 0 (zlen As)) = zeroed outs) by (rewrite <- Nz; apply map_zn_zrange).
  rewrite Em. cbn [bind]. apply ranks_ok. intros r Hr. rewrite (at_rank As r Hr). cbn [bind].
  rewrite (get_ok vnone) by lia. cbn [bind].
  destruct (drows _ _ _ D r Hr) as (E1 & E2 & E3 & E4 & _). pose proof (fits_cleared _ _ _ Fo) as Fz. rewrite <- zeroed_data in Fz.
  rewrite writes_all by (rewrite (fits_data _ _ _ r Fz Hr); lia). cbn [bind]. now rewrite (laid_part _ _ _ r (zeroed_laid _ _ _ Lo) Hr).
Qed.

Lemma of_ranks_laid (part : parmat -> list Z) As (f : Z -> list T) :
  laid part As (map (fun r => HVec (part (zn pm_none As r)) (f r)) (zrange 0 (zlen As))).
Proof.
  pose proof (zlen_nonneg As) as Hp. split; [rewrite zlen_map_zrange; lia|]. intros r A v EA Ev.
  apply (get_Ok_inv pm_none) in EA. destruct EA as (Hr & ->). apply (get_Ok_inv vnone) in Ev. destruct Ev as (_ & ->).
  now rewrite zn_map_zrange by lia.
Qed.

Lemma par_matvec_value H M N As ins outs X :
  multiplies H -> distributed M N As -> tiles pm_cs N As ->
  laid pm_cs As ins -> holds pm_cs As (map hv_data ins) X -> laid pm_rs As outs -> fits pm_rs As (map hv_data outs) ->
  exists ys, par_matvec H As ins outs = Ok ys /\ laid pm_rs As ys /\ holds pm_rs As (map hv_data ys) (mat_vec (world_mat As) N X).
Proof.
  intros MU D C Li HX Lo Fo. rewrite (par_matvec_run H M N) by (auto; apply HX). eexists. split; [reflexivity|].
  split; [apply of_ranks_laid|]. rewrite by_ranks_data. apply by_rank_holds.
  - intros r Hr. destruct (drows _ _ _ D r Hr) as (E1 & E2 & E3 & _). unfold nrows. lia.
  - intros r i Hr Hi. apply (mu_matvec H MU M N); auto.
    + now apply zeroed_laid.
    + rewrite zeroed_data. now apply fits_cleared.
    + now apply at_rank.
Qed.

Lemma par_matvecT_value H M N As ins outs X :
  multiplies H -> distributed M N As -> tiles pm_rs M As ->
  laid pm_rs As ins -> holds pm_rs As (map hv_data ins) X -> laid pm_cs As outs -> fits pm_cs As (map hv_data outs) ->
  exists ys, par_matvecT H As ins outs = Ok ys /\ laid pm_cs As ys /\ holds pm_cs As (map hv_data ys) (mat_vec (mat_T (world_mat As)) M X).
Proof.
  intros MU D C Li HX Lo Fo. rewrite (par_matvecT_run H M N) by (auto; apply HX). eexists. split; [reflexivity|].
  split; [apply of_ranks_laid|]. rewrite by_ranks_data. apply by_rank_holds.
  - intros r Hr. destruct (drows _ _ _ D r Hr) as (E1 & E2 & E3 & E4 & _). unfold ncols. lia.
  - intros r i Hr Hi. apply (mu_matvecT H MU M N); auto.
    + now apply zeroed_laid.
    + rewrite zeroed_data. now apply fits_cleared.
    + now apply at_rank.
Qed.

(** What the constructor of the output does *)
Lemma parvec_fill_ok (val : T) part : zlen part = 3 -> 0 <= zn 0 part 0 -> zn 0 part 0 <= zn 0 part 1 -> zn 0 part 1 <= zn 0 part 2 ->
  parvec_fill val part = if zn 0 part 0 <? zn 0 part 2 then Ok (HVec part (repeat val (Z.to_nat (zn 0 part 1 - zn 0 part 0)))) else Fail FAssert.
Proof.
  intros L H0 H1 H2. unfold parvec_fill. rewrite !(get_ok 0) by lia. cbn [bind]. rewrite vec_ok by lia. cbn [bind].
  unfold pv_init. rewrite !(get_ok 0) by lia. rewrite zlen_repeat by lia. cbn [bind].
  replace (2 <=? zlen part) with true by (symmetry; apply Z.leb_le; lia). cbn [assert_ bind].
  replace (0 <=? zn 0 part 0) with true by (symmetry; apply Z.leb_le; lia). cbn [assert_ bind].
  replace (0 <=? zn 0 part 1) with true by (symmetry; apply Z.leb_le; lia). cbn [assert_ bind].
  replace (Z.of_nat (Z.to_nat (zn 0 part 1 - zn 0 part 0)) =? zn 0 part 1 - zn 0 part 0) with true by (symmetry; apply Z.eqb_eq; lia).
  cbn [assert_ bind].
  destruct (zn 0 part 0 <? zn 0 part 2); cbn [assert_ bind]; [|reflexivity].
  replace (zn 0 part 1 <=? zn 0 part 2) with true by (symmetry; apply Z.leb_le; lia). cbn [assert_ bind].
  replace (zn 0 part 0 <=? zn 0 part 1) with true by (symmetry; apply Z.leb_le; lia). reflexivity.
Qed.

Lemma fill_rows M N As (val : parmat -> T) : distributed M N As -> starts_inside pm_rs As ->
  exists outs, ranks (zlen As) (fun r => A <- get As r ;; parvec_fill (val A) (pm_rs A)) = Ok outs /\ laid pm_rs As outs /\ fits pm_rs As (map hv_data outs).
Proof.
  intros D I. pose proof (zlen_nonneg As) as Hp.
  rewrite (ranks_ok _ _ (fun r => HVec (pm_rs (zn pm_none As r)) (repeat (val (zn pm_none As r)) (Z.to_nat (nrows As r))))).
  2: { intros r Hr. rewrite (at_rank As r Hr). cbn [bind]. destruct (drows _ _ _ D r Hr) as (E1 & E2 & E3 & E4 & E5 & E6 & V).
       pose proof (pv_rrange _ V) as (R1 & R2 & R3). rewrite parvec_fill_ok; [|apply (pv_rs _ V)|assumption..].
       pose proof (I r _ (at_rank As r Hr)) as Is. apply Z.ltb_lt in Is. rewrite Is. unfold nrows. now rewrite E1. }
  eexists. split; [reflexivity|]. split; [apply of_ranks_laid|]. rewrite map_map. cbn [hv_data].
  split; [rewrite zlen_map_zrange; lia|]. intros r A v EA Ev. apply (get_Ok_inv pm_none) in EA. destruct EA as (Hr & ->).
  apply (get_Ok_inv []) in Ev. destruct Ev as (_ & ->). rewrite zn_map_zrange by lia.
  destruct (drows _ _ _ D r Hr) as (E1 & E2 & E3 & _). rewrite zlen_repeat; unfold nrows; lia.
Qed.

Lemma fill_cols M N As (val : parmat -> T) : distributed M N As -> starts_inside pm_cs As ->
  exists outs, ranks (zlen As) (fun r => A <- get As r ;; parvec_fill (val A) (pm_cs A)) = Ok outs /\ laid pm_cs As outs /\ fits pm_cs As (map hv_data outs).
Proof.
  intros D I. pose proof (zlen_nonneg As) as Hp.
  rewrite (ranks_ok _ _ (fun r => HVec (pm_cs (zn pm_none As r)) (repeat (val (zn pm_none As r)) (Z.to_nat (ncols As r))))).
  2: { intros r Hr. rewrite (at_rank As r Hr). cbn [bind]. destruct (drows _ _ _ D r Hr) as (E1 & E2 & E3 & E4 & E5 & E6 & V).
       pose proof (pv_crange _ V) as (R1 & R2 & R3). rewrite parvec_fill_ok; [|apply (pv_cs _ V)|assumption..].
       pose proof (I r _ (at_rank As r Hr)) as Is. apply Z.ltb_lt in Is. rewrite Is. unfold ncols. now rewrite E2. }
  eexists. split; [reflexivity|]. split; [apply of_ranks_laid|]. rewrite map_map. cbn [hv_data].
  split; [rewrite zlen_map_zrange; lia|]. intros r A v EA Ev. apply (get_Ok_inv pm_none) in EA. destruct EA as (Hr & ->).
  apply (get_Ok_inv []) in Ev. destruct Ev as (_ & ->). rewrite zn_map_zrange by lia.
  destruct (drows _ _ _ D r Hr) as (E1 & E2 & E3 & E4 & _). rewrite zlen_repeat; unfold ncols; lia.
Qed.

Lemma par_matvec_new_value H of_int M N As ins X :
  multiplies H -> distributed M N As -> tiles pm_cs N As -> laid pm_cs As ins -> holds pm_cs As (map hv_data ins) X -> starts_inside pm_rs As ->
  exists ys, par_matvec_new H of_int As ins = Ok ys /\ laid pm_rs As ys /\ holds pm_rs As (map hv_data ys) (mat_vec (world_mat As) N X).
Proof.
  intros MU D C Li HX I. unfold par_matvec_new. destruct (fill_rows M N As (fun A => of_int (pm_grows A)) D I) as (outs & -> & Lo & Fo).
  cbn [bind]. now apply (par_matvec_value H M N).
Qed.

Lemma par_matvecT_new_value H of_int M N As ins X :
  multiplies H -> distributed M N As -> tiles pm_rs M As -> laid pm_rs As ins -> holds pm_rs As (map hv_data ins) X -> starts_inside pm_cs As ->
  exists ys, par_matvecT_new H of_int As ins = Ok ys /\ laid pm_cs As ys /\ holds pm_cs As (map hv_data ys) (mat_vec (mat_T (world_mat As)) M X).
Proof.
  intros MU D C Li HX I. unfold par_matvecT_new. destruct (fill_cols M N As (fun A => of_int (pm_gcols A)) D I) as (outs & -> & Lo & Fo).
  cbn [bind]. now apply (par_matvecT_value H M N).
Qed.

Lemma par_matvec_new_fails H of_int M N As ins r A :
  distributed M N As -> get As r = Ok A -> zn 0 (pm_rs A) 0 = zn 0 (pm_rs A) 2 -> par_matvec_new H of_int As ins = Fail FAssert.
Proof.
  intros D EA E. apply (get_Ok_inv pm_none) in EA. destruct EA as (Hr & ->).
  unfold par_matvec_new. rewrite ranks_fail; [reflexivity| |].
  - intros q Hq. rewrite (at_rank As q Hq). cbn [bind]. destruct (drows _ _ _ D q Hq) as (E1 & E2 & E3 & E4 & E5 & E6 & V).
    pose proof (pv_rrange _ V) as (R1 & R2 & R3). rewrite parvec_fill_ok; [|apply (pv_rs _ V)|assumption..]. destruct (_ <? _); eauto.
  - exists r. split; [exact Hr|]. rewrite (at_rank As r Hr). cbn [bind]. destruct (drows _ _ _ D r Hr) as (E1 & E2 & E3 & E4 & E5 & E6 & V).
    pose proof (pv_rrange _ V) as (R1 & R2 & R3). rewrite parvec_fill_ok; [|apply (pv_rs _ V)|assumption..]. rewrite E, Z.ltb_irrefl. reflexivity.
Qed.

Lemma par_matvecT_new_fails H of_int M N As ins r A :
  distributed M N As -> get As r = Ok A -> zn 0 (pm_cs A) 0 = zn 0 (pm_cs A) 2 -> par_matvecT_new H of_int As ins = Fail FAssert.
Proof.
  intros D EA E. apply (get_Ok_inv pm_none) in EA. destruct EA as (Hr & ->).
  unfold par_matvecT_new. rewrite ranks_fail; [reflexivity| |].
  - intros q Hq. rewrite (at_rank As q Hq). cbn [bind]. destruct (drows _ _ _ D q Hq) as (E1 & E2 & E3 & E4 & E5 & E6 & V).
    pose proof (pv_crange _ V) as (R1 & R2 & R3). rewrite parvec_fill_ok; [|apply (pv_cs _ V)|assumption..]. destruct (_ <? _); eauto.
  - exists r. split; [exact Hr|]. rewrite (at_rank As r Hr). cbn [bind]. destruct (drows _ _ _ D r Hr) as (E1 & E2 & E3 & E4 & E5 & E6 & V).
    pose proof (pv_crange _ V) as (R1 & R2 & R3). rewrite parvec_fill_ok; [|apply (pv_cs _ V)|assumption..]. rewrite E, Z.ltb_irrefl. reflexivity.
Qed.

(** A vector of the wrong local or global size is refused. *)
Lemma par_matvec_refuses H As ins outs :
  zlen ins = zlen As -> zlen outs = zlen As ->
  (forall r x, get ins r = Ok x -> zlen (hv_part x) = 3) -> (forall r y, get outs r = Ok y -> zlen (hv_part y) = 3) ->
  (exists r A x y, get As r = Ok A /\ get ins r = Ok x /\ get outs r = Ok y /\
    (zlen (hv_data x) <> pm_cols A \/ zlen (hv_data y) <> pm_rows A \/ zn 0 (hv_part x) 2 <> pm_gcols A \/ zn 0 (hv_part y) 2 <> pm_grows A)) ->
  par_matvec H As ins outs = Fail FAssert.
Proof.
  intros Li Lo Pi Po (r & A & x & y & EA & Ex & Ey & W). apply (get_Ok_inv pm_none) in EA. destruct EA as (Hr & ->).
  apply (get_Ok_inv vnone) in Ex. destruct Ex as (Hr' & ->). apply (get_Ok_inv vnone) in Ey. destruct Ey as (_ & ->).
  assert (G : forall q, 0 <= q < zlen As -> gsize (zn vnone ins q) = Ok (zn 0 (hv_part (zn vnone ins q)) 2) /\ gsize (zn vnone outs q) = Ok (zn 0 (hv_part (zn vnone outs q)) 2)).
  { intros q Hq. split; apply get_ok; [rewrite (Pi q)|rewrite (Po q)]; try lia; apply get_ok; lia. }
  unfold par_matvec. rewrite ranks_fail; [reflexivity| |].
  - intros q Hq. rewrite (at_rank As q Hq), !(get_ok vnone) by lia. cbn [bind]. destruct (G q Hq) as (-> & ->). cbn [bind]. unfold assert_.
    repeat match goal with |- context [if ?b then _ else _] => destruct b; cbn [bind] end; eauto.
  - exists r. split; [exact Hr|]. rewrite (at_rank As r Hr), !(get_ok vnone) by lia. cbn [bind]. destruct (G r Hr) as (-> & ->). cbn [bind]. unfold assert_, pm_rows, pm_cols in *.
    repeat match goal with |- context [if Z.eqb ?b ?c then _ else _] => destruct (Z.eqb_spec b c); cbn [bind]; [|reflexivity] end. tauto.
Qed.

Lemma par_matvecT_refuses H As ins outs :
  zlen ins = zlen As -> zlen outs = zlen As ->
  (forall r x, get ins r = Ok x -> zlen (hv_part x) = 3) -> (forall r y, get outs r = Ok y -> zlen (hv_part y) = 3) ->
  (exists r A x y, get As r = Ok A /\ get ins r = Ok x /\ get outs r = Ok y /\
    (zlen (hv_data x) <> pm_rows A \/ zlen (hv_data y) <> pm_cols A \/ zn 0 (hv_part x) 2 <> pm_grows A \/ zn 0 (hv_part y) 2 <> pm_gcols A)) ->
  par_matvecT H As ins outs = Fail FAssert.
Proof.
  intros Li Lo Pi Po (r & A & x & y & EA & Ex & Ey & W). apply (get_Ok_inv pm_none) in EA. destruct EA as (Hr & ->).
  apply (get_Ok_inv vnone) in Ex. destruct Ex as (Hr' & ->). apply (get_Ok_inv vnone) in Ey. destruct Ey as (_ & ->).
  assert (G : forall q, 0 <= q < zlen As -> gsize (zn vnone ins q) = Ok (zn 0 (hv_part (zn vnone ins q)) 2) /\ gsize (zn vnone outs q) = Ok (zn 0 (hv_part (zn vnone outs q)) 2)).
  { intros q Hq. split; apply get_ok; [rewrite (Pi q)|rewrite (Po q)]; try lia; apply get_ok; lia. }
  unfold par_matvecT. rewrite ranks_fail; [reflexivity| |].
  - intros q Hq. rewrite (at_rank As q Hq), !(get_ok vnone) by lia. cbn [bind]. destruct (G q Hq) as (-> & ->). cbn [bind]. unfold assert_.
    repeat match goal with |- context [if ?b then _ else _] => destruct b; cbn [bind] end; eauto.
  - exists r. split; [exact Hr|]. rewrite (at_rank As r Hr), !(get_ok vnone) by lia. cbn [bind]. destruct (G r Hr) as (-> & ->). cbn [bind]. unfold assert_, pm_rows, pm_cols in *.
    repeat match goal with |- context [if Z.eqb ?b ?c then _ else _] => destruct (Z.eqb_spec b c); cbn [bind]; [|reflexivity] end. tauto.
Qed.

(* ---------------------------------------------------------------- a product that meets the contract *)

Definition owner (part : parmat -> list Z) As (j : Z) : option Z :=
  find (fun q => (zn 0 (part (zn pm_none As q)) 0 <=? j) && (j <? zn 0 (part (zn pm_none As q)) 1)) (zrange 0 (zlen As)).

Definition element (part : parmat -> list Z) As (xs : list (hvec S)) (j : Z) : T :=
  match owner part As j with Some q => zn s0 (hv_data (zn vnone xs q)) (j - zn 0 (part (zn pm_none As q)) 0) | None => s0 end.

(** Sums the products of the entries and of the elements that the owners hold. *)
Definition reference : hypre S := {|
  hy_matvec := fun As xs _ r i => let A := zn pm_none As r in mat_vec (world_mat As) (pm_gcols A) (element pm_cs As xs) (row0 A + i);
  hy_matvecT := fun As xs _ r i => let A := zn pm_none As r in mat_vec (mat_T (world_mat As)) (pm_grows A) (element pm_rs As xs) (col0 A + i)
|}.

Lemma element_value part As xs X j n : tiles part n As -> holds part As (map hv_data xs) X -> 0 <= j < n -> element part As xs j = X j.
Proof.
  intros C (F & HX) Hj. unfold element, owner. destruct (find _ _) as [q|] eqn:E.
  - apply find_some in E. destruct E as (Hq & E). apply In_zrange in Hq. apply andb_prop in E. destruct E as (E1 & E2).
    apply Z.leb_le in E1. apply Z.ltb_lt in E2. pose proof (fits_data _ _ _ q F Hq) as L.
    assert (Lx : zlen xs = zlen As) by (destruct F as (F & _); now rewrite zlen_map in F).
    rewrite (HX q (zn pm_none As q) (hv_data (zn vnone xs q))); [f_equal; lia|now apply at_rank| |lia].
    rewrite (get_ok []) by (rewrite zlen_map; lia). now rewrite (zn_map vnone []) by lia.
  - destruct (C j Hj) as (r & A & EA & HA). apply (get_Ok_inv pm_none) in EA. destruct EA as (Hr & ->).
    pose proof (find_none _ _ E r) as W. cbv beta in W. exfalso.
    assert (Hin : In r (zrange 0 (zlen As))) by (apply In_zrange; lia). specialize (W Hin). apply andb_false_iff in W.
    destruct W as [W|W]; [apply Z.leb_gt in W|apply Z.ltb_ge in W]; lia.
Qed.

Lemma reference_ok : multiplies reference.
Proof.
  constructor; intros M N As xs ys X D C Lx HX Ly Fy r A i EA Hi; apply (get_Ok_inv pm_none) in EA; destruct EA as (Hr & ->); cbn [reference hy_matvec hy_matvecT]; cbv zeta.
  - destruct (drows _ _ _ D r Hr) as (E1 & E2 & E3 & E4 & E5 & E6 & V). rewrite E6. unfold mat_vec. apply sum_range_ext. intros j Hj. f_equal. now apply (element_value pm_cs As xs X j N).
  - destruct (drows _ _ _ D r Hr) as (E1 & E2 & E3 & E4 & E5 & E6 & V). rewrite E5. unfold mat_vec. apply sum_range_ext. intros j Hj. f_equal. now apply (element_value pm_rs As xs X j M).
Qed.

(* ---------------------------------------------------------------- other partitions *)

Definition same_part (u v : list Z) : bool := if list_eq_dec Z.eq_dec u v then true else false.
Definition laidb (part : parmat -> list Z) As (vs : list (hvec S)) : bool :=
  forallb (fun r => same_part (hv_part (zn vnone vs r)) (part (zn pm_none As r))) (zrange 0 (zlen As)).

Lemma laidb_true part As vs : laid part As vs -> laidb part As vs = true.
Proof.
  intros L. unfold laidb. apply forallb_forall. intros r Hr. apply In_zrange in Hr. rewrite (laid_part _ _ _ r L Hr).
  unfold same_part. now destruct (list_eq_dec _ _ _).
Qed.

Lemma laidb_false part As vs r : 0 <= r < zlen As -> hv_part (zn vnone vs r) <> part (zn pm_none As r) -> laidb part As vs = false.
Proof.
  intros Hr W. unfold laidb. destruct (forallb _ _) eqn:E; [|reflexivity]. exfalso. rewrite forallb_forall in E. specialize (E r). cbv beta in E.
  unfold same_part in E. destruct (list_eq_dec _ _ _) as [e|e]; [now apply W|]. discriminate E. apply In_zrange. lia.
Qed.

(** Agrees with H on vectors with the partitions of the matrix and gives Y for others. *)
Definition other H (Y : list (list T)) : hypre S := {|
  hy_matvec := fun As xs ys r i => if laidb pm_cs As xs then hy_matvec H As xs ys r i else zn s0 (zn [] Y r) i;
  hy_matvecT := fun As xs ys r i => if laidb pm_rs As xs then hy_matvecT H As xs ys r i else zn s0 (zn [] Y r) i
|}.

Lemma other_ok H Y : multiplies H -> multiplies (other H Y).
Proof.
  intros MU. constructor; intros M N As xs ys X D C Lx HX Ly Fy r A i EA Hi; cbn [other hy_matvec hy_matvecT]; rewrite (laidb_true _ _ _ Lx).
  - now apply (mu_matvec H MU M N).
  - now apply (mu_matvecT H MU M N).
Qed.

Lemma by_rank_list (part : parmat -> list Z) As Y n : fits part As Y -> 
  (forall r, 0 <= r < zlen As -> n r = zn 0 (part (zn pm_none As r)) 1 - zn 0 (part (zn pm_none As r)) 0) ->
  by_rank (zlen As) n (fun r i => zn s0 (zn [] Y r) i) = Y.
Proof.
  intros F Hn. unfold by_rank. transitivity (map (fun r => zn [] Y r) (zrange 0 (zlen As))); [|rewrite <- (proj1 F); apply map_zn_zrange].
  apply map_ext_in. intros r Hr. apply In_zrange in Hr. rewrite (Hn r) by lia. rewrite <- (fits_len _ _ _ F r) by lia. apply map_zn_zrange.
Qed.

Lemma not_laid part part' As vs r A : get As r = Ok A -> part A <> part' A -> laidb part' As (with_part part As vs) = false.
Proof.
  intros EA W. apply (get_Ok_inv pm_none) in EA. destruct EA as (Hr & ->). apply (laidb_false _ _ _ r Hr). unfold with_part. rewrite zn_map_zrange by lia. exact W.
Qed.

Lemma view_mult_any H M N As ins outs Y r A :
  multiplies H -> distributed M N As -> get As r = Ok A -> pm_rs A <> pm_cs A -> fits pm_cs As ins -> fits pm_rs As outs -> fits pm_rs As Y ->
  exists H', multiplies H' /\ view_mult H' As ins outs = Ok Y.
Proof.
  intros MU D EA W Fi Fo FY. exists (other H Y). split; [now apply other_ok|]. rewrite (view_mult_run _ M N) by auto. f_equal.
  cbn [other hy_matvec]. rewrite (not_laid pm_rs pm_cs As ins r A EA W). apply (by_rank_list pm_rs); [exact FY|].
  intros q Hq. now destruct (drows _ _ _ D q Hq) as (E1 & _).
Qed.

Lemma view_multAT_any H M N As ins outs Y r A :
  multiplies H -> distributed M N As -> get As r = Ok A -> pm_rs A <> pm_cs A -> fits pm_rs As ins -> fits pm_cs As outs -> fits pm_cs As Y ->
  exists H', multiplies H' /\ view_multAT H' As ins outs = Ok Y.
Proof.
  intros MU D EA W Fi Fo FY. exists (other H Y). split; [now apply other_ok|]. rewrite (view_multAT_run _ M N) by auto. f_equal.
  cbn [other hy_matvecT]. rewrite (not_laid pm_cs pm_rs As ins r A EA) by congruence. apply (by_rank_list pm_cs); [exact FY|].
  intros q Hq. now destruct (drows _ _ _ D q Hq) as (E1 & E2 & _).
Qed.

End ParMatvec.
