(** BlockMatrix: Combine, Mult, MultAT, SetBlock and Transpose. *)

From Coq Require Import ZArith List Bool Lia.
From Verif Require Import Base Scalar Spec Dense Sparse SumFacts LoopFacts CsrFacts Rows SparseProofs Vec VecSpec Block BlockSpec BlockFacts.
Import ListNotations.
Open Scope Z_scope.

Lemma set_next {A : Type} (P : list A) a b m : 
  set (P ++ repeat a (S m)) (zlen P) b = Ok ((P ++ [b]) ++ repeat a m).
Proof.
  rewrite set_ok by (rewrite zlen_app, zlen_repeat; pose proof (zlen_nonneg P); lia).
  f_equal. unfold zlen. rewrite Nat2Z.id. rewrite <- app_assoc. cbn [repeat app].
  induction P as [|p P IH]; cbn; [reflexivity|]. f_equal. apply IH.
Qed.

Lemma sum_blocks {S0 : scalar} (R : ring_laws S0) l (g : Z -> car S0) : offsets_ok l ->
  sum_range 0 (total l) g = sum_range 0 (nblocks l) (fun i => sum_range 0 (bsize l i) (fun k => g (ofs l i + k))).
Proof.
  intros H. pose proof (nblocks_nonneg l H) as Hn.
  assert (G : forall n : nat, Z.of_nat n <= nblocks l ->
    sum_range 0 (ofs l (Z.of_nat n)) g
    = sum_range 0 (Z.of_nat n) (fun i => sum_range 0 (bsize l i) (fun k => g (ofs l i + k)))).
  { induction n as [|n IH]; intros Hle.
    - change (Z.of_nat 0) with 0. rewrite (of_first l H), !sum_range_empty by lia. reflexivity.
    - replace (Z.of_nat (Datatypes.S n)) with (Z.of_nat n + 1) by lia.
      pose proof (ofs_nonneg l (Z.of_nat n) H ltac:(lia)). pose proof (of_mono l H (Z.of_nat n) ltac:(lia)).
      rewrite (sum_range_split R 0 (ofs l (Z.of_nat n))) by lia. rewrite IH by lia.
      rewrite (sum_range_last R) by lia. f_equal.
      replace (ofs l (Z.of_nat n)) with (0 + ofs l (Z.of_nat n)) at 1 by lia.
      replace (ofs l (Z.of_nat n + 1)) with (bsize l (Z.of_nat n) + ofs l (Z.of_nat n)) by (unfold bsize; lia).
      rewrite sum_range_shift.
      apply sum_range_ext. intros i Hi. f_equal. lia. }
  specialize (G (Z.to_nat (nblocks l)) ltac:(lia)). rewrite Z2Nat.id in G by lia. exact G.
Qed.

Section BlockProofs.
Context {S : scalar}.
Notation T := (car S).
Implicit Type M : bmat S.

Definition push (st : list Z * list Z * list T * Z) (p : Z * T) : res (list Z * list Z * list T * Z) :=
  let '(ip, ix, d, n) := st in ix <- set ix n (fst p) ;; d <- set d n (snd p) ;; Ok (ip, ix, d, n + 1).

Lemma push_list ip (l : list (Z * T)) : forall P Q m,
  zlen Q = zlen P -> (length l <= m)%nat ->
  foldM push l (ip, P ++ repeat 0 m, Q ++ repeat s0 m, zlen P)
  = Ok (ip, (P ++ map fst l) ++ repeat 0 (m - length l), (Q ++ map snd l) ++ repeat s0 (m - length l), zlen P + zlen l).
Proof.
  induction l as [|[c a] l IH]; intros P Q m HQ Hm.
  - cbn [foldM map length]. rewrite !app_nil_r, Nat.sub_0_r, zlen_nil. do 2 f_equal. lia.
  - cbn [length] in Hm. destruct m as [|m]; [lia|].
    cbn [foldM]. unfold push at 1. cbn [fst snd].
    rewrite set_next. cbn [bind]. rewrite <- HQ, set_next. cbn [bind].
    replace (zlen Q + 1) with (zlen (P ++ [c])) by (rewrite zlen_app; change (zlen [c]) with 1; lia).
    rewrite IH by (rewrite ?zlen_app; change (zlen [c]) with 1; change (zlen [a]) with 1; lia).
    cbn [map length Nat.sub fst snd]. rewrite <- !app_assoc. cbn [app]. rewrite zlen_app, !zlen_cons, zlen_nil.
    do 2 f_equal. lia.
Qed.

(** The number of entries counted first is the number visited. *)
Lemma off_sum {X : Type} (f : Z -> list X) n : 0 <= n -> off f n = @sum_range Zs 0 n (fun i => zlen (f i)).
Proof.
  intros Hn. replace n with (Z.of_nat (Z.to_nat n)) by lia. generalize (Z.to_nat n). clear n Hn.
  induction n as [|n IH].
  - change (Z.of_nat 0) with 0. rewrite off_0. symmetry. apply (@sum_range_empty Zs). lia.
  - replace (Z.of_nat (Datatypes.S n)) with (Z.of_nat n + 1) by lia.
    rewrite off_succ, IH by lia. symmetry. apply (@sum_range_last Zs Zs_ring). lia.
Qed.

Lemma foldM_count {X : Type} (f : X -> Z) l n : foldM (fun n x => Ok (n + f x)) l n = Ok (n + @sum_list Zs (map f l)).
Proof.
  revert n. induction l as [|a l IH]; intros n.
  - cbn. f_equal. lia.
  - cbn [foldM bind map]. rewrite IH. f_equal.
    change (@sum_list Zs (f a :: map f l)) with (f a + @sum_list Zs (map f l)).
    generalize (@sum_list Zs (map f l)). cbn. intros z. lia.
Qed.

Lemma sum_list_range {X : Type} (d : X) (f : X -> Z) l :
  @sum_list Zs (map f l) = @sum_range Zs 0 (zlen l) (fun i => f (zn d l i)).
Proof.
  unfold sum_range. f_equal. rewrite <- (map_map (zn d l) f). rewrite map_zn_zrange. reflexivity.
Qed.

Lemma zlen_browi M i k : 
  zlen (browi M i k) = @sum_range Zs 0 (nblocks (bm_co M)) (fun j => zlen (brow1 M i j k)).
Proof.
  unfold browi, sum_range. induction (zrange 0 (nblocks (bm_co M))) as [|j l IH]; [reflexivity|].
  cbn [flat_map map]. rewrite zlen_app, zlen_map, IH. reflexivity.
Qed.

Lemma sum_brow1 M i j : bm_ok M -> 0 <= i < nblocks (bm_ro M) -> 0 <= j < nblocks (bm_co M) ->
  @sum_range Zs 0 (bsize (bm_ro M) i) (fun k => zlen (brow1 M i j k)) = nnz (bm_block M i j).
Proof.
  intros H Hi Hj. pose proof (bk_block M H i j Hi Hj) as Hb. unfold brow1.
  destruct ((c_rows (bm_block M i j) =? 0) || (c_cols (bm_block M i j) =? 0)) eqn:E.
  - rewrite (@sum_range_0 Zs Zs_ring) by reflexivity.
    apply block_valid in Hb. apply orb_true_iff in E. symmetry. destruct E as [E|E]; apply Z.eqb_eq in E.
    + apply nnz_no_rows; auto.
    + apply nnz_no_cols; auto.
  - destruct Hb as [Hb|(Hv & Hr & Hc)]; [rewrite Hb in E; discriminate|].
    rewrite <- Hr. pose proof (cv_rows Hv).
    etransitivity; [symmetry; apply (off_sum (row_of (bm_block M i j))); lia|].
    rewrite row_of_off by (auto; lia). apply (cv_last Hv).
Qed.

Lemma combine_count M : bm_ok M ->
  foldM (fun n row => foldM (fun n (B : csr S) => Ok (n + sp_nnz B)) row n) (bm_A M) 0 = Ok (off (brow M) (bm_rows M)).
Proof.
  intros H.
  rewrite (foldM_ext _ (fun n row => Ok (n + @sum_list Zs (map (@sp_nnz S) row)))).
  2:{ intros n row _. apply (foldM_count (@sp_nnz S)). }
  rewrite (foldM_count (fun row => @sum_list Zs (map (@sp_nnz S) row))). f_equal. cbn [Z.add].
  pose proof (total_nonneg _ (bk_ro M H)). rewrite off_sum by (rewrite (bk_rows M H); lia).
  rewrite (bk_rows M H), (@sum_blocks Zs Zs_ring) by apply H.
  rewrite (sum_list_range ([] : list (csr S))). rewrite (bk_A M H).
  apply (@sum_range_ext Zs). intros i Hi.
  rewrite (sum_list_range (sp_empty : csr S)). rewrite (bk_row M H) by lia.
  transitivity (@sum_range Zs 0 (bsize (bm_ro M) i) (fun k => @sum_range Zs 0 (nblocks (bm_co M)) (fun j => zlen (brow1 M i j k)))).
  - rewrite (@sum_range_swap Zs Zs_ring). apply (@sum_range_ext Zs). intros j Hj. symmetry. apply sum_brow1; auto.
  - apply (@sum_range_ext Zs). intros k Hk. rewrite <- zlen_browi. unfold brow.
    rewrite blk_at by (auto; apply H). do 2 f_equal. lia.
Qed.

Lemma bm_combine_rows M : bm_ok M ->
  bm_combine M = Ok (csr_of_rows (bm_rows M) (bm_cols M) (brow M)).
Proof.
  intros H. unfold bm_combine. rewrite combine_count by exact H. cbn [bind].
  assert (Hr : 0 <= bm_rows M) by (rewrite (bk_rows M H); apply total_nonneg, H).
  assert (Hc : 0 <= bm_cols M) by (rewrite (bk_cols M H); apply total_nonneg, H).
  set (f := brow M). pose proof (off_nonneg f (bm_rows M)) as Hn.
  rewrite (vec_ok (bm_rows M + 1)) by lia. cbn [bind]. rewrite !vec_ok by lia. cbn [bind].
  rewrite set_ok by (rewrite zlen_repeat; lia). cbn [bind].
  rewrite bm_for_rows by exact H.
  set (N := Z.to_nat (off f (bm_rows M))).
  pose (I := fun (r : Z) (st : list Z * list Z * list T * Z) => 
    let '(ip, ix, d, n) := st in
    zlen ip = bm_rows M + 1 /\ (forall i, 0 <= i <= r -> zn 0 ip i = off f i) /\
    n = off f r /\ ix = map fst (cat f r) ++ repeat 0 (N - length (cat f r)) /\
    d = map snd (cat f r) ++ repeat s0 (N - length (cat f r))).
  match goal with |- bind ?m _ = _ => assert (Hm : returns m (I (bm_rows M))) end.
  { apply (returns_for I); auto.
    - unfold I. rewrite zlen_upd, zlen_repeat. repeat split; try lia.
      + intros i Hi. assert (i = 0) as -> by lia. rewrite off_0. rewrite zn_upd by (rewrite ?zlen_repeat; lia). reflexivity.
      + rewrite cat_0. cbn [map length app]. rewrite Nat.sub_0_r. reflexivity.
      + rewrite cat_0. cbn [map length app]. rewrite Nat.sub_0_r. reflexivity.
    - intros r [[[ip ix] d] n] Hri (Hip & Hz & En & Eix & Ed). subst n ix d. cbn [bind].
      change (fun s p => let '(ip0, ix0, d0, n0) := s in ix1 <- set ix0 n0 (fst p) ;; d1 <- set d0 n0 (snd p) ;; Ok (ip0, ix1, d1, n0 + 1)) with push.
      assert (Hlen : (length (cat f r) + length (f r) <= N)%nat).
      { unfold N. pose proof (off_mono f (r + 1) (bm_rows M) ltac:(lia)) as Hm1.
        rewrite off_succ in Hm1 by lia. unfold off, zlen in Hm1 |- *. lia. }
      replace (off f r) with (zlen (map fst (cat f r))) by (rewrite zlen_map; reflexivity).
      fold f. rewrite push_list by (rewrite ?zlen_map; lia). cbn [bind].
      rewrite zlen_map. change (zlen (cat f r)) with (off f r). rewrite <- off_succ by lia.
      rewrite set_ok by lia. cbn [bind returns]. unfold I. rewrite zlen_upd. repeat split; auto.
      + intros i Hi. rewrite zn_upd by lia. destruct (Z.eqb_spec i (r + 1)) as [->|]; [reflexivity|]. apply Hz. lia.
      + rewrite cat_succ by lia. rewrite map_app, app_length. do 2 f_equal. lia.
      + rewrite cat_succ by lia. rewrite map_app, app_length. do 2 f_equal. lia. }
  match goal with |- bind ?m _ = _ => destruct m as [[[[ip ix] d] n]|] end; [|contradiction].
  destruct Hm as (Hip & Hz & En & Eix & Ed). cbn [bind].
  apply sp_make_rows; auto.
  - intros i p Hi Hp. apply (brow_col M i p H Hi Hp).
  - apply (list_ext 0).
    + rewrite zlen_map_zrange by lia. lia.
    + intros i Hi. rewrite zn_map_zrange by lia. apply Hz. lia.
  - rewrite Eix. replace (N - length (cat f (bm_rows M)))%nat with O by (unfold N, off, zlen; lia).
    cbn [repeat]. apply app_nil_r.
  - rewrite Ed. replace (N - length (cat f (bm_rows M)))%nat with O by (unfold N, off, zlen; lia).
    cbn [repeat]. apply app_nil_r.
Qed.

Lemma combined_valid M : bm_ok M -> csr_valid (csr_of_rows (bm_rows M) (bm_cols M) (brow M)).
Proof.
  intros H. apply csr_of_rows_valid.
  - rewrite (bk_rows M H); apply total_nonneg, H.
  - rewrite (bk_cols M H); apply total_nonneg, H.
  - intros i p Hi Hp. apply (brow_col M i p H Hi Hp).
Qed.

(** Mult and MultAT do exactly what they would do on the combined matrix, operation by
    operation. *)
Lemma bm_mult_combined M C x out : bm_ok M -> bm_combine M = Ok C -> bm_mult M x out = sp_mult C x out.
Proof.
  intros H HC. rewrite (bm_combine_rows M H) in HC. injection HC as <-.
  pose proof (combined_valid M H) as HV. set (C := csr_of_rows (bm_rows M) (bm_cols M) (brow M)) in *.
  destruct (Z.eq_dec (zlen x) (bm_cols M)) as [Hx|Hx].
  2:{ rewrite sp_mult_size by (left; exact Hx). unfold bm_mult. rewrite (proj2 (Z.eqb_neq _ _) Hx). reflexivity. }
  destruct (Z.eq_dec (zlen out) (bm_rows M)) as [Ho|Ho].
  2:{ rewrite sp_mult_size by (right; exact Ho). unfold bm_mult. rewrite Hx, Z.eqb_refl, (proj2 (Z.eqb_neq _ _) Ho). reflexivity. }
  rewrite (sp_mult_exact C x out HV Hx Ho).
  unfold bm_mult. rewrite Hx, Ho, !Z.eqb_refl. cbn [assert_ bind].
  rewrite bm_for_rows by exact H.
  change (c_rows C) with (bm_rows M).
  set (g := fun i => fold_left (dot_step x) (row_entries C i) s0).
  assert (Hr : 0 <= bm_rows M) by (rewrite <- Ho; apply zlen_nonneg).
  pose (I := fun (r : Z) (st : T * list T) => zlen (snd st) = bm_rows M /\ forall i, 0 <= i < r -> zn s0 (snd st) i = g i).
  match goal with |- bind ?m _ = _ => assert (Hm : returns m (I (bm_rows M))) end.
  { apply (returns_for I); auto.
    - unfold I. cbn [snd]. rewrite zlen_map. split; [lia|intros; lia].
    - intros r [v o] Hri (Hlo & Hz). cbn [bind snd] in *.
      rewrite (foldM_pure_in _ (fun st p => (sadd (fst st) (smul (snd p) (vec_of x (fst p))), snd st))).
      2:{ intros [w o'] p Hp. pose proof (brow_col M r p H Hri Hp). rewrite (get_ok s0) by lia. reflexivity. }
      match goal with |- context [fold_left ?h (brow M r) (s0, o)] => 
        assert (E : forall l a, fold_left h l (a, o) = (fold_left (fun v p => sadd v (smul (snd p) (vec_of x (fst p)))) l a, o)) end.
      { induction l as [|p l IH]; intros a; [reflexivity|]. cbn [fold_left fst snd]. apply IH. }
      rewrite E. cbn [bind]. rewrite set_ok by lia. cbn [bind returns]. unfold I. cbn [snd]. rewrite zlen_upd. split; [exact Hlo|].
      intros i Hi. rewrite zn_upd by lia. destruct (Z.eqb_spec i r) as [->|]; [|apply Hz; lia].
      unfold g, C. rewrite csr_of_rows_row by lia. unfold row_to_entries. rewrite fold_left_map. reflexivity. }
  match goal with |- bind ?m _ = _ => destruct m as [[v o]|] end; [|contradiction].
  destruct Hm as (Hlo & Hz). cbn [bind snd] in *. f_equal.
  apply (list_ext s0).
  - rewrite zlen_map_zrange by lia. exact Hlo.
  - intros i Hi. rewrite zn_map_zrange by lia. apply Hz. lia.
Qed.

Lemma bm_multAT_combined M C x out : bm_ok M -> bm_combine M = Ok C -> bm_multAT M x out = sp_multAT C x out.
Proof.
  intros H HC. rewrite (bm_combine_rows M H) in HC. injection HC as <-.
  pose proof (combined_valid M H) as HV. set (C := csr_of_rows (bm_rows M) (bm_cols M) (brow M)) in *.
  unfold bm_multAT, sp_multAT. change (c_rows C) with (bm_rows M). change (c_cols C) with (bm_cols M).
  destruct (Z.eqb_spec (zlen x) (bm_rows M)) as [Hx|]; [|reflexivity].
  destruct (Z.eqb_spec (zlen out) (bm_cols M)) as [Ho|]; [|reflexivity]. cbn [assert_ bind].
  rewrite bm_for_rows by exact H.
  set (step := fun (o : list T) (e : entry S) => xi <- get x (erow e) ;; c <- get o (ecol e) ;; set o (ecol e) (sadd c (smul (evalue e) xi))).
  transitivity (foldM step (entries C) (map (fun _ => s0) out)).
  - unfold C. rewrite csr_of_rows_entries. rewrite foldM_flat_map. apply foldM_ext. intros o r _. cbn [bind].
    unfold row_to_entries. rewrite foldM_map.
    match goal with |- bind ?m _ = ?m' => transitivity m; [destruct m; reflexivity|] end. reflexivity.
  - symmetry. change (bm_rows M) with (c_rows C). apply for_entries_entries; auto.
    intros i k o Hp. destruct (position_bounds C i k HV Hp) as (Hi & Hk).
    rewrite get_idx, get_val by auto. reflexivity.
Qed.

End BlockProofs.
