(** Facts about offset lists and the loop nest over blocks. *)

From Coq Require Import ZArith List Bool Lia.
From Verif Require Import Base Scalar Spec Dense Sparse SumFacts LoopFacts CsrFacts Rows Vec VecSpec Block BlockSpec.
Import ListNotations.
Open Scope Z_scope.

Lemma nblocks_nonneg l : offsets_ok l -> 0 <= nblocks l.
Proof. intros [H _ _]. unfold nblocks. lia. Qed.

Lemma get_ofs l i : 0 <= i < zlen l -> get l i = Ok (ofs l i).
Proof. apply get_ok. Qed.

Lemma back_ok l : offsets_ok l -> back l = Ok (total l).
Proof. intros H. unfold back, total, nblocks. apply get_ofs. destruct H; lia. Qed.

Lemma ofs_mono l i j : offsets_ok l -> 0 <= i <= j -> j <= nblocks l -> ofs l i <= ofs l j.
Proof.
  intros H Hij Hj.
  replace j with (i + Z.of_nat (Z.to_nat (j - i))) in * by lia.
  remember (Z.to_nat (j - i)) as n. clear Heqn.
  induction n as [|n IH]; [replace (i + Z.of_nat 0) with i by lia; lia|].
  pose proof (of_mono l H (i + Z.of_nat n) ltac:(lia)) as Hm.
  replace (i + Z.of_nat (S n)) with (i + Z.of_nat n + 1) by lia.
  etransitivity; [apply IH; lia | exact Hm].
Qed.

Lemma ofs_nonneg l i : offsets_ok l -> 0 <= i <= nblocks l -> 0 <= ofs l i <= total l.
Proof.
  intros H Hi. split.
  - rewrite <- (of_first l H). apply ofs_mono; auto; lia.
  - unfold total. apply ofs_mono; auto; lia.
Qed.

Lemma bsize_nonneg l i : offsets_ok l -> 0 <= i < nblocks l -> 0 <= bsize l i.
Proof. intros H Hi. pose proof (of_mono l H i Hi). unfold bsize. lia. Qed.

Lemma total_nonneg l : offsets_ok l -> 0 <= total l.
Proof. intros H. pose proof (nblocks_nonneg l H). apply (ofs_nonneg l (nblocks l) H). lia. Qed.

(** The block a position lies in. *)
Definition blk (l : list Z) (r : Z) : Z := zlen (filter (fun i => ofs l (i + 1) <=? r) (zrange 0 (nblocks l))).

Lemma blk_eq l n r : offsets_ok l -> 0 <= n < nblocks l -> ofs l n <= r < ofs l (n + 1) -> blk l r = n.
Proof.
  intros H Hn Hr. unfold blk.
  rewrite (zrange_app 0 n (nblocks l)) by lia. rewrite filter_app, zlen_app.
  rewrite filter_all, filter_none.
  - rewrite zlen_zrange, zlen_nil by lia. lia.
  - intros i Hi. apply In_zrange in Hi.
    pose proof (ofs_mono l (n + 1) (i + 1) H ltac:(lia) ltac:(lia)). apply Z.leb_gt. lia.
  - intros i Hi. apply In_zrange in Hi.
    pose proof (ofs_mono l (i + 1) n H ltac:(lia) ltac:(lia)). apply Z.leb_le. lia.
Qed.

Lemma blk_ok l r : offsets_ok l -> 0 <= r < total l ->
  0 <= blk l r < nblocks l /\ ofs l (blk l r) <= r < ofs l (blk l r + 1).
Proof.
  intros H Hr.
  assert (Hex : forall n : nat, Z.of_nat n <= nblocks l -> r < ofs l (Z.of_nat n) ->
    exists m, 0 <= m < nblocks l /\ ofs l m <= r < ofs l (m + 1)).
  { induction n as [|n IH]; intros Hn Hlt.
    - change (Z.of_nat 0) with 0 in Hlt. rewrite (of_first l H) in Hlt. lia.
    - destruct (Z_lt_le_dec r (ofs l (Z.of_nat n))) as [E|E].
      + apply IH; auto; lia.
      + exists (Z.of_nat n). replace (Z.of_nat n + 1) with (Z.of_nat (S n)) by lia. lia. }
  destruct (Hex (Z.to_nat (nblocks l))) as (m & Hm & Hrm).
  - pose proof (nblocks_nonneg l H). lia.
  - pose proof (nblocks_nonneg l H). rewrite Z2Nat.id by lia. apply Hr.
  - rewrite (blk_eq l m r); auto.
Qed.

Lemma in_block_iff l i r : offsets_ok l -> 0 <= i < nblocks l -> 0 <= r < total l ->
  in_block l i r = (i =? blk l r).
Proof.
  intros H Hi Hr. unfold in_block. destruct (blk_ok l r H Hr) as (Hb & Hrb).
  destruct (Z.eqb_spec i (blk l r)) as [E|E].
  - rewrite E. apply andb_true_iff. split; [apply Z.leb_le|apply Z.ltb_lt]; lia.
  - apply andb_false_iff. destruct (Z_lt_le_dec i (blk l r)).
    + right. apply Z.ltb_ge. pose proof (ofs_mono l (i + 1) (blk l r) H ltac:(lia) ltac:(lia)). lia.
    + left. apply Z.leb_gt. pose proof (ofs_mono l (blk l r + 1) i H ltac:(lia) ltac:(lia)). lia.
Qed.

Lemma ofs_in l i k : offsets_ok l -> 0 <= i < nblocks l -> 0 <= k < bsize l i -> 0 <= ofs l i + k < total l.
Proof.
  intros H Hi Hk. pose proof (ofs_nonneg l i H ltac:(lia)). pose proof (ofs_nonneg l (i + 1) H ltac:(lia)).
  unfold bsize in Hk. lia.
Qed.

Lemma blk_at l i k : offsets_ok l -> 0 <= i < nblocks l -> 0 <= k < bsize l i -> blk l (ofs l i + k) = i.
Proof. intros H Hi Hk. apply blk_eq; auto. unfold bsize in Hk. lia. Qed.

(** Blocks in order, positions of each block in order: all positions in order. *)
Lemma for_blocks {St : Type} l (s : St) (body : Z -> Z -> St -> res St) : offsets_ok l ->
  for_ 0 (nblocks l) s (fun i s => for_ (ofs l i) (ofs l (i + 1)) s (body i))
  = for_ 0 (total l) s (fun r => body (blk l r) r).
Proof.
  intros H.
  assert (G : forall n : nat, Z.of_nat n <= nblocks l ->
    for_ 0 (Z.of_nat n) s (fun i s => for_ (ofs l i) (ofs l (i + 1)) s (body i))
    = for_ 0 (ofs l (Z.of_nat n)) s (fun r => body (blk l r) r)).
  { induction n as [|n IH]; intros Hn.
    - change (Z.of_nat 0) with 0. rewrite (of_first l H), !for_empty by lia. reflexivity.
    - pose proof (ofs_nonneg l (Z.of_nat n) H ltac:(lia)) as Hp.
      pose proof (of_mono l H (Z.of_nat n) ltac:(lia)) as Hm.
      replace (Z.of_nat (S n)) with (Z.of_nat n + 1) by lia.
      rewrite (for_split 0 (Z.of_nat n)) by lia. rewrite IH by lia.
      rewrite (for_split 0 (ofs l (Z.of_nat n)) (ofs l (Z.of_nat n + 1))) by lia.
      destruct (for_ 0 (ofs l (Z.of_nat n)) s (fun r => body (blk l r) r)) as [s'|f]; [|reflexivity].
      cbn [bind]. unfold for_ at 1. rewrite zrange_cons, zrange_empty by lia. cbn [foldM].
      match goal with |- bind ?x _ = _ => transitivity x; [destruct x; reflexivity|] end.
      apply for_ext. intros r t Hr. rewrite (blk_eq l (Z.of_nat n)) by (auto; lia). reflexivity. }
  pose proof (nblocks_nonneg l H). specialize (G (Z.to_nat (nblocks l)) ltac:(lia)).
  rewrite Z2Nat.id in G by lia. exact G.
Qed.

(** A counter that runs along. *)
Lemma for_counter {St : Type} lo hi (s : St) (body : Z -> Z -> St -> res St) : lo <= hi ->
  for_ lo hi (0, s) (fun r st => let '(k, s) := st in s' <- body r k s ;; Ok (k + 1, s'))
  = (s' <- for_ lo hi s (fun r => body r (r - lo)) ;; Ok (hi - lo, s')).
Proof.
  intros Hle.
  replace hi with (lo + Z.of_nat (Z.to_nat (hi - lo))) by lia. remember (Z.to_nat (hi - lo)) as n. clear Heqn Hle hi.
  induction n as [|n IH].
  - rewrite !for_empty by lia. cbn [bind]. do 2 f_equal. lia.
  - rewrite (for_split lo (lo + Z.of_nat n) (lo + Z.of_nat (S n))) by lia. rewrite IH.
    rewrite (for_split lo (lo + Z.of_nat n) (lo + Z.of_nat (S n)) s) by lia.
    destruct (for_ lo (lo + Z.of_nat n) s (fun r => body r (r - lo))) as [s'|f]; [|reflexivity].
    cbn [bind]. unfold for_. rewrite (zrange_cons (lo + Z.of_nat n)), (zrange_empty (lo + Z.of_nat n + 1)) by lia.
    cbn [foldM]. replace (lo + Z.of_nat n - lo) with (Z.of_nat n) by lia.
    destruct (body (lo + Z.of_nat n) (Z.of_nat n) s') as [t|f]; [|reflexivity].
    cbn [bind]. do 2 f_equal. lia.
Qed.

Section Nest.
Context {S : scalar}.
Notation T := (car S).
Implicit Type M : bmat S.

Lemma sp_empty_valid : csr_valid (@sp_empty S).
Proof.
  split; cbn; try (unfold ptr, nnz, idx; cbn); try reflexivity; try lia; intros i Hi; rewrite ?zlen_nil in Hi; lia.
Qed.

Lemma block_valid r c (B : csr S) : block_ok r c B -> csr_valid B.
Proof. intros [->|H]; [apply sp_empty_valid|apply H]. Qed.

Lemma nnz_no_rows (B : csr S) : csr_valid B -> c_rows B = 0 -> nnz B = 0.
Proof. intros H E. rewrite <- (cv_last H), E. apply (cv_first H). Qed.

Lemma nnz_no_cols (B : csr S) : csr_valid B -> c_cols B = 0 -> nnz B = 0.
Proof.
  intros H E. pose proof (zlen_nonneg (c_val B)) as Hn. fold (nnz B) in Hn.
  destruct (Z.eq_dec (nnz B) 0) as [|Hp]; [assumption|].
  pose proof (idx_bounds B 0 H ltac:(lia)). lia.
Qed.

Lemma bm_at_ok M i j : bm_ok M -> 0 <= i < nblocks (bm_ro M) -> 0 <= j < nblocks (bm_co M) ->
  bm_at M i j = Ok (bm_block M i j).
Proof.
  intros H Hi Hj. unfold bm_at. rewrite (get_ok ([] : list (csr S))) by (rewrite (bk_A M H); lia).
  cbn [bind]. apply get_ok. rewrite (bk_row M H) by lia. lia.
Qed.

(** Row k of block (i,j), and row r of the whole matrix. *)
Definition brow1 M (i j k : Z) : list (Z * T) :=
  let B := bm_block M i j in
  if (c_rows B =? 0) || (c_cols B =? 0) then [] else row_of B k.
Definition browi M (i k : Z) : list (Z * T) :=
  flat_map (fun j => map (fun p => (ofs (bm_co M) j + fst p, snd p)) (brow1 M i j k)) (zrange 0 (nblocks (bm_co M))).
Definition brow M (r : Z) : list (Z * T) := browi M (blk (bm_ro M) r) (r - ofs (bm_ro M) (blk (bm_ro M) r)).

Lemma foldM_row {St : Type} (B : csr S) k (s : St) (f : Z * T -> St -> res St) :
  csr_valid B -> 0 <= k < c_rows B ->
  for_ (ptr B k) (ptr B (k + 1)) s (fun jj s => c <- get (c_idx B) jj ;; a <- get (c_val B) jj ;; f (c, a) s)
  = foldM (fun s p => f p s) (row_of B k) s.
Proof.
  intros H Hk. unfold row_of. rewrite foldM_map. apply foldM_ext. intros t jj Hjj. apply In_zrange in Hjj.
  pose proof (ptr_bounds B k H ltac:(lia)). pose proof (ptr_bounds B (k + 1) H ltac:(lia)).
  rewrite get_idx, get_val by (auto; lia). reflexivity.
Qed.

(** The nest is a loop over the rows and, inside, over the entries of the row. *)
Lemma bm_for_rows {St : Type} M (s : St) start visit finish : bm_ok M ->
  bm_for M s start visit finish
  = for_ 0 (bm_rows M) s (fun r s =>
      s <- start r s ;; s <- foldM (fun s p => visit r (fst p) (snd p) s) (brow M r) s ;; finish r s).
Proof.
  intros H. unfold bm_for. rewrite (bk_rows M H).
  etransitivity; [|exact (for_blocks (bm_ro M) s (fun i r s =>
      s <- start r s ;; s <- foldM (fun s p => visit r (fst p) (snd p) s) (browi M i (r - ofs (bm_ro M) i)) s ;; finish r s) (bk_ro M H))].
  fold (nblocks (bm_ro M)). apply for_ext. intros i t Hi.
  assert (Hl : zlen (bm_ro M) = nblocks (bm_ro M) + 1) by (unfold nblocks; lia).
  rewrite !get_ofs by lia. cbn [bind].
  match goal with |- bind (for_ _ _ _ ?bd) _ = _ =>
    rewrite (for_ext (ofs (bm_ro M) i) (ofs (bm_ro M) (i+1)) (0, t) bd (fun row st => let '(k, s) := st in
      s' <- (s <- start row s ;; s <- for_ 0 (nblocks (bm_co M)) s (fun j s =>
        B <- bm_at M i j ;;
        if (c_rows B =? 0) || (c_cols B =? 0) then Ok s
        else
          offset <- get (bm_co M) j ;;
          b <- get (c_ptr B) k ;; e <- get (c_ptr B) (k + 1) ;;
          for_ b e s (fun jj s =>
            c <- get (c_idx B) jj ;; a <- get (c_val B) jj ;; visit row (offset + c) a s)) ;; finish row s) ;; Ok (k + 1, s')))
  end.
  2:{ intros r [k u] _. destruct (start r u); cbn [bind]; [|reflexivity]. fold (nblocks (bm_co M)).
      match goal with |- bind ?x _ = bind (bind ?y _) _ => change y with x; destruct x; reflexivity end. }
  pose proof (of_mono _ (bk_ro M H) i Hi) as Hm.
  rewrite for_counter by lia.
  match goal with |- bind (bind ?x _) _ = _ => transitivity x; [destruct x; reflexivity|] end.
  apply for_ext. intros r u Hr.
  destruct (start r u) as [v|f]; cbn [bind]; [|reflexivity].
  match goal with |- bind ?x _ = bind ?y _ => assert (x = y) as ->; [|reflexivity] end.
  unfold browi. rewrite foldM_flat_map. apply foldM_ext. intros q j Hj. apply In_zrange in Hj.
  rewrite (bm_at_ok M i j H Hi Hj). cbn [bind]. unfold brow1.
  set (B := bm_block M i j).
  destruct ((c_rows B =? 0) || (c_cols B =? 0)) eqn:E; [reflexivity|].
  pose proof (bk_block M H i j Hi Hj) as Hb. fold B in Hb.
  destruct Hb as [Hb|(Hv & Hr1 & Hc1)]; [rewrite Hb in E; discriminate|].
  assert (Hk : 0 <= r - ofs (bm_ro M) i < c_rows B) by (rewrite Hr1; unfold bsize; lia).
  rewrite get_ofs by (unfold nblocks in Hj; lia). cbn [bind].
  rewrite !get_ptr by (auto; lia). cbn [bind].
  rewrite foldM_map.
  exact (foldM_row B (r - ofs (bm_ro M) i) q (fun p s => visit r (ofs (bm_co M) j + fst p) (snd p) s) Hv Hk).
Qed.

Lemma brow1_col M i j k p : bm_ok M -> 0 <= i < nblocks (bm_ro M) -> 0 <= j < nblocks (bm_co M) ->
  0 <= k < bsize (bm_ro M) i -> In p (brow1 M i j k) -> 0 <= fst p < bsize (bm_co M) j.
Proof.
  intros H Hi Hj Hk Hp. unfold brow1 in Hp.
  destruct (bk_block M H i j Hi Hj) as [Hb|(Hv & Hr & Hc)]; [rewrite Hb in Hp; contradiction|].
  destruct ((c_rows (bm_block M i j) =? 0) || (c_cols (bm_block M i j) =? 0)); [contradiction|].
  destruct p as [c a].
  pose proof (proj2 (In_row_of (bm_block M i j) k c a Hv) (conj (ltac:(lia) : 0 <= k < c_rows (bm_block M i j)) Hp)) as Hq.
  pose proof (entries_in_shape _ Hv) as Hs. unfold in_shape in Hs. rewrite Forall_forall in Hs.
  specialize (Hs _ Hq). cbn in Hs |- *. lia.
Qed.

Lemma brow_col M r p : bm_ok M -> 0 <= r < bm_rows M -> In p (brow M r) -> 0 <= fst p < bm_cols M.
Proof.
  intros H Hr Hp. rewrite (bk_rows M H) in Hr. destruct (blk_ok _ r (bk_ro M H) Hr) as (Hb & Hrb).
  unfold brow, browi in Hp. apply in_flat_map in Hp. destruct Hp as (j & Hj & Hp). apply In_zrange in Hj.
  apply in_map_iff in Hp. destruct Hp as (q & <- & Hq).
  assert (Hk : 0 <= r - ofs (bm_ro M) (blk (bm_ro M) r) < bsize (bm_ro M) (blk (bm_ro M) r)) by (unfold bsize; lia).
  pose proof (brow1_col M _ j _ q H Hb Hj Hk Hq).
  cbn [fst]. rewrite (bk_cols M H). apply ofs_in; auto. apply H.
Qed.

End Nest.
