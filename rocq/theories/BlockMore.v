(** BlockMatrix as a matrix; histories of SetBlock; Transpose. *)

From Coq Require Import ZArith List Bool Lia.
From Verif Require Import Base Scalar Spec Dense Sparse SumFacts LoopFacts CsrFacts Rows SparseProofs Vec VecSpec Block BlockSpec BlockFacts BlockProofs.
Import ListNotations.
Open Scope Z_scope.

(** A loop in which some iteration always fails. *)
Lemma for_fails {St : Type} (I : St -> Prop) f lo hi (s : St) (body : Z -> St -> res St) i0 :
  I s -> lo <= i0 < hi ->
  (forall i s, lo <= i < hi -> I s -> body i s = Fail f \/ exists s', body i s = Ok s' /\ I s') ->
  (forall s, I s -> body i0 s = Fail f) ->
  for_ lo hi s body = Fail f.
Proof.
  intros Hs Hi Hstep Hfail.
  assert (G : forall l s, I s -> (forall i, In i l -> lo <= i < hi) -> In i0 l ->
    foldM (fun s i => body i s) l s = Fail f).
  { induction l as [|i l IH]; intros s1 H1 Hl Hin; [contradiction|].
    cbn [foldM]. destruct (Z.eq_dec i i0) as [->|Hne].
    - rewrite Hfail by exact H1. reflexivity.
    - destruct (Hstep i s1 (Hl i (or_introl eq_refl)) H1) as [E|(s' & E & H2)]; rewrite E; [reflexivity|].
      cbn [bind]. apply IH; auto.
      + intros; apply Hl; right; assumption.
      + destruct Hin as [E1|]; [contradiction|assumption]. }
  unfold for_. apply G; auto.
  - intros i Hi'. apply In_zrange, Hi'.
  - apply In_zrange, Hi.
Qed.

(** ... and one in which no iteration fails. *)
Lemma for_steps {St : Type} (I : St -> Prop) lo hi (s : St) (body : Z -> St -> res St) :
  I s -> (forall i s, lo <= i < hi -> I s -> exists s', body i s = Ok s' /\ I s') ->
  exists s', for_ lo hi s body = Ok s' /\ I s'.
Proof.
  intros Hs Hstep.
  assert (G : forall l s, I s -> (forall i, In i l -> lo <= i < hi) ->
    exists s', foldM (fun s i => body i s) l s = Ok s' /\ I s').
  { induction l as [|i l IH]; intros s1 H1 Hl; [eexists; split; [reflexivity|exact H1]|].
    destruct (Hstep i s1 (Hl i (or_introl eq_refl)) H1) as (s' & E & H2). cbn [foldM]. rewrite E. cbn [bind].
    apply IH; auto. intros; apply Hl; right; assumption. }
  apply G; auto. intros i Hi'. apply In_zrange, Hi'.
Qed.

Section BlockMore.
Context {S : scalar}.
Notation T := (car S).
Implicit Type M : bmat S.

(* ---------------------------------------------------------------- entries *)

Lemma row_of_nil (B : csr S) k : csr_valid B -> 0 <= k < c_rows B -> nnz B = 0 -> row_of B k = [].
Proof.
  intros H Hk E. unfold row_of. pose proof (ptr_bounds B k H ltac:(lia)). pose proof (ptr_bounds B (k + 1) H ltac:(lia)).
  rewrite zrange_empty by lia. reflexivity.
Qed.

Lemma row_of_empty k : 0 <= k -> row_of (@sp_empty S) k = [].
Proof.
  intros Hk. unfold row_of, ptr. cbn [c_ptr sp_empty].
  assert (E : forall i, 0 <= i -> zn 0 [0] i = 0).
  { intros i Hi. unfold zn. destruct (Z.to_nat i) as [|[|n]]; reflexivity. }
  rewrite !E by lia. reflexivity.
Qed.

Lemma brow1_row M i j k : bm_ok M -> 0 <= i < nblocks (bm_ro M) -> 0 <= j < nblocks (bm_co M) ->
  0 <= k < bsize (bm_ro M) i -> brow1 M i j k = row_of (bm_block M i j) k.
Proof.
  intros H Hi Hj Hk. unfold brow1. destruct (bk_block M H i j Hi Hj) as [Hb|(Hv & Hr & Hc)].
  - rewrite Hb. cbn [c_rows sp_empty]. rewrite row_of_empty by lia. reflexivity.
  - destruct (Z.eqb_spec (c_rows (bm_block M i j)) 0); [lia|].
    destruct (Z.eqb_spec (c_cols (bm_block M i j)) 0) as [E|]; [|reflexivity].
    cbn [orb]. symmetry. apply row_of_nil; auto; [lia|]. apply nnz_no_cols; auto.
Qed.

Lemma combined_row M C i k : bm_ok M -> bm_combine M = Ok C -> 0 <= i < nblocks (bm_ro M) -> 0 <= k < bsize (bm_ro M) i ->
  row_entries C (ofs (bm_ro M) i + k)
  = flat_map (fun j => map (fun e => (ofs (bm_ro M) i + k, ofs (bm_co M) j + ecol e, evalue e)) (row_entries (bm_block M i j) k))
      (zrange 0 (nblocks (bm_co M))).
Proof.
  intros H HC Hi Hk. rewrite (bm_combine_rows M H) in HC. injection HC as <-.
  pose proof (ofs_in _ i k (bk_ro M H) Hi Hk) as Hin. rewrite <- (bk_rows M H) in Hin.
  rewrite csr_of_rows_row by lia. unfold row_to_entries, brow, browi.
  rewrite blk_at by (auto; apply H). rewrite map_flat_map. apply flat_map_ext_in. intros j Hj. apply In_zrange in Hj.
  replace (ofs (bm_ro M) i + k - ofs (bm_ro M) i) with k by lia.
  rewrite brow1_row by auto. rewrite map_map. rewrite <- row_of_entries. unfold row_to_entries. rewrite !map_map. reflexivity.
Qed.

Lemma combined_shape M C : bm_ok M -> bm_combine M = Ok C ->
  csr_valid C /\ c_rows C = bm_rows M /\ c_cols C = bm_cols M.
Proof.
  intros H HC. rewrite (bm_combine_rows M H) in HC. injection HC as <-.
  split; [apply combined_valid; exact H|split; reflexivity].
Qed.

(** An entry of the combined matrix is an entry of one block, moved to the offsets. *)
Lemma combined_entries M C i j k l v : bm_ok M -> bm_combine M = Ok C ->
  0 <= i < nblocks (bm_ro M) -> 0 <= j < nblocks (bm_co M) ->
  0 <= k < bsize (bm_ro M) i -> 0 <= l < bsize (bm_co M) j ->
  (In (ofs (bm_ro M) i + k, ofs (bm_co M) j + l, v) (entries C) <-> In (k, l, v) (entries (bm_block M i j))).
Proof.
  intros H HC Hi Hj Hk Hl.
  destruct (combined_shape M C H HC) as (HV & HR & HCc).
  pose proof (ofs_in _ i k (bk_ro M H) Hi Hk) as Hin. rewrite <- (bk_rows M H), <- HR in Hin.
  assert (HB : csr_valid (bm_block M i j)) by (eapply block_valid, (bk_block M H); auto).
  assert (E : In (ofs (bm_ro M) i + k, ofs (bm_co M) j + l, v) (entries C) <->
              In (ofs (bm_ro M) i + k, ofs (bm_co M) j + l, v) (row_entries C (ofs (bm_ro M) i + k))).
  { split.
    - intros Hx. apply (proj2 (In_row_entries C (ofs (bm_ro M) i + k) _ HV)). split; [exact Hx|reflexivity].
    - intros Hx. apply (proj1 (In_row_entries C (ofs (bm_ro M) i + k) _ HV)). split; [exact Hx|exact Hin]. }
  rewrite E. rewrite (combined_row M C i k) by auto. rewrite in_flat_map. split.
  - intros (j' & Hj' & Hx). apply In_zrange in Hj'. apply in_map_iff in Hx. destruct Hx as (e & Ee & He).
    injection Ee as Ec Ev.
    assert (He' : In e (row_entries (bm_block M i j') k) -> 0 <= ecol e < bsize (bm_co M) j' /\ erow e = k /\ 0 <= k < c_rows (bm_block M i j')).
    { intros _. destruct (bk_block M H i j' Hi Hj') as [Hb|(Hv' & Hr' & Hc')].
      - exfalso. rewrite Hb in He. rewrite <- row_of_entries, row_of_empty in He by lia. destruct He.
      - pose proof (proj1 (In_row_entries (bm_block M i j') k e Hv') (conj He (ltac:(lia) : 0 <= k < c_rows (bm_block M i j')))) as (Hin' & Er).
        pose proof (entries_in_shape _ Hv') as Hs. unfold in_shape in Hs. rewrite Forall_forall in Hs.
        specialize (Hs e Hin'). lia. }
    destruct (He' He) as (Hc1 & Er & Hr1).
    assert (j' = j) as ->.
    { rewrite <- (blk_at (bm_co M) j' (ecol e)) by (auto; apply H). rewrite Ec. apply blk_at; auto; apply H. }
    pose proof (proj1 (In_row_entries (bm_block M i j) k e HB) (conj He Hr1)) as (Hin' & _).
    replace (k, l, v) with e; [exact Hin'|]. destruct e as [[a b] c]. cbn in *. subst. do 2 f_equal. lia.
  - intros Hx. exists j. split; [apply In_zrange, Hj|]. apply in_map_iff. exists (k, l, v). split; [reflexivity|].
    apply (proj2 (In_row_entries (bm_block M i j) k _ HB)). split; [exact Hx|reflexivity].
Qed.

(* ---------------------------------------------------------------- values *)

Section Values.
Variable R : ring_laws S.

Lemma tile_at ro co (F : Z -> Z -> mat S) i j k l : offsets_ok ro -> offsets_ok co ->
  0 <= i < nblocks ro -> 0 <= j < nblocks co -> 0 <= k < bsize ro i -> 0 <= l < bsize co j ->
  tile ro co F (ofs ro i + k) (ofs co j + l) = F i j k l.
Proof.
  intros Hro Hco Hi Hj Hk Hl. unfold tile.
  rewrite (sum_range_ext 0 (nblocks ro) _ (fun i' => if i' =? i then F i j k l else s0)).
  2:{ intros i' Hi'. rewrite (in_block_iff ro i') by (auto; apply ofs_in; auto). rewrite blk_at by auto.
      destruct (Z.eqb_spec i' i) as [->|Hne]; [|apply (sum_range_0 R); reflexivity]. cbn [andb].
      rewrite (sum_range_ext 0 (nblocks co) _ (fun j' => if j' =? j then F i j k l else s0)).
      - rewrite (sum_range_delta R); auto.
      - intros j' Hj'. rewrite (in_block_iff co j') by (auto; apply ofs_in; auto). rewrite blk_at by auto.
        destruct (Z.eqb_spec j' j) as [->|]; [|reflexivity]. f_equal; lia. }
  rewrite (sum_range_delta R); auto.
Qed.

Lemma tile_T ro co (F : Z -> Z -> mat S) r c : mat_T (tile ro co F) r c = tile co ro (fun j i => mat_T (F i j)) r c.
Proof.
  unfold mat_T, tile. rewrite (sum_range_swap R). apply sum_range_ext. intros j Hj. apply sum_range_ext. intros i Hi.
  rewrite andb_comm. reflexivity.
Qed.

(** The product with a tiled matrix, block row by block row. *)
Lemma tile_mult ro co (F : Z -> Z -> mat S) (x : vect S) i k : offsets_ok ro -> offsets_ok co ->
  0 <= i < nblocks ro -> 0 <= k < bsize ro i ->
  mat_vec (tile ro co F) (total co) x (ofs ro i + k)
  = sum_range 0 (nblocks co) (fun j => mat_vec (F i j) (bsize co j) (vpart co x j) k).
Proof.
  intros Hro Hco Hi Hk. unfold mat_vec. rewrite (sum_blocks R) by exact Hco.
  apply sum_range_ext. intros j Hj. apply sum_range_ext. intros l Hl. rewrite tile_at by auto. reflexivity.
Qed.

Lemma tile_ext ro co (F G : Z -> Z -> mat S) r c :
  (forall i j k l, 0 <= i < nblocks ro -> 0 <= j < nblocks co -> 0 <= k < bsize ro i -> 0 <= l < bsize co j -> F i j k l = G i j k l) ->
  tile ro co F r c = tile ro co G r c.
Proof.
  intros E. unfold tile. apply sum_range_ext. intros i Hi. apply sum_range_ext. intros j Hj.
  unfold in_block. destruct (Z.leb_spec (ofs ro i) r), (Z.ltb_spec r (ofs ro (i + 1))), (Z.leb_spec (ofs co j) c), (Z.ltb_spec c (ofs co (j + 1)));
    cbn [andb]; try reflexivity. apply E; auto; unfold bsize; lia.
Qed.

Lemma combined_mat_at M C i j k l : bm_ok M -> bm_combine M = Ok C ->
  0 <= i < nblocks (bm_ro M) -> 0 <= j < nblocks (bm_co M) ->
  0 <= k < bsize (bm_ro M) i -> 0 <= l < bsize (bm_co M) j ->
  csr_mat C (ofs (bm_ro M) i + k) (ofs (bm_co M) j + l) = csr_mat (bm_block M i j) k l.
Proof.
  intros H HC Hi Hj Hk Hl. destruct (combined_shape M C H HC) as (HV & HR & HCc).
  pose proof (ofs_in _ i k (bk_ro M H) Hi Hk) as Hin. rewrite <- (bk_rows M H), <- HR in Hin.
  assert (Erow : forall (A : csr S) r c, csr_valid A -> 0 <= r < c_rows A -> csr_mat A r c = mat_of (row_entries A r) r c).
  { intros A r c HA Hr. unfold csr_mat, mat_of. f_equal. f_equal.
    rewrite <- (filter_row_entries A r HA Hr).
    induction (entries A) as [|e es IH]; [reflexivity|]. cbn [filter]. unfold at_pos.
    destruct (erow e =? r) eqn:E1; cbn [andb filter].
    - rewrite E1. cbn [andb]. destruct (ecol e =? c); [f_equal|]; exact IH.
    - exact IH. }
  rewrite Erow by auto. rewrite (combined_row M C i k) by auto. rewrite (mat_of_flat_map R).
  fold (sum_range 0 (nblocks (bm_co M)) (fun j0 => mat_of (map (fun e => (ofs (bm_ro M) i + k, ofs (bm_co M) j0 + ecol e, evalue e)) (row_entries (bm_block M i j0) k)) (ofs (bm_ro M) i + k) (ofs (bm_co M) j + l))).
  rewrite (sum_range_ext 0 (nblocks (bm_co M)) _ (fun j' => if j' =? j then csr_mat (bm_block M i j) k l else s0)).
  { rewrite (sum_range_delta R); auto. }
  intros j' Hj'.
  destruct (bk_block M H i j' Hi Hj') as [Hb|(Hv & Hr & Hc)].
  { rewrite Hb. rewrite <- row_of_entries, row_of_empty by lia.
    destruct (Z.eqb_spec j' j) as [->|]; [|reflexivity]. rewrite Hb. reflexivity. }
  assert (Hk' : 0 <= k < c_rows (bm_block M i j')) by lia.
  rewrite !(mat_of_if R), map_map.
  destruct (Z.eqb_spec j' j) as [->|Hne].
  - rewrite Erow by auto. rewrite (mat_of_if R). apply sum_map_ext. intros e He.
    apply (fun h => proj1 (In_row_entries _ k e Hv) (conj h Hk')) in He. destruct He as (He & Er).
    unfold at_pos. cbn [erow ecol evalue fst snd]. rewrite Z.eqb_refl.
    replace (erow e =? k) with true by (symmetry; apply Z.eqb_eq; exact Er). cbn [andb].
    replace (ofs (bm_co M) j + ecol e =? ofs (bm_co M) j + l) with (ecol e =? l); [reflexivity|].
    destruct (Z.eqb_spec (ecol e) l); symmetry; [apply Z.eqb_eq|apply Z.eqb_neq]; lia.
  - apply (sum_map_0 R). intros e He.
    apply (fun h => proj1 (In_row_entries _ k e Hv) (conj h Hk')) in He. destruct He as (He & Er).
    pose proof (entries_in_shape _ Hv) as Hs. unfold in_shape in Hs. rewrite Forall_forall in Hs. specialize (Hs e He).
    unfold at_pos. cbn [erow ecol evalue fst snd]. rewrite Z.eqb_refl. cbn [andb].
    destruct (Z.eqb_spec (ofs (bm_co M) j' + ecol e) (ofs (bm_co M) j + l)) as [E|]; [|reflexivity].
    exfalso. apply Hne. rewrite <- (blk_at (bm_co M) j' (ecol e)) by (try apply H; auto; lia). rewrite E. apply blk_at; auto; apply H.
Qed.

Lemma at_blocks l r : offsets_ok l -> 0 <= r < total l ->
  exists i k, 0 <= i < nblocks l /\ 0 <= k < bsize l i /\ r = ofs l i + k.
Proof.
  intros H Hr. destruct (blk_ok l r H Hr) as (Hb & Hrb).
  exists (blk l r), (r - ofs l (blk l r)). unfold bsize. lia.
Qed.

Lemma combined_mat M C r c : bm_ok M -> bm_combine M = Ok C ->
  0 <= r < bm_rows M -> 0 <= c < bm_cols M -> csr_mat C r c = bm_mat M r c.
Proof.
  intros H HC Hr Hc. rewrite (bk_rows M H) in Hr. rewrite (bk_cols M H) in Hc.
  destruct (at_blocks _ r (bk_ro M H) Hr) as (i & k & Hi & Hk & ->).
  destruct (at_blocks _ c (bk_co M H) Hc) as (j & l & Hj & Hl & ->).
  unfold bm_mat. rewrite tile_at by (auto; apply H). apply combined_mat_at; auto.
Qed.

Lemma bm_mult_spec M x out : bm_ok M -> zlen x = bm_cols M -> zlen out = bm_rows M ->
  exists y, bm_mult M x out = Ok y /\ zlen y = bm_rows M /\
    (forall r, 0 <= r < bm_rows M -> vec_of y r = mat_vec (bm_mat M) (bm_cols M) (vec_of x) r) /\
    (forall i k, 0 <= i < nblocks (bm_ro M) -> 0 <= k < bsize (bm_ro M) i ->
       vec_of y (ofs (bm_ro M) i + k)
       = sum_range 0 (nblocks (bm_co M)) (fun j =>
           mat_vec (csr_mat (bm_block M i j)) (bsize (bm_co M) j) (vpart (bm_co M) (vec_of x) j) k)).
Proof.
  intros H Hx Ho. pose proof (bm_combine_rows M H) as HC.
  destruct (combined_shape M _ H HC) as (HV & HR & HCc).
  rewrite (bm_mult_combined M _ x out H HC). set (C := csr_of_rows (bm_rows M) (bm_cols M) (brow M)) in *.
  destruct (sp_mult_spec R C x out HV Hx Ho) as (y & E & Hl & Hy). exists y.
  assert (Hy' : forall r, 0 <= r < bm_rows M -> vec_of y r = mat_vec (bm_mat M) (bm_cols M) (vec_of x) r).
  { intros r Hr. rewrite Hy by exact Hr. apply mat_vec_ext; auto. intros c Hc. apply combined_mat; auto. }
  repeat split; auto.
  intros i k Hi Hk. rewrite Hy'.
  - rewrite (bk_cols M H). unfold bm_mat. apply tile_mult; auto; apply H.
  - rewrite (bk_rows M H). apply ofs_in; auto. apply H.
Qed.

Lemma bm_multAT_spec M x out : bm_ok M -> zlen x = bm_rows M -> zlen out = bm_cols M ->
  exists y, bm_multAT M x out = Ok y /\ zlen y = bm_cols M /\
    (forall c, 0 <= c < bm_cols M -> vec_of y c = mat_vec (mat_T (bm_mat M)) (bm_rows M) (vec_of x) c) /\
    (forall j l, 0 <= j < nblocks (bm_co M) -> 0 <= l < bsize (bm_co M) j ->
       vec_of y (ofs (bm_co M) j + l)
       = sum_range 0 (nblocks (bm_ro M)) (fun i =>
           mat_vec (mat_T (csr_mat (bm_block M i j))) (bsize (bm_ro M) i) (vpart (bm_ro M) (vec_of x) i) l)).
Proof.
  intros H Hx Ho. pose proof (bm_combine_rows M H) as HC.
  destruct (combined_shape M _ H HC) as (HV & HR & HCc).
  rewrite (bm_multAT_combined M _ x out H HC). set (C := csr_of_rows (bm_rows M) (bm_cols M) (brow M)) in *.
  destruct (sp_multAT_spec R C x out HV Hx Ho) as (y & E & Hl & Hy). exists y.
  assert (Hy' : forall c, 0 <= c < bm_cols M -> vec_of y c = mat_vec (mat_T (bm_mat M)) (bm_rows M) (vec_of x) c).
  { intros c Hc. rewrite Hy by exact Hc. apply mat_vec_ext; auto. intros r Hr. unfold mat_T. apply combined_mat; auto. }
  repeat split; auto.
  intros j l Hj Hl'. rewrite Hy'.
  - rewrite (bk_rows M H).
    etransitivity; [apply (mat_vec_ext _ (tile (bm_co M) (bm_ro M) (fun j i => mat_T (csr_mat (bm_block M i j)))) _ _ (vec_of x)); auto|].
    + intros r Hr. apply tile_T.
    + rewrite tile_mult by (auto; apply H). reflexivity.
  - rewrite (bk_cols M H). apply ofs_in; auto. apply H.
Qed.

Lemma bm_adjoint M x y out1 out2 u v : bm_ok M -> bm_mult M x out1 = Ok u -> bm_multAT M y out2 = Ok v ->
  inner (bm_rows M) (vec_of u) (vec_of y) = inner (bm_cols M) (vec_of x) (vec_of v).
Proof.
  intros H Hu Hv. pose proof (bm_combine_rows M H) as HC.
  destruct (combined_shape M _ H HC) as (HV & HR & HCc).
  rewrite (bm_mult_combined M _ _ _ H HC) in Hu. rewrite (bm_multAT_combined M _ _ _ H HC) in Hv.
  exact (sp_adjoint R _ x y out1 out2 u v HV Hu Hv).
Qed.

End Values.

(* ---------------------------------------------------------------- histories *)

Lemma bm_new_ok ro co : offsets_ok ro -> offsets_ok co ->
  exists M, bm_new ro co = Ok M /\ bm_ok M /\ bm_ro M = ro /\ bm_co M = co /\
    forall i j, 0 <= i < nblocks ro -> 0 <= j < nblocks co -> bm_block M i j = sp_empty.
Proof.
  intros Hro Hco. unfold bm_new. rewrite !back_ok by assumption. cbn [bind].
  pose proof (total_nonneg ro Hro). pose proof (total_nonneg co Hco).
  rewrite (proj2 (Z.leb_le 0 (total ro))), (proj2 (Z.leb_le 0 (total co))) by assumption. cbn [assert_ bind].
  pose proof (nblocks_nonneg ro Hro). pose proof (nblocks_nonneg co Hco).
  fold (nblocks ro) (nblocks co).
  rewrite vec_ok by assumption. cbn [bind]. rewrite vec_ok by assumption. cbn [bind].
  assert (Hb : forall i j, 0 <= i < nblocks ro -> 0 <= j < nblocks co ->
    zn (@sp_empty S) (zn [] (repeat (repeat sp_empty (Z.to_nat (nblocks co))) (Z.to_nat (nblocks ro))) i) j = sp_empty).
  { intros i j Hi Hj. rewrite (zn_repeat []) by lia. apply zn_repeat. lia. }
  eexists. split; [reflexivity|]. split; [|split; [reflexivity|split; [reflexivity|exact Hb]]].
  split; cbn [bm_ro bm_co bm_rows bm_cols bm_A]; auto.
  - rewrite zlen_repeat. lia.
  - intros i Hi. rewrite (zn_repeat []) by lia. rewrite zlen_repeat. lia.
  - intros i j Hi Hj. left. apply Hb; auto.
Qed.

(** When SetBlock goes through. *)
Definition fits M (i j : Z) (B : csr S) : Prop :=
  0 <= i < nblocks (bm_ro M) /\ 0 <= j < nblocks (bm_co M) /\
  c_rows B = bsize (bm_ro M) i /\ c_cols B = bsize (bm_co M) j.

Lemma bm_set_ok M i j B : bm_ok M -> csr_valid B -> fits M i j B ->
  exists M', bm_set_block M i j B = Ok M' /\ bm_ok M' /\ bm_ro M' = bm_ro M /\ bm_co M' = bm_co M /\
    forall a b, 0 <= a < nblocks (bm_ro M) -> 0 <= b < nblocks (bm_co M) ->
      bm_block M' a b = if (a =? i) && (b =? j) then B else bm_block M a b.
Proof.
  intros H HB (Hi & Hj & Hr & Hc). unfold bm_set_block. fold (nblocks (bm_ro M)) (nblocks (bm_co M)).
  rewrite (proj2 (Z.ltb_lt i _)), (proj2 (Z.ltb_lt j _)) by lia. cbn [assert_ bind].
  assert (L1 : zlen (bm_ro M) = nblocks (bm_ro M) + 1) by (unfold nblocks; lia).
  assert (L2 : zlen (bm_co M) = nblocks (bm_co M) + 1) by (unfold nblocks; lia).
  rewrite !get_ofs by lia. cbn [bind]. 
  rewrite (proj2 (Z.eqb_eq (c_rows B) _)) by (rewrite Hr; reflexivity). cbn [assert_ bind].
  rewrite (proj2 (Z.eqb_eq (c_cols B) _)) by (rewrite Hc; reflexivity). cbn [assert_ bind].
  rewrite (get_ok ([] : list (csr S))) by (rewrite (bk_A M H); lia). cbn [bind].
  rewrite set_ok by (rewrite (bk_row M H) by lia; lia). cbn [bind].
  rewrite set_ok by (rewrite (bk_A M H); lia). cbn [bind].
  match goal with |- exists M', Ok ?X = _ /\ _ => set (M1 := X) end.
  assert (Hb : forall a b, 0 <= a < nblocks (bm_ro M) -> 0 <= b < nblocks (bm_co M) ->
      bm_block M1 a b = if (a =? i) && (b =? j) then B else bm_block M a b).
  { intros a b Ha Hb. unfold bm_block. cbn [bm_A M1].
    rewrite (zn_upd []) by (rewrite ?(bk_A M H); lia). destruct (Z.eqb_spec a i) as [->|]; [|reflexivity].
    rewrite zn_upd by (rewrite ?(bk_row M H) by lia; lia). cbn [andb]. reflexivity. }
  exists M1. split; [reflexivity|]. split; [|split; [reflexivity|split; [reflexivity|exact Hb]]].
  split; cbn [bm_ro bm_co bm_rows bm_cols bm_A M1]; try apply H.
  - rewrite zlen_upd. apply H.
  - intros a Ha. rewrite (zn_upd []) by (rewrite ?(bk_A M H); lia).
    destruct (Z.eqb_spec a i) as [->|]; [rewrite zlen_upd|]; apply H; auto.
  - intros a b Ha Hb'. rewrite Hb by auto. destruct (Z.eqb_spec a i) as [->|], (Z.eqb_spec b j) as [->|]; cbn [andb]; try (apply H; auto).
    right. auto.
Qed.

Lemma bm_set_not M i j B : 0 <= i < nblocks (bm_ro M) -> 0 <= j < nblocks (bm_co M) -> ~ fits M i j B ->
  bm_set_block M i j B = Fail FAssert.
Proof.
  intros Hi Hj Hn. unfold bm_set_block. fold (nblocks (bm_ro M)) (nblocks (bm_co M)).
  rewrite (proj2 (Z.ltb_lt i _)), (proj2 (Z.ltb_lt j _)) by lia. cbn [assert_ bind].
  assert (L1 : zlen (bm_ro M) = nblocks (bm_ro M) + 1) by (unfold nblocks; lia).
  assert (L2 : zlen (bm_co M) = nblocks (bm_co M) + 1) by (unfold nblocks; lia).
  rewrite !get_ofs by lia. cbn [bind].
  destruct (Z.eqb_spec (c_rows B) (ofs (bm_ro M) (i + 1) - ofs (bm_ro M) i)) as [E1|]; [|reflexivity]. cbn [assert_ bind].
  destruct (Z.eqb_spec (c_cols B) (ofs (bm_co M) (j + 1) - ofs (bm_co M) j)) as [E2|]; [|reflexivity].
  exfalso. apply Hn. unfold fits, bsize. auto.
Qed.

Lemma bm_set_inv M i j B M' : bm_set_block M i j B = Ok M' -> fits M i j B.
Proof.
  unfold bm_set_block. intros E.
  destruct (Z.ltb_spec i (zlen (bm_ro M) - 1)); [|discriminate].
  destruct (Z.ltb_spec j (zlen (bm_co M) - 1)); [|discriminate]. cbn [assert_ bind] in E.
  destruct (get (bm_ro M) (i + 1)) as [r1|] eqn:E1; [|discriminate].
  destruct (get (bm_ro M) i) as [r0|] eqn:E2; [|discriminate]. cbn [bind] in E.
  destruct (Z.eqb_spec (c_rows B) (r1 - r0)); [|discriminate].
  destruct (get (bm_co M) (j + 1)) as [c1|] eqn:E3; [|discriminate].
  destruct (get (bm_co M) j) as [c0|] eqn:E4; [|discriminate]. cbn [assert_ bind] in E.
  destruct (Z.eqb_spec (c_cols B) (c1 - c0)); [|discriminate].
  apply (get_Ok_inv 0) in E1, E2, E3, E4. unfold fits, nblocks, bsize, ofs. lia.
Qed.

Lemma bm_sets_ok l : forall M M', bm_ok M -> Forall (fun e : Z * Z * csr S => csr_valid (snd e)) l -> bm_sets M l = Ok M' ->
  bm_ok M' /\ bm_ro M' = bm_ro M /\ bm_co M' = bm_co M /\
  forall i j, 0 <= i < nblocks (bm_ro M) -> 0 <= j < nblocks (bm_co M) -> bm_block M' i j = last_set l i j (bm_block M i j).
Proof.
  induction l as [|[[a b] C] l IH]; intros M M' H HF E.
  - injection E as <-. auto.
  - pose proof (Forall_inv HF) as HC. pose proof (Forall_inv_tail HF) as HF'. cbn [snd] in HC.
    unfold bm_sets in E. cbn [foldM fst snd] in E.
    destruct (bm_set_block M a b C) as [M1|f] eqn:ES; [|discriminate]. cbn [bind] in E.
    pose proof (bm_set_inv _ _ _ _ _ ES) as Hf.
    destruct (bm_set_ok M a b C H HC Hf) as (M2 & E2 & H2 & Hro & Hco & Hb).
    rewrite ES in E2. injection E2 as <-.
    destruct (IH M1 M' H2 HF' E) as (H3 & Hro3 & Hco3 & Hb3).
    rewrite Hro3, Hco3, Hro, Hco. repeat split; auto; try apply H3.
    intros i j Hi Hj. rewrite Hb3 by (rewrite ?Hro, ?Hco; auto). rewrite Hb by auto. reflexivity.
Qed.

Lemma bm_built_ok ro co l M : offsets_ok ro -> offsets_ok co -> bm_built ro co l M ->
  bm_ok M /\ bm_ro M = ro /\ bm_co M = co /\
  forall i j, 0 <= i < nblocks ro -> 0 <= j < nblocks co -> bm_block M i j = last_set l i j sp_empty.
Proof.
  intros Hro Hco (HF & E). destruct (bm_new_ok ro co Hro Hco) as (M0 & E0 & H0 & R0 & C0 & B0).
  rewrite E0 in E. cbn [bind] in E. destruct (bm_sets_ok l M0 M H0 HF E) as (H1 & R1 & C1 & B1).
  rewrite R1, C1, R0, C0. repeat split; auto; try apply H1.
  intros i j Hi Hj. rewrite B1 by (rewrite ?R0, ?C0; auto). rewrite B0 by auto. reflexivity.
Qed.

(* ---------------------------------------------------------------- Transpose *)

Lemma bm_get_block_ok M i j : bm_ok M -> 0 <= i < nblocks (bm_ro M) -> 0 <= j < nblocks (bm_co M) ->
  bm_get_block M i j = Ok (bm_block M i j).
Proof.
  intros H Hi Hj. unfold bm_get_block. fold (nblocks (bm_ro M)) (nblocks (bm_co M)).
  rewrite (proj2 (Z.ltb_lt i _)), (proj2 (Z.ltb_lt j _)) by lia. cbn [assert_ bind]. apply bm_at_ok; auto.
Qed.

Lemma bm_transpose_ok M : bm_ok M -> transposable M ->
  exists N, bm_transpose M = Ok N /\ bm_ok N /\ bm_ro N = bm_co M /\ bm_co N = bm_ro M /\
    forall i j, 0 <= i < nblocks (bm_ro M) -> 0 <= j < nblocks (bm_co M) -> bm_block N j i = bm_block M i j.
Proof.
  intros H HT. unfold bm_transpose.
  destruct (bm_new_ok (bm_co M) (bm_ro M) (bk_co M H) (bk_ro M H)) as (N0 & E0 & H0 & R0 & C0 & _).
  rewrite E0. cbn [bind]. fold (nblocks (bm_ro M)) (nblocks (bm_co M)).
  pose proof (nblocks_nonneg _ (bk_ro M H)) as Hn1. pose proof (nblocks_nonneg _ (bk_co M H)) as Hn2.
  pose (J := fun (n m : Z) (N : bmat S) => bm_ok N /\ bm_ro N = bm_co M /\ bm_co N = bm_ro M /\
    forall i j, 0 <= i < nblocks (bm_ro M) -> 0 <= j < nblocks (bm_co M) -> i < n \/ (i = n /\ j < m) -> bm_block N j i = bm_block M i j).
  match goal with |- exists N, ?m = _ /\ _ => assert (Hm : returns m (J (nblocks (bm_ro M)) 0)) end.
  { apply (returns_for (fun n => J n 0)); auto.
    - split; [exact H0|]. repeat split; auto. intros; lia.
    - intros i N Hi HN. apply (returns_for (J i)); auto.
      + intros j N1 Hj (H1 & R1 & C1 & B1). rewrite bm_get_block_ok by auto. cbn [bind].
        destruct (HT i j Hi Hj) as (Er & Ec).
        destruct (bm_set_ok N1 j i (bm_block M i j) H1) as (N2 & E2 & H2 & R2 & C2 & B2).
        * eapply block_valid, (bk_block M H); auto.
        * unfold fits. rewrite R1, C1. auto.
        * rewrite E2. cbn [returns]. split; [exact H2|]. rewrite R2, C2. repeat split; auto.
          intros a b Ha Hb Hab. rewrite B2 by (rewrite ?R1, ?C1; auto).
          destruct (Z.eqb_spec b j) as [->|]; destruct (Z.eqb_spec a i) as [->|]; cbn [andb]; try reflexivity; apply B1; auto; lia.
      + intros N1 (H1 & R1 & C1 & B1). split; [exact H1|]. repeat split; auto. intros a b Ha Hb Hab. apply B1; auto. lia. }
  apply returns_exists in Hm. destruct Hm as (N & EN & H1 & R1 & C1 & B1).
  exists N. split; [exact EN|]. repeat split; auto; try apply H1.
  intros i j Hi Hj. apply B1; auto. lia.
Qed.

Lemma bm_transpose_fails M i0 j0 : bm_ok M -> 0 <= i0 < nblocks (bm_ro M) -> 0 <= j0 < nblocks (bm_co M) ->
  ~ (c_rows (bm_block M i0 j0) = bsize (bm_co M) j0 /\ c_cols (bm_block M i0 j0) = bsize (bm_ro M) i0) ->
  bm_transpose M = Fail FAssert.
Proof.
  intros H Hi0 Hj0 HT. unfold bm_transpose.
  destruct (bm_new_ok (bm_co M) (bm_ro M) (bk_co M H) (bk_ro M H)) as (N0 & E0 & H0 & R0 & C0 & _).
  rewrite E0. cbn [bind]. fold (nblocks (bm_ro M)) (nblocks (bm_co M)).
  pose (J := fun (N : bmat S) => bm_ok N /\ bm_ro N = bm_co M /\ bm_co N = bm_ro M).
  assert (Hstep : forall i j N, 0 <= i < nblocks (bm_ro M) -> 0 <= j < nblocks (bm_co M) -> J N ->
    (B <- bm_get_block M i j ;; bm_set_block N j i B) = Fail FAssert \/
    exists N', (B <- bm_get_block M i j ;; bm_set_block N j i B) = Ok N' /\ J N').
  { intros i j N Hi Hj (H1 & R1 & C1). rewrite bm_get_block_ok by auto. cbn [bind].
    destruct (Z.eq_dec (c_rows (bm_block M i j)) (bsize (bm_co M) j)) as [Er|Er];
    destruct (Z.eq_dec (c_cols (bm_block M i j)) (bsize (bm_ro M) i)) as [Ec|Ec].
    { right. destruct (bm_set_ok N j i (bm_block M i j) H1) as (N2 & E2 & H2 & R2 & C2 & _).
      - eapply block_valid, (bk_block M H); auto.
      - unfold fits. rewrite R1, C1. auto.
      - exists N2. split; [exact E2|]. unfold J. rewrite R2, C2. auto. }
    all: left; apply bm_set_not; rewrite ?R1, ?C1; auto; intros (_ & _ & Hr & Hc); rewrite R1, C1 in *; auto. }
  apply (for_fails J FAssert) with (i0 := i0); auto.
  - split; [exact H0|]. auto.
  - intros i N Hi HN.
    destruct (for_ 0 (nblocks (bm_co M)) N (fun j N => B <- bm_get_block M i j ;; bm_set_block N j i B)) as [N'|f] eqn:EF.
    + right. exists N'. split; [reflexivity|].
      assert (G : forall l N1, J N1 -> (forall j, In j l -> 0 <= j < nblocks (bm_co M)) -> forall N2,
         foldM (fun N j => B <- bm_get_block M i j ;; bm_set_block N j i B) l N1 = Ok N2 -> J N2).
      { induction l as [|j l IH]; intros N1 HJ Hl N2 E2; [injection E2 as <-; exact HJ|]. cbn [foldM] in E2.
        destruct (Hstep i j N1 Hi (Hl j (or_introl eq_refl)) HJ) as [Ex|(N3 & Ex & HJ3)]; rewrite Ex in E2; [discriminate|].
        cbn [bind] in E2. apply (IH N3); auto. intros; apply Hl; right; assumption. }
      eapply (G (zrange 0 (nblocks (bm_co M))) N); [exact HN| |exact EF]. intros j Hj. apply In_zrange, Hj.
    + left. f_equal.
      assert (G : forall l N1, J N1 -> (forall j, In j l -> 0 <= j < nblocks (bm_co M)) -> forall f2,
         foldM (fun N j => B <- bm_get_block M i j ;; bm_set_block N j i B) l N1 = Fail f2 -> f2 = FAssert).
      { induction l as [|j l IH]; intros N1 HJ Hl f2 E2; [discriminate|]. cbn [foldM] in E2.
        destruct (Hstep i j N1 Hi (Hl j (or_introl eq_refl)) HJ) as [Ex|(N3 & Ex & HJ3)]; rewrite Ex in E2; cbn [bind] in E2.
        - injection E2 as <-. reflexivity.
        - apply (IH N3); auto. intros; apply Hl; right; assumption. }
      eapply (G (zrange 0 (nblocks (bm_co M))) N); [exact HN| |exact EF]. intros j Hj. apply In_zrange, Hj.
  - intros N HN. apply (for_fails J FAssert) with (i0 := j0); auto.
    intros N1 (H1 & R1 & C1). rewrite bm_get_block_ok by auto. cbn [bind].
    apply bm_set_not; rewrite ?R1, ?C1; auto. intros (_ & _ & Hr & Hc). rewrite R1, C1 in *. auto.
Qed.

Lemma bm_transpose_values (R : ring_laws S) M N i j k l : bm_ok M -> bm_transpose M = Ok N ->
  0 <= i < nblocks (bm_ro M) -> 0 <= j < nblocks (bm_co M) ->
  0 <= k < bsize (bm_co M) j -> 0 <= l < bsize (bm_ro M) i ->
  bm_rows N = bm_cols M /\ bm_cols N = bm_rows M /\
  bm_mat N (ofs (bm_co M) j + k) (ofs (bm_ro M) i + l) = csr_mat (bm_block M i j) k l.
Proof.
  intros H E Hi Hj Hk Hl.
  assert (HT : transposable M).
  { intros a b Ha Hb.
    destruct (Z.eq_dec (c_rows (bm_block M a b)) (bsize (bm_co M) b)) as [Er|Er];
    destruct (Z.eq_dec (c_cols (bm_block M a b)) (bsize (bm_ro M) a)) as [Ec|Ec]; auto;
    exfalso; rewrite (bm_transpose_fails M a b) in E; auto; try discriminate; intros (?&?); auto. }
  destruct (bm_transpose_ok M H HT) as (N' & E' & HN & RN & CN & BN). rewrite E in E'. injection E' as <-.
  split; [|split].
  - rewrite (bk_rows N HN), RN, (bk_cols M H). reflexivity.
  - rewrite (bk_cols N HN), CN, (bk_rows M H). reflexivity.
  - unfold bm_mat. rewrite RN, CN. rewrite (tile_at R) by (auto; apply H). rewrite BN by auto. reflexivity.
Qed.

End BlockMore.
