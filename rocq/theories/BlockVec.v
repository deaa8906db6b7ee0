(** BlockVector: the blocks are views that tile the vector. *)

From Coq Require Import ZArith List Bool Lia.
From Verif Require Import Base Scalar Spec Dense Sparse SumFacts LoopFacts Vec VecSpec VecProofs VecState VecMore Block BlockSpec BlockFacts BlockProofs BlockMore.
Import ListNotations.
Open Scope Z_scope.

(** Every position lies in exactly one block, at exactly one place. *)
Lemma offsets_tile l r : offsets_ok l -> 0 <= r < total l ->
  exists i k, (0 <= i < nblocks l /\ 0 <= k < bsize l i /\ r = ofs l i + k) /\
    forall i' k', 0 <= i' < nblocks l -> 0 <= k' < bsize l i' -> r = ofs l i' + k' -> i' = i /\ k' = k.
Proof.
  intros H Hr. destruct (at_blocks l r H Hr) as (i & k & Hi & Hk & E). exists i, k. split; [auto|].
  intros i' k' Hi' Hk' E'. assert (i' = i) by (rewrite <- (blk_at l i k H Hi Hk), <- (blk_at l i' k' H Hi' Hk'); congruence).
  subst i'. split; [reflexivity|lia].
Qed.

Section BlockVec.
Context {S : scalar}.
Notation T := (car S).
Implicit Type h : heap S.

Lemma view_len_buf h v : view_ok h v -> v_len v <> 0 -> v_buf v <> -1.
Proof. intros (_ & [E|(k & E & _)]) Hn K; [contradiction|]. apply h_block_inv in E. lia. Qed.

Lemma bv_block_ok h w offs i : bv_ok h w offs -> 0 <= i < nblocks offs ->
  exists b, bv_block w offs i = Ok b /\ view_ok h b /\ v_len b = bsize offs i /\
    forall k, vat h b k = vat h (w_view w) (ofs offs i + k).
Proof.
  intros (Hv & Ho & Hl) Hi. unfold bv_block. fold (nblocks offs). rewrite (proj2 (Z.ltb_lt i _)) by lia. cbn [assert_ bind].
  rewrite !get_ofs by (unfold nblocks in Hi; lia). cbn [bind]. fold (bsize offs i).
  pose proof (bsize_nonneg offs i Ho Hi) as Hb. pose proof (ofs_nonneg offs i Ho ltac:(lia)) as H0.
  pose proof (ofs_nonneg offs (i + 1) Ho ltac:(lia)) as H1.
  unfold v_make. rewrite (proj2 (Z.leb_le 0 _) Hb). cbn [assert_ bind].
  assert (E : ((bsize offs i =? 0) || negb (v_buf (w_view w) =? -1)) = true).
  { destruct (Z.eqb_spec (bsize offs i) 0); [reflexivity|]. cbn [orb]. apply negb_true_iff, Z.eqb_neq.
    apply (view_len_buf h _ Hv). unfold bsize in *. lia. }
  rewrite E. cbn [assert_ bind]. eexists. split; [reflexivity|]. split; [|split; [reflexivity|]].
  - split; [exact Hb|]. cbn [v_len v_buf v_off]. destruct Hv as (_ & [Hz|(k & E1 & H2 & H3)]).
    + left. unfold bsize in *. lia.
    + right. exists k. split; [exact E1|]. unfold bsize in *. lia.
  - intros k. unfold vat, v_at. cbn [v_buf v_off]. rewrite Z.add_assoc. reflexivity.
Qed.

Lemma bv_block_write h w offs i b g h' : bv_ok h w offs -> 0 <= i < nblocks offs -> bv_block w offs i = Ok b -> writes h b g h' ->
  bv_ok h' w offs /\
  (forall r, 0 <= r < total offs -> vat h' (w_view w) r = if in_block offs i r then g (r - ofs offs i) else vat h (w_view w) r) /\
  (forall j c k, 0 <= j < nblocks offs -> j <> i -> bv_block w offs j = Ok c -> 0 <= k < bsize offs j -> vat h' c k = vat h c k).
Proof.
  intros H Hi Eb HW. destruct H as (Hv & Ho & Hl). 
  assert (Evb : b = View (v_buf (w_view w)) (v_off (w_view w) + ofs offs i) (bsize offs i)).
  { unfold bv_block in Eb. destruct (i <? zlen offs - 1); [|discriminate]. cbn [assert_ bind] in Eb.
    rewrite !get_ofs in Eb by (unfold nblocks in Hi; lia). cbn [bind] in Eb. unfold v_make in Eb.
    destruct (0 <=? _); [|discriminate]. cbn [assert_ bind] in Eb.
    destruct (_ || _); [|discriminate]. cbn [assert_ bind] in Eb. injection Eb as <-. reflexivity. }
  assert (Hw : forall r, 0 <= r < total offs -> vat h' (w_view w) r = if in_block offs i r then g (r - ofs offs i) else vat h (w_view w) r).
  { intros r Hr. destruct (HW (w_view w) Hv) as (_ & HV). rewrite HV by lia. unfold inside, in_block. subst b. cbn [v_buf v_off v_len].
    rewrite Z.eqb_refl. cbn [andb].
    replace (v_off (w_view w) + ofs offs i <=? v_off (w_view w) + r) with (ofs offs i <=? r) by (destruct (Z.leb_spec (ofs offs i) r), (Z.leb_spec (v_off (w_view w) + ofs offs i) (v_off (w_view w) + r)); try reflexivity; lia).
    replace (v_off (w_view w) + r <? v_off (w_view w) + ofs offs i + bsize offs i) with (r <? ofs offs (i + 1)).
    2: { unfold bsize. destruct (Z.ltb_spec r (ofs offs (i + 1))), (Z.ltb_spec (v_off (w_view w) + r) (v_off (w_view w) + ofs offs i + (ofs offs (i + 1) - ofs offs i))); try reflexivity; lia. }
    destruct ((ofs offs i <=? r) && (r <? ofs offs (i + 1))); [f_equal; lia|reflexivity]. }
  assert (H' : bv_ok h' w offs) by (split; [apply (HW _ Hv)|auto]).
  split; [exact H'|]. split; [exact Hw|].
  intros j c k Hj Hn Ec Hk.
  destruct (bv_block_ok h w offs j (conj Hv (conj Ho Hl)) Hj) as (c1 & E1 & _ & _ & V1).
  destruct (bv_block_ok h' w offs j H' Hj) as (c2 & E2 & _ & _ & V2).
  rewrite Ec in E1, E2. injection E1 as <-. injection E2 as <-. rewrite V1, V2, Hw by (apply ofs_in; auto).
  rewrite in_block_iff, blk_at by (auto; apply ofs_in; auto). destruct (Z.eqb_spec i j); [congruence|reflexivity].
Qed.

Lemma bv_block_high (w : vector) offs i : nblocks offs <= i -> bv_block w offs i = Fail FAssert.
Proof. intros H. unfold bv_block. fold (nblocks offs). destruct (Z.ltb_spec i (nblocks offs)); [lia|reflexivity]. Qed.
Lemma bv_block_negative (w : vector) offs i : offsets_ok offs -> i < 0 -> bv_block w offs i = Fail FUB.
Proof.
  intros Ho Hi. pose proof (nblocks_nonneg offs Ho). unfold bv_block. fold (nblocks offs). rewrite (proj2 (Z.ltb_lt i _)) by lia. cbn [assert_ bind].
  rewrite get_out by lia. reflexivity.
Qed.

(* ---------------------------------------------------------------- constructors *)

Variable grow : Z -> Z -> Z.

Lemma last_var_ok (st : vstate S) vs l offs : reached grow st -> values st = vs ++ [l] -> offsets_ok offs -> zlen l = total offs ->
  bv_ok (st_heap st) (zn w_new (st_vars st) (zlen vs)) offs.
Proof.
  intros R E Ho Hl. pose proof (reached_good grow st R) as G. rewrite (values_vals st G) in E.
  pose proof (zlen_nonneg vs) as H0.
  assert (Hn : zlen (st_vars st) = zlen vs + 1) by (rewrite <- (zlen_vals (st_heap st)), E, zlen_app, zlen_cons, zlen_nil; lia).
  pose proof (proj1 G (zlen vs) ltac:(lia)) as W. pose proof (w_ok_view _ _ W) as V.
  assert (Hc : cells (st_heap st) (w_data (zn w_new (st_vars st) (zlen vs))) = l).
  { rewrite <- zn_vals by lia. rewrite E. rewrite zn_app_r by lia. rewrite Z.sub_diag. apply zn_cons_0. }
  split; [|split; [exact Ho|]].
  - rewrite V. apply cells_view_ok; [lia|apply zlen_nonneg|lia].
  - rewrite V. cbn [v_len]. rewrite Hc. exact Hl.
Qed.

Lemma bv_new_ok (st : vstate S) offs t : reached grow st -> offsets_ok offs ->
  exists st', bv_new grow st offs t = Ok (st', offs) /\ reached grow st' /\
    values st' = values st ++ [repeat t (Z.to_nat (total offs))] /\
    bv_ok (st_heap st') (zn w_new (st_vars st') (zlen (values st))) offs.
Proof.
  intros R Ho. pose proof (total_nonneg offs Ho) as Ht.
  destruct (reached_step grow st [PNew (total offs) t] (values st ++ [repeat t (Z.to_nat (total offs))]) R) as (st' & E & R' & V).
  { cbn [spec_vops spec_vop]. rewrite (proj2 (Z.leb_le 0 _) Ht). reflexivity. }
  exists st'. cbn [run_vops foldM run_vop] in E. unfold run_vops in E. cbn [foldM run_vop] in E. unfold bv_new. rewrite back_ok by exact Ho. cbn [bind].
  destruct (st_new grow st (total offs) t) as [s1|]; [|discriminate]. cbn [bind] in E. injection E as ->. cbn [bind].
  split; [reflexivity|]. split; [exact R'|]. split; [exact V|].
  apply (last_var_ok st' (values st) _ offs R' V Ho). rewrite zlen_repeat. lia.
Qed.

Lemma bv_of_view_ok (st : vstate S) r x off offs : reached grow st -> offsets_ok offs ->
  lref (values st) r = Some (x, off, total offs) ->
  exists st', bv_of_view grow st r offs = Ok (st', offs) /\ reached grow st' /\
    values st' = values st ++ [lslice (values st) x off (total offs)] /\
    bv_ok (st_heap st') (zn w_new (st_vars st') (zlen (values st))) offs.
Proof.
  intros R Ho Hr. pose proof (total_nonneg offs Ho) as Ht.
  destruct (reached_step grow st [POfView r] (values st ++ [lslice (values st) x off (total offs)]) R) as (st' & E & R' & V).
  { cbn [spec_vops spec_vop]. rewrite Hr. reflexivity. }
  exists st'. unfold run_vops in E. cbn [foldM run_vop] in E. unfold bv_of_view.
  destruct (st_of_view grow st r) as [s1|]; [|discriminate]. cbn [bind] in E. injection E as ->. cbn [bind].
  split; [reflexivity|]. split; [exact R'|]. split; [exact V|].
  apply (last_var_ok st' (values st) _ offs R' V Ho). unfold lslice. apply zlen_map_zrange. exact Ht.
Qed.

(** Too short data is accepted; some block then reaches beyond it. *)
Lemma bv_of_view_short (st : vstate S) r x off n offs : reached grow st -> offsets_ok offs ->
  lref (values st) r = Some (x, off, n) -> 0 < n < total offs ->
  exists st' i b, bv_of_view grow st r offs = Ok (st', offs) /\ 0 <= i < nblocks offs /\
    bv_block (zn w_new (st_vars st') (zlen (values st))) offs i = Ok b /\ ~ view_ok (st_heap st') b.
Proof.
  intros R Ho Hr Hn.
  destruct (reached_step grow st [POfView r] (values st ++ [lslice (values st) x off n]) R) as (st' & E & R' & V).
  { cbn [spec_vops spec_vop]. rewrite Hr. reflexivity. }
  unfold run_vops in E. cbn [foldM run_vop] in E. unfold bv_of_view.
  destruct (st_of_view grow st r) as [s1|]; [|discriminate]. cbn [bind] in E. injection E as ->. cbn [bind].
  pose proof (reached_good grow st' R') as G. rewrite (values_vals st' G) in V.
  pose proof (zlen_nonneg (values st)) as H0. set (vs := values st) in *.
  assert (Hm : zlen (st_vars st') = zlen vs + 1) by (rewrite <- (zlen_vals (st_heap st')), V, zlen_app, zlen_cons, zlen_nil; lia).
  pose proof (proj1 G (zlen vs) ltac:(lia)) as W. pose proof (w_ok_view _ _ W) as Vw.
  set (w := zn w_new (st_vars st') (zlen vs)) in *.
  assert (Hc : zlen (cells (st_heap st') (w_data w)) = n).
  { unfold w. rewrite <- zn_vals by lia. rewrite V. rewrite zn_app_r by lia. rewrite Z.sub_diag, zn_cons_0. unfold lslice. apply zlen_map_zrange. lia. }
  destruct (at_blocks offs n Ho ltac:(lia)) as (i & k & Hi & Hk & En).
  pose proof (ofs_nonneg offs i Ho ltac:(lia)) as Hoi.
  exists st', i, (View (w_data w) (0 + ofs offs i) (bsize offs i)). split; [reflexivity|]. split; [exact Hi|].
  assert (Hd : w_data w <> -1) by (intros K; rewrite K, cells_neg, zlen_nil in Hc; lia).
  split.
  - unfold bv_block. fold (nblocks offs). rewrite (proj2 (Z.ltb_lt i _)) by lia. cbn [assert_ bind].
    rewrite !get_ofs by (unfold nblocks in Hi; lia). cbn [bind]. fold (bsize offs i). change (zn w_new (st_vars st') (zlen vs)) with w. rewrite Vw. cbn [v_buf v_off].
    unfold v_make. rewrite (proj2 (Z.leb_le 0 (bsize offs i))) by lia. cbn [assert_ bind].
    destruct (Z.eqb_spec (w_data w) (-1)); [contradiction|]. rewrite orb_true_r. reflexivity.
  - intros (_ & [K|(b & Eb & _ & K)]); cbn [v_len v_off v_buf] in *; [lia|].
    unfold cells in Hc. rewrite Eb in Hc. lia.
Qed.

End BlockVec.
