(** Histories of calls on vectors, and the numerical functions of vectorview.hpp. *)

From Coq Require Import ZArith List Lia Bool.
From Verif Require Import Base Scalar Spec Dense LoopFacts SumFacts DenseProofs Vec VecSpec VecProofs VecState.
Import ListNotations.
Open Scope Z_scope.

Section VecMore.
Context {S : scalar}.
Notation T := (car S).
Implicit Types (h : heap S) (vs : list vector).

Section Histories.
Variable grow : Z -> Z -> Z.

Ltac finish st := exists st; split; [reflexivity|].

Lemma st_new_ok h vs n (t : T) : inv h vs -> 0 <= n ->
  exists st', st_new grow (VState h vs) n t = Ok st' /\ good st' /\ vals (st_heap st') (st_vars st') = vals h vs ++ [repeat t (Z.to_nat n)].
Proof.
  intros I Hn. unfold st_new. cbn [st_heap]. destruct (d_resize_ok grow h w_new n t (w_new_ok h) Hn) as (h1 & b1 & E & R).
  change (w_data w_new) with (-1) in *. rewrite E. cbn [bind]. rewrite (resized_view _ _ _ _ _ R). cbn [bind].
  rewrite cells_neg, firstn_nil, zlen_nil, Z.sub_0_r in R. cbn [app] in R. rewrite cells_neg, firstn_nil, zlen_nil, Z.sub_0_r. cbn [app].
  destruct (push_inv h vs h1 b1 _ I R) as (I' & V'). eexists. split; [reflexivity|]. split; [exact I'|exact V'].
Qed.

Lemma st_of_list_ok h vs (l : list T) : inv h vs ->
  exists st', st_of_list grow (VState h vs) l = Ok st' /\ good st' /\ vals (st_heap st') (st_vars st') = vals h vs ++ [l].
Proof.
  intros I. unfold st_of_list. cbn [st_heap]. set (cap := Z.max (zlen l) (grow 0 (zlen l))).
  pose proof (alloc_resized h l cap ltac:(unfold cap; lia)) as R. rewrite (surjective_pairing (h_alloc h l cap)).
  rewrite (resized_view _ _ _ _ _ R). cbn [bind]. destruct (push_inv h vs _ _ _ I R) as (I' & V'). eexists. split; [reflexivity|]. split; [exact I'|exact V'].
Qed.

(** a new variable holding cells off .. off+n-1 of buffer c *)
Lemma copy_push h vs c off n : inv h vs -> (c = -1 \/ 0 <= c < zlen h) -> 0 <= off -> 0 <= n -> off + n <= zlen (cells h c) ->
  exists h1 b1 h2, d_resize grow h (-1) n s0 = Ok (h1, b1) /\ v_copy h1 (View b1 0 n) (View c off n) = Ok h2 /\
    d_view h2 b1 = Ok (View b1 0 n) /\
    inv h2 (vs ++ [Vector (View b1 0 n) b1]) /\ vals h2 (vs ++ [Vector (View b1 0 n) b1]) = vals h vs ++ [map (fun i => zn s0 (cells h c) (off + i)) (zrange 0 n)].
Proof.
  intros I Hc Ho Hn Hl. destruct (d_resize_ok grow h w_new n s0 (w_new_ok h) Hn) as (h1 & b1 & E & R).
  change (w_data w_new) with (-1) in *. rewrite cells_neg, firstn_nil, zlen_nil, Z.sub_0_r in R. cbn [app] in R.
  assert (Zl : zlen (repeat (s0 : T) (Z.to_nat n)) = n) by (rewrite zlen_repeat; lia).
  assert (Fc : cells h1 c = cells h c) by (apply (frame_cells h (-1) h1 b1 _ c R Hc); lia).
  destruct (copy_into h (-1) h1 b1 _ c off R Ho) as (h2 & E2 & R2); [rewrite Fc, Zl; exact Hl|]. rewrite Zl in E2, R2. rewrite Fc in R2.
  set (l2 := map (fun i => zn s0 (cells h c) (off + i)) (zrange 0 n)) in *.
  assert (Zl2 : zlen l2 = n) by (unfold l2; rewrite zlen_map, zlen_zrange by lia; lia).
  destruct (push_inv h vs h2 b1 _ I R2) as (I' & V'). rewrite Zl2 in I', V'. pose proof (resized_view _ _ _ _ _ R2) as Ev. rewrite Zl2 in Ev.
  exists h1, b1, h2. auto.
Qed.

Lemma d_resize_inplace h w n (t : T) h1 b1 : w_ok h w -> n <= zlen (cells h (w_data w)) -> d_resize grow h (w_data w) n t = Ok (h1, b1) -> b1 = w_data w.
Proof.
  intros W Hn. unfold d_resize. destruct (n <? 0) eqn:E0; [discriminate|]. apply Z.ltb_ge in E0. destruct W as [(E & _)|(k & E & _ & Hc)].
  - rewrite E in *. rewrite cells_neg, zlen_nil in Hn. cbn [Z.eqb]. destruct (Z.eqb_spec n 0); [|lia]. cbn. intros K. now injection K as <- <-.
  - unfold cells in Hn. rewrite E in Hn. pose proof (h_block_inv _ _ _ E) as (Hb & _). destruct (Z.eqb_spec (w_data w) (-1)); [lia|]. rewrite E. cbn [bind].
    destruct (Z.leb_spec n (b_cap k)); [|lia]. rewrite set_ok by exact Hb. cbn. intros K. now injection K as <- <-.
Qed.

Lemma zn_firstn {A} (d : A) (l : list A) n i : 0 <= i < n -> zn d (firstn (Z.to_nat n) l) i = zn d l i.
Proof.
  intros H. unfold zn. assert (G : forall m k (l' : list A), (k < m)%nat -> nth k (firstn m l') d = nth k l' d).
  { induction m as [|m IH]; intros k l' Hk; [lia|]. destruct l' as [|a l']; [destruct k; reflexivity|]. destruct k; cbn; [reflexivity|]. apply IH. lia. }
  apply G. lia.
Qed.

(** the same, replacing variable x *)
Lemma copy_put h vs x c off n : inv h vs -> 0 <= x < zlen vs -> (c = -1 \/ 0 <= c < zlen h) ->
  0 <= off -> 0 <= n -> off + n <= zlen (cells h c) -> (c = w_data (zn w_new vs x) -> off = 0 \/ n = 0) ->
  exists h1 b1 h2, d_resize grow h (w_data (zn w_new vs x)) n s0 = Ok (h1, b1) /\ (c = w_data (zn w_new vs x) -> b1 = c) /\
    (c <> w_data (zn w_new vs x) -> cells h1 c = cells h c) /\ zlen (cells h1 b1) = n /\ (b1 <> -1 -> exists k, h_block h1 b1 = Ok k) /\
    v_copy h1 (View b1 0 n) (View c off n) = Ok h2 /\
    d_view h2 b1 = Ok (View b1 0 n) /\
    inv h2 (upd vs (Z.to_nat x) (Vector (View b1 0 n) b1)) /\
    vals h2 (upd vs (Z.to_nat x) (Vector (View b1 0 n) b1)) = lset (vals h vs) x (map (fun i => zn s0 (cells h c) (off + i)) (zrange 0 n)).
Proof.
  intros I Hx Hc Ho Hn Hl Hself. pose proof (proj1 I x Hx) as W.
  destruct (d_resize_ok grow h _ n s0 W Hn) as (h1 & b1 & E & R). set (wx := w_data (zn w_new vs x)) in *.
  set (l1 := firstn (Z.to_nat n) (cells h wx) ++ repeat s0 (Z.to_nat (n - zlen (cells h wx)))) in *.
  assert (Zl : zlen l1 = n) by (apply zlen_resized_list; lia).
  assert (Inp : c = wx -> b1 = c). { intros ->. apply (d_resize_inplace h (zn w_new vs x) n s0 h1 b1 W); [fold wx; lia|exact E]. }
  assert (Fc : c <> wx -> cells h1 c = cells h c) by (intros N; apply (frame_cells h wx h1 b1 _ c R Hc); now left).
  assert (G : exists h2, v_copy h1 (View b1 0 n) (View c off n) = Ok h2 /\ resized h wx h2 b1 (map (fun i => zn s0 (cells h c) (off + i)) (zrange 0 n))).
  { destruct (Z.eq_dec n 0) as [->|Nn].
    - exists h1. split.
      + unfold v_copy. cbn [v_buf v_off v_len]. destruct (Z.ltb_spec off 0); [lia|]. rewrite andb_false_r. cbn [andb]. apply for_empty. lia.
      + rewrite zrange_empty by lia. cbn [map]. replace (@nil T) with l1; [exact R|]. destruct l1 as [|a l1]; [reflexivity|]. rewrite zlen_cons in Zl. pose proof (zlen_nonneg l1). lia.
    - assert (Hcells : off + n <= zlen (cells h1 c) /\ forall i, 0 <= i < n -> zn s0 (cells h1 c) (off + i) = zn s0 (cells h c) (off + i)).
      { destruct (Z.eq_dec c wx) as [Ec|Nc].
        - assert (E1 : cells h1 c = l1) by (rewrite <- (Inp Ec); exact (resized_cells _ _ _ _ _ R)). rewrite E1.
          assert (off = 0) by (destruct (Hself Ec); lia). subst off. split; [lia|]. intros i Hi. unfold l1. rewrite <- Ec.
          rewrite zn_app_l by (rewrite zlen_firstn by lia; lia). apply zn_firstn. lia.
        - rewrite Fc by exact Nc. split; [exact Hl|reflexivity]. }
      destruct Hcells as (H1 & H2). destruct (copy_into h wx h1 b1 l1 c off R Ho) as (h2 & E2 & R2); [rewrite Zl; exact H1|]. rewrite Zl in E2, R2.
      exists h2. split; [exact E2|]. erewrite map_ext_in; [exact R2|]. intros i Hi. apply In_zrange in Hi. cbn. symmetry. apply H2. lia. }
  destruct G as (h2 & E2 & R2). set (l2 := map (fun i => zn s0 (cells h c) (off + i)) (zrange 0 n)) in *.
  assert (Zl2 : zlen l2 = n) by (unfold l2; rewrite zlen_map, zlen_zrange by lia; lia).
  destruct (put_inv h vs x h2 b1 _ I Hx R2) as (I' & V'). rewrite Zl2 in I', V'. pose proof (resized_view _ _ _ _ _ R2) as Ev. rewrite Zl2 in Ev.
  exists h1, b1, h2. split; [exact E|]. split; [exact Inp|]. split; [exact Fc|]. split; [rewrite (resized_cells _ _ _ _ _ R); exact Zl|].
  split; [|auto]. intros Nb. destruct R as (_ & _ & _ & [(Eb & _)|(k & Ek & _)]); [congruence|eauto].
Qed.

Lemma st_of_view_ok h vs r x off n : inv h vs -> lref (vals h vs) r = Some (x, off, n) ->
  exists st', st_of_view grow (VState h vs) r = Ok st' /\ good st' /\ vals (st_heap st') (st_vars st') = vals h vs ++ [lslice (vals h vs) x off n].
Proof.
  intros I E. destruct (v_of_ok h vs r x off n I E) as (Hx & Ho & Hn & Hl & Ev). unfold st_of_view. rewrite Ev. cbn [bind v_len st_heap].
  destruct (copy_push h vs (w_data (zn w_new vs x)) off n I (w_ok_range _ _ (proj1 I x Hx)) Ho Hn Hl) as (h1 & b1 & h2 & E1 & E2 & E3 & I' & V').
  rewrite E1. cbn [bind]. rewrite E2. cbn [bind]. rewrite E3. cbn [bind]. eexists. split; [reflexivity|]. split; [exact I'|]. cbn [st_heap st_vars st_push]. rewrite V'.
  unfold lslice. now rewrite zn_vals.
Qed.

Lemma st_copy_ok h vs y : inv h vs -> 0 <= y < zlen vs ->
  exists st', st_copy grow (VState h vs) y = Ok st' /\ good st' /\ vals (st_heap st') (st_vars st') = vals h vs ++ [zn [] (vals h vs) y].
Proof.
  intros I Hy. unfold st_copy. cbn [st_heap st_vars]. rewrite (get_ok w_new) by lia. cbn [bind]. pose proof (proj1 I y Hy) as W. rewrite (d_size_ok _ _ W). cbn [bind].
  pose proof (zlen_nonneg (cells h (w_data (zn w_new vs y)))) as Z0.
  destruct (copy_push h vs (w_data (zn w_new vs y)) 0 (zlen (cells h (w_data (zn w_new vs y)))) I (w_ok_range _ _ W) ltac:(lia) Z0 ltac:(lia)) as (h1 & b1 & h2 & E1 & E2 & E3 & I' & V').
  rewrite E1. cbn [bind]. rewrite E2. cbn [bind]. rewrite E3. cbn [bind]. eexists. split; [reflexivity|]. split; [exact I'|]. cbn [st_heap st_vars st_push]. rewrite V'.
  rewrite slice_full. now rewrite zn_vals.
Qed.

Lemma st_move_ok h vs y : inv h vs -> 0 <= y < zlen vs ->
  exists st', st_move (VState h vs) y = Ok st' /\ good st' /\ vals (st_heap st') (st_vars st') = lset (vals h vs) y [] ++ [zn [] (vals h vs) y].
Proof.
  intros I Hy. unfold st_move. cbn [st_heap st_vars]. rewrite (get_ok w_new) by lia. cbn [bind]. pose proof (proj1 I y Hy) as W.
  rewrite (d_view_ok _ _ W). cbn [bind]. rewrite set_ok by lia. cbn [bind]. destruct (move_ok h vs y I Hy) as (I' & V').
  replace (Vector (w_view (zn w_new vs y)) (w_data (zn w_new vs y))) with (zn w_new vs y) by (destruct (zn w_new vs y); reflexivity).
  eexists. split; [reflexivity|]. split; [exact I'|exact V'].
Qed.

Lemma st_set_size_ok h vs x n (t : T) : inv h vs -> 0 <= x < zlen vs -> 0 <= n ->
  exists st', st_set_size grow (VState h vs) x n t = Ok st' /\ good st' /\
    vals (st_heap st') (st_vars st') = lset (vals h vs) x (firstn (Z.to_nat n) (zn [] (vals h vs) x) ++ repeat t (Z.to_nat (n - zlen (zn [] (vals h vs) x)))).
Proof.
  intros I Hx Hn. unfold st_set_size. cbn [st_heap st_vars]. rewrite (get_ok w_new) by lia. cbn [bind]. pose proof (proj1 I x Hx) as W.
  rewrite (w_ok_view _ _ W). cbn [v_len]. destruct (Z.eqb_spec n (zlen (cells h (w_data (zn w_new vs x))))) as [->|N].
  - exists (VState h vs). split; [reflexivity|]. split; [exact I|]. cbn [st_heap st_vars]. rewrite <- (zn_vals h vs x Hx). rewrite resize_same.
    unfold lset. rewrite upd_same; [reflexivity|now rewrite zlen_vals].
  - destruct (Z.leb_spec 0 n); [|lia]. cbn [assert_ bind]. destruct (d_resize_ok grow h _ n t W Hn) as (h1 & b1 & E & R). rewrite E. cbn [bind].
    rewrite (resized_view _ _ _ _ _ R). cbn [bind]. unfold st_put. cbn [st_vars]. rewrite set_ok by lia. cbn [bind].
    destruct (put_inv h vs x h1 b1 _ I Hx R) as (I' & V'). eexists. split; [reflexivity|]. split; [exact I'|]. cbn [st_heap st_vars]. rewrite V'. now rewrite zn_vals.
Qed.

Lemma st_assign_view_ok h vs x r y off n : inv h vs -> 0 <= x < zlen vs -> lref (vals h vs) r = Some (y, off, n) ->
  (x =? y) && negb (off =? 0) && negb (n =? 0) = false ->
  exists st', st_assign_view grow (VState h vs) x r = Ok st' /\ good st' /\ vals (st_heap st') (st_vars st') = lset (vals h vs) x (lslice (vals h vs) y off n).
Proof.
  intros I Hx E Hs. destruct (v_of_ok h vs r y off n I E) as (Hy & Ho & Hn & Hl & Ev). unfold st_assign_view. rewrite Ev. cbn [bind v_len st_heap st_vars].
  rewrite (get_ok w_new) by lia. cbn [bind].
  destruct (copy_put h vs x (w_data (zn w_new vs y)) off n I Hx (w_ok_range _ _ (proj1 I y Hy)) Ho Hn Hl) as (h1 & b1 & h2 & E1 & _ & _ & _ & _ & E2 & E3 & I' & V').
  { intros Ew. destruct (Z.eq_dec x y) as [<-|N].
    - rewrite Z.eqb_refl in Hs. destruct (Z.eqb_spec off 0), (Z.eqb_spec n 0); cbn in Hs; auto; discriminate.
    - pose proof (proj2 I y x Hy Hx ltac:(lia) Ew) as Em. rewrite Em, cells_neg, zlen_nil in Hl. lia. }
  rewrite E1. cbn [bind]. rewrite E2. cbn [bind]. rewrite E3. cbn [bind]. unfold st_put. cbn [st_vars]. rewrite set_ok by lia. cbn [bind].
  eexists. split; [reflexivity|]. split; [exact I'|]. cbn [st_heap st_vars]. rewrite V'. unfold lslice. now rewrite zn_vals.
Qed.

Lemma st_assign_ok h vs x y : inv h vs -> 0 <= x < zlen vs -> 0 <= y < zlen vs ->
  exists st', st_assign grow (VState h vs) x y = Ok st' /\ good st' /\ vals (st_heap st') (st_vars st') = lset (vals h vs) x (zn [] (vals h vs) y).
Proof.
  intros I Hx Hy. unfold st_assign. cbn [st_heap st_vars]. rewrite !(get_ok w_new) by lia. cbn [bind]. pose proof (proj1 I y Hy) as W.
  rewrite (w_ok_view _ _ W). cbn [v_len]. set (c := w_data (zn w_new vs y)) in *. set (n := zlen (cells h c)) in *.
  assert (Hn : 0 <= n) by apply zlen_nonneg.
  destruct (copy_put h vs x c 0 n I Hx (w_ok_range _ _ W) ltac:(lia) Hn ltac:(lia)) as (h1 & b1 & h2 & E1 & Inp & Fc & Zb & Bk & E2 & E3 & I' & V'); [lia|].
  rewrite E1. cbn [bind]. unfold st_put at 1. cbn [st_vars]. rewrite set_ok by lia. cbn [bind st_vars].
  rewrite (get_ok w_new) by (rewrite zlen_upd; lia). cbn [bind]. rewrite zn_upd by lia.
  assert (Ed : w_data (if y =? x then Vector (w_view (zn w_new vs x)) b1 else zn w_new vs y) = if y =? x then b1 else c) by (destruct (y =? x); reflexivity).
  rewrite Ed. assert (Ec : (if y =? x then b1 else c) = c).
  { destruct (Z.eqb_spec y x) as [Eyx|]; [|reflexivity]. apply Inp. unfold c. now rewrite Eyx. }
  rewrite Ec.
  assert (Es : d_size h1 c = Ok n).
  { unfold d_size. destruct (Z.eqb_spec c (-1)) as [Em|Nm]; [f_equal; unfold n; rewrite Em, cells_neg; reflexivity|].
    destruct (Z.eq_dec c (w_data (zn w_new vs x))) as [Ex|Nx].
    - pose proof (Inp Ex) as Eb. destruct (Bk ltac:(lia)) as (k & Ek). rewrite Eb in Ek, Zb. rewrite Ek. cbn [bind]. unfold cells in Zb. rewrite Ek in Zb. now rewrite Zb.
    - pose proof (Fc Nx) as F. destruct W as [(W & _)|(k & Ek & _)]; [fold c in W; lia|]. fold c in Ek.
      destruct (d_resize_ok grow h _ n s0 (proj1 I x Hx) Hn) as (h1' & b1' & E1' & (_ & R & _)). rewrite E1 in E1'. injection E1' as <- <-.
      pose proof (h_block_inv _ _ _ Ek) as (Hb & _). rewrite R by assumption. rewrite Ek. cbn [bind]. unfold n, cells. now rewrite Ek. }
  rewrite Es. cbn [bind]. rewrite E2. cbn [bind]. rewrite E3. cbn [bind]. unfold st_put. cbn [st_vars]. rewrite set_ok by (rewrite zlen_upd; lia). cbn [bind].
  eexists. split; [reflexivity|].
  assert (Eu : upd (upd vs (Z.to_nat x) (Vector (w_view (zn w_new vs x)) b1)) (Z.to_nat x) (Vector (View b1 0 n) b1) = upd vs (Z.to_nat x) (Vector (View b1 0 n) b1)).
  { apply (list_ext w_new); [now rewrite !zlen_upd|]. rewrite !zlen_upd. intros i Hi. rewrite !zn_upd by (rewrite ?zlen_upd; lia). now destruct (i =? x). }
  unfold good. cbn [st_heap st_vars]. rewrite Eu. split; [exact I'|]. rewrite V'. unfold n. rewrite slice_full. unfold c. now rewrite zn_vals.
Qed.

Lemma st_swap_ok h vs x y : inv h vs -> 0 <= x < zlen vs -> 0 <= y < zlen vs ->
  exists st', st_swap (VState h vs) x y = Ok st' /\ good st' /\
    vals (st_heap st') (st_vars st') = lset (lset (vals h vs) x (zn [] (vals h vs) y)) y (zn [] (vals h vs) x).
Proof.
  intros I Hx Hy. unfold st_swap. cbn [st_vars st_heap]. rewrite !(get_ok w_new) by lia. cbn [bind]. rewrite set_ok by lia. cbn [bind]. rewrite set_ok by (rewrite zlen_upd; lia). cbn [bind].
  destruct (swap_ok h vs x y I Hx Hy) as (I' & V'). eexists. split; [reflexivity|]. split; [exact I'|exact V'].
Qed.

Lemma st_move_assign_ok h vs x y : inv h vs -> 0 <= x < zlen vs -> 0 <= y < zlen vs ->
  exists st', st_move_assign (VState h vs) x y = Ok st' /\ good st' /\
    vals (st_heap st') (st_vars st') = lset (lset (vals h vs) x (zn [] (vals h vs) y)) y (zn [] (vals h vs) x).
Proof.
  intros I Hx Hy. unfold st_move_assign. destruct (st_swap_ok h vs x y I Hx Hy) as ([h1 vs1] & E & I1 & V1). rewrite E. cbn [bind st_vars st_heap].
  assert (Zl : zlen vs1 = zlen vs).
  { cbn [st_heap st_vars] in V1. apply (f_equal zlen) in V1. unfold lset in V1. now rewrite !zlen_upd, !zlen_vals in V1. }
  rewrite (get_ok w_new) by lia. cbn [bind]. unfold good in I1. cbn [st_heap st_vars] in I1. rewrite (d_view_ok _ _ (proj1 I1 x ltac:(lia))). cbn [bind].
  unfold st_put. cbn [st_vars]. rewrite set_ok by lia. cbn [bind].
  replace (Vector (w_view (zn w_new vs1 x)) (w_data (zn w_new vs1 x))) with (zn w_new vs1 x) by (destruct (zn w_new vs1 x); reflexivity).
  rewrite upd_same by lia. eexists. split; [reflexivity|]. split; [exact I1|exact V1].
Qed.

Lemma v_set_hw h v i (t : T) : view_ok h v -> 0 <= i < v_len v ->
  exists h', v_set h v i t = Ok h' /\ hw h (v_buf v) (v_off v + i) 1 (fun _ => t) h'.
Proof.
  intros Hv Hi. unfold v_set. destruct (Z.ltb_spec i (v_len v)); [|lia]. cbn [assert_ bind]. pose proof (view_read h v i Hv Hi) as E. unfold v_at in E.
  pose proof (hw_nil h (v_buf v) (v_off v + i) (fun _ => t)) as N. assert (E' : h_read h (v_buf v) (v_off v + i + 0) = Ok (vat h v i)) by now rewrite Z.add_0_r.
  destruct (hw_snoc h _ _ 0 _ h _ ltac:(lia) N E') as (h2 & E2 & H2). rewrite Z.add_0_r in E2. exists h2. split; [exact E2|exact H2].
Qed.

(** One call. *)
Theorem vop_refines (st : vstate S) (o : vop S) (vs' : list (list T)) : good st -> spec_vop (values st) o = Some vs' ->
  exists st', run_vop grow st o = Ok st' /\ good st' /\ values st' = vs'.
Proof.
  intros I E. rewrite (values_vals st I) in E. destruct st as [h vs]. unfold good in I. cbn [st_heap st_vars] in *.
  enough (G : exists st', run_vop grow (VState h vs) o = Ok st' /\ good st' /\ vals (st_heap st') (st_vars st') = vs').
  { destruct G as (st' & A & B & C). exists st'. rewrite (values_vals st' B). auto. }
  destruct o; cbn [spec_vop run_vop] in *.
  - destruct (Z.leb_spec 0 n); [|discriminate]. injection E as <-. now apply st_new_ok.
  - injection E as <-. now apply st_of_list_ok.
  - destruct (lref (vals h vs) r) as [[[x off] n]|] eqn:El; [|discriminate]. injection E as <-. now apply st_of_view_ok.
  - destruct (lvar (vals h vs) y) as [l|] eqn:El; [|discriminate]. injection E as <-. apply lvar_inv in El. rewrite zlen_vals in El. destruct El as (Hy & ->). now apply st_copy_ok.
  - destruct (lvar (vals h vs) y) as [l|] eqn:El; [|discriminate]. injection E as <-. apply lvar_inv in El. rewrite zlen_vals in El. destruct El as (Hy & ->). now apply st_move_ok.
  - destruct (lvar (vals h vs) x) as [l|] eqn:El; [|discriminate]. destruct (Z.leb_spec 0 n); [|discriminate]. injection E as <-. apply lvar_inv in El. rewrite zlen_vals in El. destruct El as (Hy & ->). now apply st_set_size_ok.
  - destruct (lvar (vals h vs) x) as [l|] eqn:El; [|discriminate]. destruct (lvar (vals h vs) y) as [m|] eqn:Em; [|discriminate]. injection E as <-. apply lvar_inv in El, Em. rewrite zlen_vals in El, Em.
    destruct El as (Hx & ->), Em as (Hy & ->). now apply st_assign_ok.
  - destruct (lvar (vals h vs) x) as [l|] eqn:El; [|discriminate]. destruct (lref (vals h vs) r) as [[[y off] n]|] eqn:Er; [|discriminate].
    destruct ((x =? y) && negb (off =? 0) && negb (n =? 0)) eqn:Es; [discriminate|]. injection E as <-. apply lvar_inv in El. rewrite zlen_vals in El. destruct El as (Hx & ->). now apply st_assign_view_ok.
  - destruct (lvar (vals h vs) x) as [l|] eqn:El; [|discriminate]. destruct (lvar (vals h vs) y) as [m|] eqn:Em; [|discriminate]. injection E as <-. apply lvar_inv in El, Em. rewrite zlen_vals in El, Em.
    destruct El as (Hx & ->), Em as (Hy & ->). now apply st_swap_ok.
  - destruct (lvar (vals h vs) x) as [l|] eqn:El; [|discriminate]. destruct (lvar (vals h vs) y) as [m|] eqn:Em; [|discriminate]. injection E as <-. apply lvar_inv in El, Em. rewrite zlen_vals in El, Em.
    destruct El as (Hx & ->), Em as (Hy & ->). now apply st_move_assign_ok.
  - destruct (lref (vals h vs) r) as [[[x off] n]|] eqn:El; [|discriminate]. injection E as <-. apply on1_ok; auto. intros v _ Hv. now apply v_fill_hw.
  - destruct (lref (vals h vs) r) as [[[x off] n]|] eqn:El; [|discriminate]. destruct (Z.leb_spec 0 i) as [L1|], (Z.ltb_spec i n) as [L2|]; cbn [andb] in E; try discriminate. injection E as <-.
    destruct (v_of_ok h vs r x off n I El) as (Hx & Ho & Hn & Hl & Ev). unfold st_on1. rewrite Ev. cbn [bind st_heap st_vars].
    destruct (v_set_hw h (View (w_data (zn w_new vs x)) off n) i t) as (h' & E' & H); [now apply cells_view_ok|cbn; lia|]. rewrite E'. cbn [bind]. cbn in H.
    destruct (write_inv h vs x (off + i) 1 _ h' I Hx H) as (I' & V'). eexists. split; [reflexivity|]. split; [exact I'|exact V'].
  - destruct (lref (vals h vs) r) as [[[x off] n]|] eqn:El; [|discriminate]. destruct (lref (vals h vs) q) as [[[y off'] n']|] eqn:Eq; [|discriminate].
    destruct (Z.eqb_spec n n') as [En|]; cbn [andb] in E; [|discriminate]. destruct (lbehind x off n y off') eqn:Eb; cbn [negb] in E; [discriminate|]. injection E as <-.
    destruct (v_of_ok h vs r x off n I El) as (Hx & Ho & Hn & Hl & _). destruct (v_of_ok h vs q y off' n' I Eq) as (Hy & Ho' & _ & Hl' & _).
    destruct (on2_ok v_assign h vs r q x off n y off' n' (fun i => vat h (View (w_data (zn w_new vs y)) off' n) i) I El Eq En Eb) as (st' & A & B & C).
    { intros v w -> -> Hv Hw Hb. apply v_assign_hw; auto. }
    exists st'. split; [exact A|]. split; [exact B|]. rewrite C. apply lput_ext. intros i Hi. rewrite zn_vals by exact Hy. apply vat_cells. lia.
  - destruct (lref (vals h vs) r) as [[[x off] n]|] eqn:El; [|discriminate]. injection E as <-. destruct (v_of_ok h vs r x off n I El) as (Hx & Ho & Hn & Hl & _).
    destruct (on1_ok (v_map f) h vs r x off n (fun i => f (vat h (View (w_data (zn w_new vs x)) off n) i)) I El) as (st' & A & B & C).
    { intros v -> Hv. now apply v_map_hw. }
    exists st'. split; [exact A|]. split; [exact B|]. rewrite C. apply lput_ext. intros i Hi. rewrite zn_vals by exact Hx. f_equal. apply vat_cells. lia.
  - destruct (lref (vals h vs) r) as [[[x off] n]|] eqn:El; [|discriminate]. destruct (lref (vals h vs) q) as [[[y off'] n']|] eqn:Eq; [|discriminate].
    destruct (Z.eqb_spec n n') as [En|]; cbn [andb] in E; [|discriminate]. destruct (lbehind x off n y off') eqn:Eb; cbn [negb] in E; [discriminate|]. injection E as <-.
    destruct (v_of_ok h vs r x off n I El) as (Hx & Ho & Hn & Hl & _). destruct (v_of_ok h vs q y off' n' I Eq) as (Hy & Ho' & _ & Hl' & _).
    destruct (on2_ok (v_zip f) h vs r q x off n y off' n' (fun i => f (vat h (View (w_data (zn w_new vs x)) off n) i) (vat h (View (w_data (zn w_new vs y)) off' n) i)) I El Eq En Eb) as (st' & A & B & C).
    { intros v w -> -> Hv Hw Hb. apply v_zip_hw; auto. }
    exists st'. split; [exact A|]. split; [exact B|]. rewrite C. apply lput_ext. intros i Hi. rewrite !zn_vals by assumption. f_equal; apply vat_cells; lia.
Qed.

Theorem vops_refine (ops : list (vop S)) : forall (st : vstate S) (vs' : list (list T)), good st -> spec_vops (values st) ops = Some vs' ->
  exists st', run_vops grow st ops = Ok st' /\ good st' /\ values st' = vs'.
Proof.
  induction ops as [|o ops IH]; intros st vs' I E; cbn [spec_vops] in E.
  - injection E as <-. exists st. auto.
  - destruct (spec_vop (values st) o) as [vs1|] eqn:E1; [|discriminate]. destruct (vop_refines st o vs1 I E1) as (st1 & R1 & I1 & <-).
    destruct (IH st1 vs' I1 E) as (st' & R & I' & V'). exists st'. unfold run_vops in *. cbn [foldM]. rewrite R1. auto.
Qed.

Lemma good_empty : good (VState (S := S) [] []).
Proof. split; cbn; intros; rewrite ?zlen_nil in *; lia. Qed.

(** Whole programs. *)
Theorem vops_refine_start (ops : list (vop S)) (vs' : list (list T)) : spec_vops [] ops = Some vs' ->
  exists st', run_vops grow (VState (S := S) [] []) ops = Ok st' /\ values st' = vs'.
Proof. intros E. destruct (vops_refine ops (VState [] []) vs' good_empty E) as (st' & A & _ & B). eauto. Qed.

Lemma reached_good (st : vstate S) : reached grow st -> good st.
Proof. intros (ops & vs & E & H). destruct (vops_refine ops (VState [] []) vs good_empty E) as (st' & A & B & _). rewrite H in A. now injection A as ->. Qed.

Theorem reached_step (st : vstate S) (ops : list (vop S)) (vs' : list (list T)) : reached grow st -> spec_vops (values st) ops = Some vs' ->
  exists st', run_vops grow st ops = Ok st' /\ reached grow st' /\ values st' = vs'.
Proof.
  intros R E. pose proof (reached_good st R) as G. destruct (vops_refine ops st vs' G E) as (st' & A & _ & C). exists st'. split; [exact A|]. split; [|exact C].
  destruct R as (ops0 & vs0 & E0 & H0). destruct (vops_refine ops0 (VState [] []) vs0 good_empty E0) as (st0 & A0 & _ & C0). rewrite H0 in A0. injection A0 as <-.
  exists (ops0 ++ ops), vs'. split.
  - rewrite C0 in E. clear - E0 E. revert E0. change (@values S (VState [] [])) with (@nil (list T)). generalize (@nil (list T)). induction ops0 as [|o l IH]; intros vs1; cbn [app spec_vops].
    + intros K. injection K as ->. exact E.
    + destruct (spec_vop vs1 o); [|discriminate]. apply IH.
  - unfold run_vops in *. rewrite foldM_app, H0. exact A.
Qed.

End Histories.

(* ---------------------------------------------------------------- independence *)

Lemma zn_lset (vs : list (list T)) x l y : 0 <= x < zlen vs -> 0 <= y -> y <> x -> zn [] (lset vs x l) y = zn [] vs y.
Proof. intros Hx Hy N. unfold lset. rewrite zn_upd by lia. destruct (Z.eqb_spec y x); [lia|reflexivity]. Qed.

Lemma spec_frame (vs vs' : list (list T)) o y : spec_vop vs o = Some vs' -> 0 <= y < zlen vs -> ~ changes o y -> zlen vs <= zlen vs' /\ zn [] vs' y = zn [] vs y.
Proof.
  intros E Hy Hc.
  assert (App : forall (m : list (list T)) a, zlen vs <= zlen m -> zn [] m y = zn [] vs y -> zlen vs <= zlen (m ++ [a]) /\ zn [] (m ++ [a]) y = zn [] vs y).
  { intros m a Hm Em. rewrite zlen_app. pose proof (zlen_nonneg [a]). split; [lia|]. now rewrite zn_app_l by lia. }
  assert (Put : forall x off n g, 0 <= x < zlen vs -> y <> x -> zlen vs <= zlen (lput vs x off n g) /\ zn [] (lput vs x off n g) y = zn [] vs y).
  { intros x off n g Hx N. unfold lput. rewrite zlen_upd. split; [lia|]. rewrite zn_upd by lia. destruct (Z.eqb_spec y x); [lia|reflexivity]. }
  assert (Ref : forall r x off n, lref vs r = Some (x, off, n) -> 0 <= x < zlen vs /\ x = ref_var r).
  { intros r x off n H. destruct r; cbn in H |- *.
    - destruct (Z.leb_spec 0 x0), (Z.ltb_spec x0 (zlen vs)); cbn in H; try discriminate. injection H as <- <- <-. split; [lia|reflexivity].
    - destruct (Z.leb_spec 0 x0), (Z.ltb_spec x0 (zlen vs)); cbn in H; try discriminate. destruct (_ && _); [|discriminate]. injection H as <- <- <-. split; [lia|reflexivity]. }
  assert (L : forall x l, zlen (lset vs x l) = zlen vs) by (intros; apply zlen_upd).
  destruct o; cbn [spec_vop changes] in *.
  - destruct (0 <=? n); [|discriminate]. injection E as <-. apply App; [lia|reflexivity].
  - injection E as <-. apply App; [lia|reflexivity].
  - destruct (lref vs r) as [[[x off] n]|]; [|discriminate]. injection E as <-. apply App; [lia|reflexivity].
  - destruct (lvar vs y0); [|discriminate]. injection E as <-. apply App; [lia|reflexivity].
  - destruct (lvar vs y0) eqn:Ev; [|discriminate]. injection E as <-. apply lvar_inv in Ev. apply App; [rewrite L; lia|]. apply zn_lset; tauto || lia.
  - destruct (lvar vs x) eqn:Ev; [|discriminate]. destruct (0 <=? n); [|discriminate]. injection E as <-. apply lvar_inv in Ev. rewrite L. split; [lia|]. apply zn_lset; tauto || lia.
  - destruct (lvar vs x) eqn:Ev; [|discriminate]. destruct (lvar vs y0); [|discriminate]. injection E as <-. apply lvar_inv in Ev. rewrite L. split; [lia|]. apply zn_lset; tauto || lia.
  - destruct (lvar vs x) eqn:Ev; [|discriminate]. destruct (lref vs r) as [[[z off] n]|]; [|discriminate]. destruct (_ && _); [discriminate|]. injection E as <-. apply lvar_inv in Ev. rewrite L. split; [lia|]. apply zn_lset; tauto || lia.
  - destruct (lvar vs x) eqn:Ev; [|discriminate]. destruct (lvar vs y0) eqn:Ev2; [|discriminate]. injection E as <-. apply lvar_inv in Ev, Ev2. unfold lset. rewrite !zlen_upd. split; [lia|].
    rewrite !zn_upd by (rewrite ?zlen_upd; lia). destruct (Z.eqb_spec y y0); [tauto|]. destruct (Z.eqb_spec y x); [tauto|reflexivity].
  - destruct (lvar vs x) eqn:Ev; [|discriminate]. destruct (lvar vs y0) eqn:Ev2; [|discriminate]. injection E as <-. apply lvar_inv in Ev, Ev2. unfold lset. rewrite !zlen_upd. split; [lia|].
    rewrite !zn_upd by (rewrite ?zlen_upd; lia). destruct (Z.eqb_spec y y0); [tauto|]. destruct (Z.eqb_spec y x); [tauto|reflexivity].
  - destruct (lref vs r) as [[[x off] n]|] eqn:Er; [|discriminate]. injection E as <-. apply Ref in Er. destruct Er as (Hx & ->). now apply Put.
  - destruct (lref vs r) as [[[x off] n]|] eqn:Er; [|discriminate]. destruct (_ && _); [|discriminate]. injection E as <-. apply Ref in Er. destruct Er as (Hx & ->). now apply Put.
  - destruct (lref vs r) as [[[x off] n]|] eqn:Er; [|discriminate]. destruct (lref vs q) as [[[x' off'] n']|]; [|discriminate]. destruct (_ && _); [|discriminate]. injection E as <-. apply Ref in Er. destruct Er as (Hx & ->). now apply Put.
  - destruct (lref vs r) as [[[x off] n]|] eqn:Er; [|discriminate]. injection E as <-. apply Ref in Er. destruct Er as (Hx & ->). now apply Put.
  - destruct (lref vs r) as [[[x off] n]|] eqn:Er; [|discriminate]. destruct (lref vs q) as [[[x' off'] n']|]; [|discriminate]. destruct (_ && _); [|discriminate]. injection E as <-. apply Ref in Er. destruct Er as (Hx & ->). now apply Put.
Qed.

(** A variable no call names as its target keeps its value. *)
Theorem vops_frame grow (ops : list (vop S)) : forall (st : vstate S) (vs' : list (list T)) y, good st -> spec_vops (values st) ops = Some vs' ->
  0 <= y < zlen (values st) -> Forall (fun o => ~ changes o y) ops ->
  exists st', run_vops grow st ops = Ok st' /\ zn [] (values st') y = zn [] (values st) y.
Proof.
  intros st vs' y I E Hy Hf. destruct (vops_refine grow ops st vs' I E) as (st' & R & _ & V). exists st'. split; [exact R|]. rewrite V.
  clear st' R V. revert E Hy. generalize (values st) as vs. induction Hf as [|o ops Ho Hf IH]; intros vs E Hy; cbn [spec_vops] in E.
  - now injection E as <-.
  - destruct (spec_vop vs o) as [vs1|] eqn:E1; [|discriminate]. destruct (spec_frame vs vs1 o y E1 Hy Ho) as (A & B). rewrite <- B. apply IH; [exact E|lia].
Qed.

(* ---------------------------------------------------------------- assigning a part of a vector to itself *)

(** A copy that has to read behind the end of its source does not return. *)
Lemma copy_out_of_range (l : list T) cap off n : 0 < off -> 0 < n -> zlen l = n ->
  v_copy [Some (Block l cap)] (View 0 0 n) (View 0 off n) = Fail FUB.
Proof.
  intros Ho Hn Hl. unfold v_copy. cbn [v_buf v_off v_len]. destruct (Z.ltb_spec off 0); [lia|]. rewrite andb_false_r. cbn [andb].
  set (body := fun i h => t <- v_at h (View 0 off n) i ;; v_put h (View 0 0 n) i t). set (m := Z.max 0 (n - off)).
  assert (Hm : 0 <= m < n /\ n <= off + m) by (unfold m; lia).
  rewrite (for_split 0 m n) by lia.
  match goal with |- bind ?X _ = _ => set (Y := X) end.
  assert (G : returns Y (fun h1 => exists l1, h1 = [Some (Block l1 cap)] /\ zlen l1 = n)).
  { unfold Y. apply returns_for with (I := fun _ h1 => exists l1, h1 = [Some (Block l1 cap)] /\ zlen l1 = n); [lia|eauto| |auto].
    intros i h1 Hi (l1 & -> & E1). unfold body, v_at, v_put, h_read, h_write, h_block. cbn [v_buf v_off]. cbn [get zlen bind]. 
    rewrite (get_ok None) by (rewrite zlen_cons, zlen_nil; lia). rewrite zn_cons_0. cbn [bind b_cells b_cap].
    rewrite (get_ok s0) by (unfold m in Hi; lia). cbn [bind]. rewrite set_ok by lia. cbn [bind]. rewrite set_ok by (rewrite zlen_cons, zlen_nil; lia).
    cbn [returns]. exists (upd l1 (Z.to_nat (0 + i)) (zn s0 l1 (off + i))). split; [reflexivity|]. now rewrite zlen_upd. }
  destruct Y as [h1|]; cbn [returns] in G; [|contradiction]. destruct G as (l1 & -> & E1). cbn [bind].
  rewrite (for_split m (m + 1) n) by lia. unfold for_ at 1. rewrite (zrange_cons m (m + 1)) by lia. cbn [foldM].
  assert (F : body m [Some (Block l1 cap)] = Fail FUB).
  { unfold body, v_at, h_read, h_block. cbn [v_buf v_off]. rewrite (get_ok None) by (rewrite zlen_cons, zlen_nil; lia). rewrite zn_cons_0. cbn [bind b_cells].
    rewrite get_out by lia. reflexivity. }
  rewrite F. reflexivity.
Qed.

(** v = VectorView(v.begin() + off, n) cuts v to n elements before it reads them. *)
Lemma assign_own_part grow (l : list T) off n st : 0 < off -> 0 < n -> off + n <= zlen l ->
  st_of_list grow (VState [] []) l = Ok st -> st_assign_view grow st 0 (RSub 0 off n) = Fail FUB.
Proof.
  intros Ho Hn Hl. unfold st_of_list. cbn [st_heap]. unfold h_alloc. rewrite zlen_nil. cbn [app]. set (cap := Z.max (zlen l) (grow 0 (zlen l))).
  assert (HB : h_block [Some (Block l cap)] 0 = Ok (Block l cap)) by reflexivity.
  unfold d_view, d_size. rewrite HB. cbn [Z.eqb bind b_cells]. unfold v_make at 1. destruct (Z.leb_spec 0 (zlen l)); [|lia].
  cbn [assert_ bind]. change (0 =? -1) with false. cbn [negb]. rewrite orb_true_r. cbn [assert_ bind].
  intros E. injection E as <-.
  unfold st_assign_view, st_push. cbn [v_of st_vars st_heap app]. rewrite (get_ok w_new) by (rewrite zlen_cons, zlen_nil; lia). rewrite zn_cons_0. cbn [bind w_view v_buf v_off v_len w_data].
  unfold v_make at 1. destruct (Z.leb_spec 0 n); [|lia]. cbn [assert_ bind]. change (0 =? -1) with false. cbn [negb]. rewrite orb_true_r. cbn [assert_ bind v_len].
  unfold d_resize. destruct (Z.ltb_spec n 0); [lia|]. change (0 =? -1) with false. cbv iota. rewrite HB. cbn [bind b_cells b_cap].
  destruct (Z.leb_spec n cap); [|unfold cap in *; lia]. rewrite set_ok by (rewrite zlen_cons, zlen_nil; lia). cbn [bind Z.to_nat upd].
  rewrite Z.add_0_l. rewrite copy_out_of_range; try reflexivity; try lia.
  rewrite zlen_app, zlen_firstn by lia. replace (Z.to_nat (n - zlen l)) with 0%nat by lia. cbn [repeat]. rewrite zlen_nil. lia.
Qed.

End VecMore.
