(** Vector variables behave like plain lists. *)

From Coq Require Import ZArith List Lia Bool.
From Verif Require Import Base Scalar Spec Dense LoopFacts SumFacts DenseProofs Vec VecSpec VecProofs.
Import ListNotations.
Open Scope Z_scope.

Section VecState.
Context {S : scalar}.
Notation T := (car S).
Implicit Types (h : heap S) (vs : list vector).

Definition cells h (b : Z) : list T := match h_block h b with Ok k => b_cells k | Fail _ => [] end.

Definition w_ok h (w : vector) : Prop :=
  (w_data w = -1 /\ w_view w = v_null) \/
  (exists k, h_block h (w_data w) = Ok k /\ w_view w = View (w_data w) 0 (zlen (b_cells k)) /\ zlen (b_cells k) <= b_cap k).

Definition inv h vs : Prop :=
  (forall x, 0 <= x < zlen vs -> w_ok h (zn w_new vs x)) /\
  (forall x y, 0 <= x < zlen vs -> 0 <= y < zlen vs -> x <> y -> w_data (zn w_new vs x) = w_data (zn w_new vs y) -> w_data (zn w_new vs x) = -1).

Definition vals h vs : list (list T) := map (fun w => cells h (w_data w)) vs.

Lemma h_block_neg h b : b < 0 -> h_block h b = Fail FUB.
Proof. intros H. unfold h_block. rewrite get_out by lia. reflexivity. Qed.

Lemma cells_neg h : cells h (-1) = [].
Proof. unfold cells. rewrite h_block_neg by lia. reflexivity. Qed.

Lemma w_ok_view h w : w_ok h w -> w_view w = View (w_data w) 0 (zlen (cells h (w_data w))).
Proof.
  intros [(E & V)|(k & E & V & _)].
  - rewrite V, E, cells_neg. reflexivity.
  - rewrite V. unfold cells. now rewrite E.
Qed.

Lemma w_ok_range h w : w_ok h w -> w_data w = -1 \/ 0 <= w_data w < zlen h.
Proof. intros [(E & _)|(k & E & _)]; [now left|right]. now apply h_block_inv in E. Qed.

Lemma cells_view_ok h b off n : 0 <= off -> 0 <= n -> off + n <= zlen (cells h b) -> view_ok h (View b off n).
Proof.
  intros Ho Hn Hl. split; [exact Hn|]. cbn. unfold cells in Hl. destruct (h_block h b) as [k|] eqn:E.
  - right. exists k. auto.
  - left. rewrite zlen_nil in Hl. lia.
Qed.

Lemma vat_cells h b off n i : 0 <= off + i < zlen (cells h b) -> vat h (View b off n) i = zn s0 (cells h b) (off + i).
Proof.
  intros H. unfold vat, v_at, cells in *. cbn. destruct (h_block h b) as [k|] eqn:E; [|rewrite zlen_nil in H; lia].
  rewrite (h_read_ok h b (off + i) k E H). reflexivity.
Qed.

Lemma vlist_cells h b : vlist h (View b 0 (zlen (cells h b))) = cells h b.
Proof.
  pose proof (zlen_nonneg (cells h b)). apply (list_ext s0).
  - apply zlen_vlist. cbn. lia.
  - intros i Hi. unfold vlist in *. cbn [v_len] in *. rewrite zlen_map, zlen_zrange in Hi by lia. rewrite zn_map_zrange by lia. rewrite vat_cells by lia. reflexivity.
Qed.

Lemma values_vals st : inv (st_heap st) (st_vars st) -> values st = vals (st_heap st) (st_vars st).
Proof.
  intros (H & _). unfold values, vals. apply map_ext_in. intros w Hw. apply (In_zn w_new) in Hw. destruct Hw as (x & Hx & <-).
  pose proof (H x Hx) as W. rewrite (w_ok_view _ _ W). rewrite v_list_ok.
  - apply vlist_cells.
  - pose proof (zlen_nonneg (cells (st_heap st) (w_data (zn w_new (st_vars st) x)))). apply cells_view_ok; lia.
Qed.

Lemma zlen_vals h vs : zlen (vals h vs) = zlen vs.
Proof. apply zlen_map. Qed.

Lemma zn_vals h vs x : 0 <= x < zlen vs -> zn [] (vals h vs) x = cells h (w_data (zn w_new vs x)).
Proof. intros Hx. unfold vals. now rewrite (zn_map w_new []). Qed.

(* ---------------------------------------------------------------- effect on the blocks *)

Lemma hw_blocks h b off n (g : Z -> T) h' c : hw h b off n g h' -> (c <> b \/ n <= 0) -> h_block h' c = h_block h c.
Proof.
  intros ((L & B) & R) Hc. specialize (B c). destruct (h_block h c) as [k|] eqn:E, (h_block h' c) as [k'|] eqn:E'; try contradiction; [|congruence].
  destruct B as (B1 & B2). f_equal. destruct k as [cs cap], k' as [cs' cap']. cbn in *. subst cap'. f_equal.
  apply (list_ext s0); [exact B1|]. intros i Hi. specialize (R c i).
  rewrite (h_read_ok h' c i _ E') in R by exact Hi. rewrite (h_read_ok h c i _ E) in R by (cbn; lia). cbn in R.
  destruct (Z.eqb_spec c b), (Z.leb_spec off i), (Z.ltb_spec i (off + n)); cbn in R; try lia; congruence.
Qed.

Lemma hw_cells h b off n (g : Z -> T) h' : hw h b off n g h' ->
  cells h' b = map (fun i => if (off <=? i) && (i <? off + n) then g (i - off) else zn s0 (cells h b) i) (zrange 0 (zlen (cells h b))).
Proof.
  intros ((L & B) & R). specialize (B b). unfold cells. destruct (h_block h b) as [k|] eqn:E, (h_block h' b) as [k'|] eqn:E'; try contradiction; [|reflexivity].
  destruct B as (B1 & B2). pose proof (zlen_nonneg (b_cells k)). apply (list_ext s0); [rewrite zlen_map, zlen_zrange by lia; lia|]. intros i Hi.
  rewrite zn_map_zrange by lia. specialize (R b i). rewrite (h_read_ok h' b i _ E') in R by exact Hi. rewrite (h_read_ok h b i _ E) in R by lia.
  rewrite Z.eqb_refl in R. cbn [andb] in R. destruct ((off <=? i) && (i <? off + n)); congruence.
Qed.

Lemma hw_w_ok h b off n (g : Z -> T) h' w : hw h b off n g h' -> w_ok h w -> w_ok h' w.
Proof.
  intros ((L & B) & R) [H|(k & E & V & Hc)]; [now left|]. right. specialize (B (w_data w)). rewrite E in B.
  destruct (h_block h' (w_data w)) as [k'|]; [|contradiction]. exists k'. destruct B as (-> & ->). auto.
Qed.

(** Writing through a view of variable x. *)
Lemma write_inv h vs x off n (g : Z -> T) h' : inv h vs -> 0 <= x < zlen vs ->
  hw h (w_data (zn w_new vs x)) off n g h' -> inv h' vs /\ vals h' vs = lput (vals h vs) x off n g.
Proof.
  intros (I1 & I2) Hx H. split.
  - split; [|exact I2]. intros y Hy. eapply hw_w_ok; eauto.
  - unfold lput. apply (list_ext ([] : list T)); [rewrite zlen_upd, !zlen_vals; reflexivity|]. rewrite zlen_vals. intros y Hy.
    rewrite zn_upd by (rewrite ?zlen_vals; lia). rewrite !zn_vals by assumption. destruct (Z.eqb_spec y x) as [->|N].
    + now apply hw_cells.
    + unfold cells. rewrite (hw_blocks h _ off n g h' _ H); [reflexivity|].
      destruct (Z_le_gt_dec n 0) as [Hn|Hn]; [now right|left]. intros E.
      pose proof (I2 y x Hy Hx N E) as E1. rewrite E1 in E. rewrite <- E in H. destruct H as (_ & R).
      specialize (R (-1) off). rewrite Z.eqb_refl in R. destruct (Z.leb_spec off off); [|lia]. destruct (Z.ltb_spec off (off + n)) as [L|L]; [|lia]. cbn in R.
      unfold h_read in R. rewrite !h_block_neg in R by lia. discriminate.
Qed.

(* ---------------------------------------------------------------- resize *)

(** (h', b') is what std::vector::resize makes of (h, b): the elements are l now, every
    other buffer is untouched. *)
Definition resized h (b : Z) h' (b' : Z) (l : list T) : Prop :=
  zlen h <= zlen h' /\
  (forall c, 0 <= c < zlen h -> c <> b -> h_block h' c = h_block h c) /\
  (b' = b \/ zlen h <= b') /\
  ((b' = -1 /\ l = []) \/ exists k, h_block h' b' = Ok k /\ b_cells k = l /\ zlen l <= b_cap k).

Lemma h_block_alloc h l cap c : h_block (fst (h_alloc h l cap)) c = if c =? zlen h then Ok (Block l cap) else h_block h c.
Proof.
  cbn. unfold h_block. destruct (Z.eqb_spec c (zlen h)) as [->|N].
  - pose proof (zlen_nonneg h). rewrite (get_ok None) by (rewrite zlen_app, zlen_cons, zlen_nil; lia). cbn [bind].
    rewrite zn_app_r by lia. now rewrite Z.sub_diag, zn_cons_0.
  - destruct (Z.leb_spec 0 c) as [L1|L1]; [|now rewrite !get_out by lia].
    destruct (Z.ltb_spec c (zlen h)) as [L2|L2]; [|now rewrite !get_out by (rewrite ?zlen_app, ?zlen_cons, ?zlen_nil; lia)].
    rewrite !(get_ok None) by (rewrite ?zlen_app, ?zlen_cons, ?zlen_nil; lia). cbn [bind]. now rewrite zn_app_l by lia.
Qed.

Lemma alloc_resized h l cap : zlen l <= cap -> resized h (-1) (fst (h_alloc h l cap)) (snd (h_alloc h l cap)) l.
Proof.
  intros Hc. split; [cbn; rewrite zlen_app; pose proof (zlen_nonneg [Some (Block l cap)]); lia|]. split.
  - intros c Hr Hn. rewrite h_block_alloc. destruct (Z.eqb_spec c (zlen h)); [lia|reflexivity].
  - split; [right; cbn; lia|]. right. exists (Block l cap). rewrite h_block_alloc. cbn. rewrite Z.eqb_refl. auto.
Qed.

Lemma zlen_firstn {A} (l : list A) n : 0 <= n -> zlen (firstn (Z.to_nat n) l) = Z.min n (zlen l).
Proof. intros H. unfold zlen. rewrite firstn_length. lia. Qed.

Lemma d_resize_ok grow h w n (t : T) : w_ok h w -> 0 <= n ->
  exists h' b', d_resize grow h (w_data w) n t = Ok (h', b') /\
    resized h (w_data w) h' b' (firstn (Z.to_nat n) (cells h (w_data w)) ++ repeat t (Z.to_nat (n - zlen (cells h (w_data w))))).
Proof.
  intros W Hn. unfold d_resize. destruct (Z.ltb_spec n 0); [lia|]. destruct W as [(E & _)|(k & E & _ & Hc)].
  - rewrite E, cells_neg. cbn [Z.eqb]. rewrite firstn_nil, zlen_nil. cbn [app]. rewrite Z.sub_0_r. destruct (Z.eqb_spec n 0) as [->|N].
    + exists h, (-1). split; [reflexivity|]. split; [lia|]. split; [reflexivity|]. split; [now left|now left].
    + assert (Hl : zlen (repeat t (Z.to_nat n)) <= Z.max n (grow 0 n)) by (rewrite zlen_repeat; lia).
      exists (fst (h_alloc h (repeat t (Z.to_nat n)) (Z.max n (grow 0 n)))), (snd (h_alloc h (repeat t (Z.to_nat n)) (Z.max n (grow 0 n)))).
      split; [reflexivity|]. now apply alloc_resized.
  - pose proof (h_block_inv _ _ _ E) as (Hb & _). destruct (Z.eqb_spec (w_data w) (-1)); [lia|]. unfold cells. rewrite E. cbn [bind].
    set (l := firstn (Z.to_nat n) (b_cells k) ++ repeat t (Z.to_nat (n - zlen (b_cells k)))).
    assert (Hl : zlen l = n) by (unfold l; rewrite zlen_app, zlen_firstn, zlen_repeat by lia; pose proof (zlen_nonneg (b_cells k)); lia).
    destruct (Z.leb_spec n (b_cap k)) as [L|L].
    + destruct (set h (w_data w) (Some (Block l (b_cap k)))) as [h'|] eqn:E'; [|rewrite set_ok in E' by exact Hb; discriminate].
      exists h', (w_data w). cbn [bind]. split; [reflexivity|]. pose proof (fun c => h_block_set h (w_data w) c _ h' Hb E') as B.
      split; [rewrite set_ok in E' by exact Hb; injection E' as <-; rewrite zlen_upd; lia|]. split.
      * intros c _ Hc'. rewrite B. destruct (Z.eqb_spec c (w_data w)); [lia|reflexivity].
      * split; [now left|]. right. exists (Block l (b_cap k)). rewrite B, Z.eqb_refl. cbn. split; [reflexivity|]. split; [reflexivity|lia].
    + unfold h_free. rewrite E. cbn [bind]. destruct (set h (w_data w) None) as [h1|] eqn:E'; [|rewrite set_ok in E' by exact Hb; discriminate].
      cbn [bind]. pose proof (fun c => h_block_set h (w_data w) c _ h1 Hb E') as B.
      assert (Z1 : zlen h1 = zlen h) by (rewrite set_ok in E' by exact Hb; injection E' as <-; apply zlen_upd).
      exists (fst (h_alloc h1 l (Z.max n (grow (b_cap k) n)))), (zlen h1). split; [reflexivity|]. split; [cbn [fst h_alloc]; rewrite zlen_app, Z1; pose proof (zlen_nonneg [Some (Block l (Z.max n (grow (b_cap k) n)))]); lia|]. split.
      * intros c Hc1 Hc2. rewrite (h_block_alloc h1 l (Z.max n (grow (b_cap k) n)) c). destruct (Z.eqb_spec c (zlen h1)); [lia|]. rewrite B. destruct (Z.eqb_spec c (w_data w)); [lia|reflexivity].
      * split; [right; lia|]. right. exists (Block l (Z.max n (grow (b_cap k) n))). rewrite (h_block_alloc h1 l (Z.max n (grow (b_cap k) n)) (zlen h1)). rewrite Z.eqb_refl. cbn. split; [reflexivity|]. split; [reflexivity|lia].
Qed.

Lemma resized_cells h b h' b' l : resized h b h' b' l -> cells h' b' = l.
Proof. intros (_ & _ & _ & [(-> & ->)|(k & E & <- & _)]); [apply cells_neg|]. unfold cells. now rewrite E. Qed.

Lemma resized_w_ok h b h' b' l : resized h b h' b' l -> w_ok h' (Vector (View b' 0 (zlen l)) b').
Proof. intros (_ & _ & _ & [(-> & ->)|(k & E & <- & H)]); [now left|right]. exists k. auto. Qed.

Lemma resized_view h b h' b' l : resized h b h' b' l -> d_view h' b' = Ok (View b' 0 (zlen l)).
Proof.
  intros (_ & _ & _ & [(-> & ->)|(k & E & <- & H)]); [reflexivity|]. unfold d_view, d_size. pose proof (h_block_inv _ _ _ E) as (Hb & _).
  destruct (Z.eqb_spec b' (-1)); [lia|]. rewrite E. cbn [bind]. unfold v_make. pose proof (zlen_nonneg (b_cells k)).
  destruct (Z.leb_spec 0 (zlen (b_cells k))); [|lia]. destruct (Z.eqb_spec b' (-1)); [lia|]. cbn. now rewrite orb_true_r.
Qed.

Lemma resized_hw h b h' b' l (g : Z -> T) h'' : resized h b h' b' l -> hw h' b' 0 (zlen l) g h'' -> resized h b h'' b' (map g (zrange 0 (zlen l))).
Proof.
  intros (L & F & D & K) H. pose proof (zlen_nonneg l) as Hl. assert (E0 : zlen h'' = zlen h') by apply H. split; [lia|]. split.
  - intros c Hc Hn. rewrite <- F by assumption. apply (hw_blocks h' b' 0 (zlen l) g h'' c H). left. destruct D; lia.
  - split; [exact D|]. destruct K as [(-> & ->)|(k & E & El & Hc)]; [left; auto|right].
    destruct H as ((_ & B) & R). specialize (B b'). rewrite E in B. destruct (h_block h'' b') as [k'|] eqn:E'; [|contradiction]. destruct B as (B1 & B2).
    exists k'. split; [reflexivity|]. rewrite El in B1. split; [|rewrite zlen_map, zlen_zrange by lia; lia].
    apply (list_ext s0); [rewrite zlen_map, zlen_zrange by lia; lia|]. intros i Hi. rewrite zn_map_zrange by lia. specialize (R b' i).
    rewrite (h_read_ok h'' b' i _ E') in R by exact Hi. rewrite Z.eqb_refl in R. destruct (Z.leb_spec 0 i); [|lia]. destruct (Z.ltb_spec i (0 + zlen l)); [|lia].
    cbn in R. rewrite Z.sub_0_r in R. congruence.
Qed.

(** Replacing the storage of variable x. *)
Lemma put_inv h vs x h' b' l : inv h vs -> 0 <= x < zlen vs -> resized h (w_data (zn w_new vs x)) h' b' l ->
  inv h' (upd vs (Z.to_nat x) (Vector (View b' 0 (zlen l)) b')) /\
  vals h' (upd vs (Z.to_nat x) (Vector (View b' 0 (zlen l)) b')) = lset (vals h vs) x l.
Proof.
  intros (I1 & I2) Hx R. pose proof R as (L & F & D & _).
  assert (Other : forall y, 0 <= y < zlen vs -> y <> x -> w_data (zn w_new vs y) = -1 \/ (0 <= w_data (zn w_new vs y) < zlen h /\ w_data (zn w_new vs y) <> w_data (zn w_new vs x))).
  { intros y Hy N. destruct (w_ok_range _ _ (I1 y Hy)) as [E|E]; [now left|].
    destruct (Z.eq_dec (w_data (zn w_new vs y)) (w_data (zn w_new vs x))) as [E1|E1]; [left; now apply (I2 y x)|right; auto]. }
  assert (Blk : forall y, 0 <= y < zlen vs -> y <> x -> h_block h' (w_data (zn w_new vs y)) = h_block h (w_data (zn w_new vs y))).
  { intros y Hy N. destruct (Other y Hy N) as [E|(E1 & E2)]; [rewrite E, !h_block_neg by lia; reflexivity|now apply F]. }
  split; [split|].
  - rewrite zlen_upd. intros y Hy. rewrite zn_upd by lia. destruct (Z.eqb_spec y x) as [->|N]; [now apply (resized_w_ok h _ h' b' l R)|].
    pose proof (I1 y Hy) as W. unfold w_ok in *. rewrite (Blk y Hy N). exact W.
  - rewrite zlen_upd. intros y z Hy Hz N. rewrite !zn_upd by lia. destruct (Z.eqb_spec y x) as [->|Ny], (Z.eqb_spec z x) as [->|Nz]; cbn [w_data]; try lia.
    + intros E. destruct (Other z Hz Nz) as [E1|(E1 & E2)]; [congruence|]. destruct D; lia.
    + intros E. destruct (Other y Hy Ny) as [E1|(E1 & E2)]; [congruence|]. destruct D; lia.
    + now apply I2.
  - unfold lset. apply (list_ext ([] : list T)); [now rewrite zlen_upd, !zlen_vals, zlen_upd|]. rewrite zlen_vals, zlen_upd. intros y Hy.
    rewrite (zn_vals h') by (rewrite zlen_upd; lia). rewrite !zn_upd by (rewrite ?zlen_vals; lia). destruct (Z.eqb_spec y x) as [->|N].
    + cbn. now apply (resized_cells h _ h' b' l R).
    + rewrite zn_vals by lia. unfold cells. now rewrite Blk.
Qed.

(** A new variable. *)
Lemma push_inv h vs h' b' l : inv h vs -> resized h (-1) h' b' l ->
  inv h' (vs ++ [Vector (View b' 0 (zlen l)) b']) /\ vals h' (vs ++ [Vector (View b' 0 (zlen l)) b']) = vals h vs ++ [l].
Proof.
  intros (I1 & I2) R. pose proof R as (L & F & D & _). pose proof (zlen_nonneg vs) as Hvs.
  assert (Blk : forall y, 0 <= y < zlen vs -> h_block h' (w_data (zn w_new vs y)) = h_block h (w_data (zn w_new vs y))).
  { intros y Hy. destruct (w_ok_range _ _ (I1 y Hy)) as [E|E]; [rewrite E, !h_block_neg by lia; reflexivity|]. apply F; lia. }
  assert (Zl : zlen (vs ++ [Vector (View b' 0 (zlen l)) b']) = zlen vs + 1) by (rewrite zlen_app, zlen_cons, zlen_nil; lia).
  assert (Zn : forall y, 0 <= y < zlen vs + 1 -> zn w_new (vs ++ [Vector (View b' 0 (zlen l)) b']) y = if y =? zlen vs then Vector (View b' 0 (zlen l)) b' else zn w_new vs y).
  { intros y Hy. destruct (Z.eqb_spec y (zlen vs)) as [->|N]; [rewrite zn_app_r by lia; now rewrite Z.sub_diag, zn_cons_0|now rewrite zn_app_l by lia]. }
  split; [split|].
  - rewrite Zl. intros y Hy. rewrite Zn by lia. destruct (Z.eqb_spec y (zlen vs)) as [->|N]; [now apply (resized_w_ok h _ h' b' l R)|].
    pose proof (I1 y ltac:(lia)) as W. unfold w_ok in *. rewrite Blk by lia. exact W.
  - rewrite Zl. intros y z Hy Hz N. rewrite !Zn by lia. destruct (Z.eqb_spec y (zlen vs)) as [->|Ny], (Z.eqb_spec z (zlen vs)) as [->|Nz]; cbn [w_data]; try lia.
    + intros E. destruct (w_ok_range _ _ (I1 z ltac:(lia))); [congruence|]. destruct D; lia.
    + intros E. destruct (w_ok_range _ _ (I1 y ltac:(lia))); [congruence|]. destruct D; lia.
    + apply I2; lia.
  - unfold vals. rewrite map_app. cbn [map w_data]. rewrite (resized_cells h _ h' b' l R). f_equal. apply map_ext_in. intros w Hw.
    apply (In_zn w_new) in Hw. destruct Hw as (y & Hy & <-). unfold cells. now rewrite Blk.
Qed.

(* ---------------------------------------------------------------- references *)

Lemma v_of_ok h vs r x off n : inv h vs -> lref (vals h vs) r = Some (x, off, n) ->
  0 <= x < zlen vs /\ 0 <= off /\ 0 <= n /\ off + n <= zlen (cells h (w_data (zn w_new vs x))) /\
  v_of (VState h vs) r = Ok (View (w_data (zn w_new vs x)) off n).
Proof.
  intros (I1 & _) E. destruct r as [y|y o m]; cbn [lref v_of st_vars] in *; rewrite zlen_vals in E.
  - destruct (Z.leb_spec 0 y) as [L1|], (Z.ltb_spec y (zlen vs)) as [L2|]; cbn [andb] in E; try discriminate. rewrite zn_vals in E by lia. injection E as <- <- <-.
    pose proof (zlen_nonneg (cells h (w_data (zn w_new vs y)))). split; [lia|]. split; [lia|]. split; [lia|]. split; [lia|].
    rewrite (get_ok w_new) by lia. cbn [bind]. now rewrite (w_ok_view _ _ (I1 y ltac:(lia))).
  - destruct (Z.leb_spec 0 y) as [L1|], (Z.ltb_spec y (zlen vs)) as [L2|]; cbn [andb] in E; try discriminate. rewrite zn_vals in E by lia.
    destruct (Z.leb_spec 0 o) as [L3|], (Z.leb_spec 0 m) as [L4|], (Z.leb_spec (o + m) (zlen (cells h (w_data (zn w_new vs y))))) as [L5|]; cbn [andb] in E; try discriminate.
    injection E as <- <- <-. split; [lia|]. split; [lia|]. split; [lia|]. split; [lia|].
    rewrite (get_ok w_new) by lia. cbn [bind]. rewrite (w_ok_view _ _ (I1 y ltac:(lia))). cbn [v_buf v_off]. unfold v_make.
    destruct (Z.leb_spec 0 m); [|lia]. cbn [assert_ bind]. destruct (Z.eqb_spec m 0) as [->|Nm]; cbn [orb assert_ bind]; [reflexivity|].
    destruct (Z.eqb_spec (w_data (zn w_new vs y)) (-1)) as [Ew|]; cbn [negb assert_ bind]; [|reflexivity].
    rewrite Ew, cells_neg, zlen_nil in L5. lia.
Qed.

Lemma not_behind h vs x off n y off' : inv h vs -> 0 <= x < zlen vs -> 0 <= y < zlen vs -> 0 <= off' ->
  off' + n <= zlen (cells h (w_data (zn w_new vs y))) -> lbehind x off n y off' = false ->
  ~ reads_behind (View (w_data (zn w_new vs x)) off n) (View (w_data (zn w_new vs y)) off' n).
Proof.
  intros (I1 & I2) Hx Hy Ho Hl H (E & K). cbn in *. unfold lbehind in H. destruct (Z.eqb_spec x y) as [->|N].
  - destruct (Z.ltb_spec off' off), (Z.ltb_spec off (off' + n)); cbn in H; try discriminate; lia.
  - assert (E1 : w_data (zn w_new vs y) = -1) by (apply (I2 y x); auto). rewrite E1, cells_neg, zlen_nil in Hl. lia.
Qed.

(* ---------------------------------------------------------------- the calls *)

Lemma frame_cells h b h' b' l c : resized h b h' b' l -> (c = -1 \/ 0 <= c < zlen h) -> (c <> b \/ c = -1) -> cells h' c = cells h c.
Proof.
  intros (_ & F & _) [->|Hc] Hb; [now rewrite !cells_neg|]. unfold cells. rewrite F; [reflexivity|lia|destruct Hb; lia].
Qed.

Lemma copy_into h b h1 b1 l c off : resized h b h1 b1 l -> 0 <= off -> off + zlen l <= zlen (cells h1 c) ->
  exists h2, v_copy h1 (View b1 0 (zlen l)) (View c off (zlen l)) = Ok h2 /\
    resized h b h2 b1 (map (fun i => zn s0 (cells h1 c) (off + i)) (zrange 0 (zlen l))).
Proof.
  intros R Ho Hl. pose proof (zlen_nonneg l) as Z0.
  destruct (v_copy_hw h1 (View b1 0 (zlen l)) (View c off (zlen l))) as (h2 & E & H).
  - apply cells_view_ok; rewrite ?(resized_cells _ _ _ _ _ R); lia.
  - apply cells_view_ok; lia.
  - reflexivity.
  - intros (_ & K). cbn in K. lia.
  - exists h2. split; [exact E|]. cbn in H. pose proof (resized_hw _ _ _ _ _ _ _ R H) as R2.
    erewrite map_ext_in; [exact R2|]. intros i Hi. apply In_zrange in Hi. cbn. symmetry. apply vat_cells. lia.
Qed.

Lemma slice_full (l : list T) : map (fun i => zn s0 l (0 + i)) (zrange 0 (zlen l)) = l.
Proof.
  pose proof (zlen_nonneg l). apply (list_ext s0); [rewrite zlen_map, zlen_zrange by lia; lia|]. intros i Hi. rewrite zlen_map, zlen_zrange in Hi by lia. now rewrite zn_map_zrange by lia.
Qed.

Lemma lvar_inv (vs0 : list (list T)) (x : Z) (l : list T) : lvar vs0 x = Some l -> 0 <= x < zlen vs0 /\ l = zn [] vs0 x.
Proof.
  unfold lvar. destruct (Z.leb_spec 0 x), (Z.ltb_spec x (zlen vs0)); cbn; intros E; try discriminate. injection E as <-. split; [lia|reflexivity].
Qed.

Definition good (st : vstate S) : Prop := inv (st_heap st) (st_vars st).

Lemma d_size_ok h w : w_ok h w -> d_size h (w_data w) = Ok (zlen (cells h (w_data w))).
Proof.
  intros [(E & _)|(k & E & _)]; unfold d_size.
  - rewrite E. cbn [Z.eqb]. rewrite cells_neg. reflexivity.
  - pose proof (h_block_inv _ _ _ E) as (Hb & _). destruct (Z.eqb_spec (w_data w) (-1)); [lia|]. unfold cells. now rewrite E.
Qed.

Lemma d_view_ok h w : w_ok h w -> d_view h (w_data w) = Ok (w_view w).
Proof.
  intros W. unfold d_view. rewrite (d_size_ok h w W). cbn [bind]. rewrite (w_ok_view h w W). unfold v_make.
  pose proof (zlen_nonneg (cells h (w_data w))). destruct (Z.leb_spec 0 (zlen (cells h (w_data w)))); [|lia]. cbn [assert_ bind].
  destruct (Z.eqb_spec (w_data w) (-1)) as [E|]; cbn [negb].
  - rewrite E, cells_neg. reflexivity.
  - rewrite orb_true_r. reflexivity.
Qed.

Lemma w_new_ok h : w_ok h w_new.
Proof. left. split; reflexivity. Qed.

Lemma zlen_resized_list n (l : list T) t : 0 <= n -> zlen (firstn (Z.to_nat n) l ++ repeat t (Z.to_nat (n - zlen l))) = n.
Proof. intros H. rewrite zlen_app, zlen_firstn, zlen_repeat by lia. pose proof (zlen_nonneg l). lia. Qed.

Lemma resize_same (l : list T) t : firstn (Z.to_nat (zlen l)) l ++ repeat t (Z.to_nat (zlen l - zlen l)) = l.
Proof. rewrite Z.sub_diag. cbn. rewrite app_nil_r. unfold zlen. rewrite Nat2Z.id. apply firstn_all. Qed.

(** variables exchanged, heap untouched *)
Lemma inv_perm h vs vs' (p : Z -> Z) : inv h vs -> zlen vs' = zlen vs ->
  (forall x, 0 <= x < zlen vs -> 0 <= p x < zlen vs /\ zn w_new vs' x = zn w_new vs (p x)) ->
  (forall x y, 0 <= x < zlen vs -> 0 <= y < zlen vs -> p x = p y -> x = y) -> inv h vs'.
Proof.
  intros (I1 & I2) Hl Hp Hi. split.
  - rewrite Hl. intros x Hx. destruct (Hp x Hx) as (P1 & ->). now apply I1.
  - rewrite Hl. intros x y Hx Hy N. destruct (Hp x Hx) as (P1 & ->), (Hp y Hy) as (P2 & ->). apply I2; auto.
Qed.

Lemma swap_ok h vs x y : inv h vs -> 0 <= x < zlen vs -> 0 <= y < zlen vs ->
  let vs' := upd (upd vs (Z.to_nat x) (zn w_new vs y)) (Z.to_nat y) (zn w_new vs x) in
  inv h vs' /\ vals h vs' = lset (lset (vals h vs) x (zn [] (vals h vs) y)) y (zn [] (vals h vs) x).
Proof.
  intros I Hx Hy vs'.
  assert (Zn : forall z, 0 <= z < zlen vs -> zn w_new vs' z = zn w_new vs (if z =? y then x else if z =? x then y else z)).
  { intros z Hz. unfold vs'. rewrite zn_upd by (rewrite ?zlen_upd; lia). rewrite zn_upd by lia. destruct (Z.eqb_spec z y), (Z.eqb_spec z x); reflexivity. }
  assert (Zl : zlen vs' = zlen vs) by (unfold vs'; now rewrite !zlen_upd).
  split.
  - apply (inv_perm h vs vs' (fun z => if z =? y then x else if z =? x then y else z)); auto.
    + intros z Hz. split; [|now apply Zn]. destruct (Z.eqb_spec z y), (Z.eqb_spec z x); lia.
    + intros a b Ha Hb. destruct (Z.eqb_spec a y), (Z.eqb_spec b y), (Z.eqb_spec a x), (Z.eqb_spec b x); lia.
  - unfold lset. apply (list_ext ([] : list T)); [now rewrite !zlen_upd, !zlen_vals|]. rewrite zlen_vals, Zl. intros z Hz.
    rewrite (zn_vals h vs') by lia. rewrite Zn by lia. rewrite zn_upd by (rewrite ?zlen_upd, ?zlen_vals; lia). rewrite zn_upd by (rewrite ?zlen_vals; lia).
    destruct (Z.eqb_spec z y) as [->|]; [now rewrite zn_vals|]. destruct (Z.eqb_spec z x) as [->|]; now rewrite zn_vals.
Qed.

Lemma move_ok h vs y : inv h vs -> 0 <= y < zlen vs ->
  let vs' := upd vs (Z.to_nat y) w_new ++ [zn w_new vs y] in
  inv h vs' /\ vals h vs' = lset (vals h vs) y [] ++ [zn [] (vals h vs) y].
Proof.
  intros (I1 & I2) Hy vs'.
  assert (Zl : zlen vs' = zlen vs + 1) by (unfold vs'; rewrite zlen_app, zlen_upd, zlen_cons, zlen_nil; lia).
  assert (Zn : forall z, 0 <= z < zlen vs + 1 -> zn w_new vs' z = if z =? zlen vs then zn w_new vs y else if z =? y then w_new else zn w_new vs z).
  { intros z Hz. unfold vs'. destruct (Z.eqb_spec z (zlen vs)) as [->|N].
    - rewrite zn_app_r by (rewrite zlen_upd; lia). rewrite zlen_upd, Z.sub_diag. apply zn_cons_0.
    - rewrite zn_app_l by (rewrite zlen_upd; lia). now rewrite zn_upd by lia. }
  split; [split|].
  - rewrite Zl. intros z Hz. rewrite Zn by lia. destruct (Z.eqb_spec z (zlen vs)); [now apply I1|]. destruct (Z.eqb_spec z y); [apply w_new_ok|apply I1; lia].
  - rewrite Zl. intros a b Ha Hb N. rewrite !Zn by lia.
    destruct (Z.eqb_spec a (zlen vs)), (Z.eqb_spec b (zlen vs)); try lia.
    + destruct (Z.eqb_spec b y); [intros E; rewrite E; reflexivity|]. apply I2; lia.
    + destruct (Z.eqb_spec a y); [reflexivity|]. apply I2; lia.
    + destruct (Z.eqb_spec a y); [reflexivity|]. destruct (Z.eqb_spec b y); [intros E; rewrite E; reflexivity|]. apply I2; lia.
  - unfold vals, vs'. rewrite map_app. cbn [map]. f_equal; [|rewrite (zn_map w_new []) by lia; reflexivity]. unfold lset.
    apply (list_ext ([] : list T)); [now rewrite zlen_upd, !zlen_map, zlen_upd|]. rewrite zlen_map, zlen_upd. intros z Hz.
    rewrite (zn_map w_new []) by (rewrite zlen_upd; lia). rewrite !zn_upd by (rewrite ?zlen_map; lia). destruct (Z.eqb_spec z y); [apply cells_neg|now rewrite (zn_map w_new []) by lia].
Qed.

Lemma upd_same {A} (d : A) (l : list A) x : 0 <= x < zlen l -> upd l (Z.to_nat x) (zn d l x) = l.
Proof.
  intros Hx. apply (list_ext d); [apply zlen_upd|]. rewrite zlen_upd. intros i Hi. rewrite zn_upd by lia. destruct (Z.eqb_spec i x); congruence.
Qed.

Lemma on1_ok f h vs r x off n g : inv h vs -> lref (vals h vs) r = Some (x, off, n) ->
  (forall v, v = View (w_data (zn w_new vs x)) off n -> view_ok h v -> exists h', f h v = Ok h' /\ hw h (v_buf v) (v_off v) (v_len v) g h') ->
  exists st', st_on1 f (VState h vs) r = Ok st' /\ good st' /\ vals (st_heap st') (st_vars st') = lput (vals h vs) x off n g.
Proof.
  intros I E Hf. destruct (v_of_ok h vs r x off n I E) as (Hx & Ho & Hn & Hl & Ev). unfold st_on1. rewrite Ev. cbn [bind st_heap st_vars].
  destruct (Hf _ eq_refl) as (h' & E' & H); [now apply cells_view_ok|]. cbn in H. rewrite E'. cbn [bind].
  destruct (write_inv h vs x off n g h' I Hx H) as (I' & V'). exists (VState h' vs). split; [reflexivity|]. split; [exact I'|exact V'].
Qed.

Lemma on2_ok f h vs r q x off n y off' n' g : inv h vs -> lref (vals h vs) r = Some (x, off, n) -> lref (vals h vs) q = Some (y, off', n') ->
  n = n' -> lbehind x off n y off' = false ->
  (forall v w, v = View (w_data (zn w_new vs x)) off n -> w = View (w_data (zn w_new vs y)) off' n -> view_ok h v -> view_ok h w -> ~ reads_behind v w ->
    exists h', f h v w = Ok h' /\ hw h (v_buf v) (v_off v) (v_len v) g h') ->
  exists st', st_on2 f (VState h vs) r q = Ok st' /\ good st' /\ vals (st_heap st') (st_vars st') = lput (vals h vs) x off n g.
Proof.
  intros I E1 E2 <- B Hf. destruct (v_of_ok h vs r x off n I E1) as (Hx & Ho & Hn & Hl & Ev). destruct (v_of_ok h vs q y off' n I E2) as (Hy & Ho' & _ & Hl' & Ew).
  unfold st_on2. rewrite Ev. cbn [bind]. rewrite Ew. cbn [bind st_heap st_vars].
  destruct (Hf _ _ eq_refl eq_refl) as (h' & E' & H); [now apply cells_view_ok|now apply cells_view_ok|now apply (not_behind h vs)|].
  cbn in H. rewrite E'. cbn [bind].
  destruct (write_inv h vs x off n g h' I Hx H) as (I' & V'). exists (VState h' vs). split; [reflexivity|]. split; [exact I'|exact V'].
Qed.

Lemma lput_ext (vs0 : list (list T)) x off n (f g : Z -> T) : (forall i, 0 <= i < n -> f i = g i) -> lput vs0 x off n f = lput vs0 x off n g.
Proof.
  intros H. unfold lput. f_equal. apply map_ext. intros i. destruct (Z.leb_spec off i), (Z.ltb_spec i (off + n)); cbn; try reflexivity. apply H. lia.
Qed.

End VecState.
