(** Facts about memory, views and loops that write through a view. *)

From Coq Require Import ZArith List Lia Bool.
From Verif Require Import Base Scalar Spec Dense LoopFacts SumFacts DenseProofs Vec VecSpec.
Import ListNotations.
Open Scope Z_scope.

Section VecProofs.
Context {S : scalar}.
Notation T := (car S).
Implicit Types (h : heap S) (v w x y z : view).

Definition h_cap h (b : Z) : res Z := k <- h_block h b ;; Ok (b_cap k).

Lemma h_block_inv h b k : h_block h b = Ok k -> 0 <= b < zlen h /\ zn None h b = Some k.
Proof.
  unfold h_block. destruct (get h b) as [o|] eqn:E; cbn [bind]; [|discriminate]. apply (get_Ok_inv None) in E. destruct E as (E & ->).
  destruct (zn None h b) as [k'|]; [|discriminate]. intros H. injection H as <-. auto.
Qed.

Lemma h_block_ok h b k : 0 <= b < zlen h -> zn None h b = Some k -> h_block h b = Ok k.
Proof. intros Hb E. unfold h_block. rewrite (get_ok None) by exact Hb. cbn [bind]. now rewrite E. Qed.

Lemma h_block_set h b b' (o : option (block S)) h' : 0 <= b < zlen h -> set h b o = Ok h' ->
  h_block h' b' = if b' =? b then match o with Some k => Ok k | None => Fail FUB end else h_block h b'.
Proof.
  intros Hb E. rewrite set_ok in E by exact Hb. injection E as <-. unfold h_block.
  destruct (Z.eqb_spec b' b) as [->|N].
  - rewrite (get_ok None) by (rewrite zlen_upd; exact Hb). cbn [bind]. rewrite zn_upd by lia. now rewrite Z.eqb_refl.
  - destruct (Z.leb_spec 0 b') as [L1|L1]; [|now rewrite !get_out by (rewrite ?zlen_upd; lia)].
    destruct (Z.ltb_spec b' (zlen h)) as [L2|L2]; [|now rewrite !get_out by (rewrite ?zlen_upd; lia)].
    rewrite !(get_ok None) by (rewrite ?zlen_upd; lia). cbn [bind]. rewrite zn_upd by lia. destruct (Z.eqb_spec b' b); [lia|reflexivity].
Qed.

Lemma h_read_inv h b i t : h_read h b i = Ok t -> exists k, h_block h b = Ok k /\ 0 <= i < zlen (b_cells k) /\ t = zn s0 (b_cells k) i.
Proof.
  unfold h_read. destruct (h_block h b) as [k|]; cbn [bind]; [|discriminate]. intros E. apply (get_Ok_inv s0) in E. exists k. tauto.
Qed.

Lemma h_read_ok h b i k : h_block h b = Ok k -> 0 <= i < zlen (b_cells k) -> h_read h b i = Ok (zn s0 (b_cells k) i).
Proof. intros E Hi. unfold h_read. rewrite E. cbn [bind]. now apply get_ok. Qed.

Definition same_blocks h h' : Prop :=
  zlen h' = zlen h /\ forall b, match h_block h b, h_block h' b with
    | Ok k, Ok k' => zlen (b_cells k') = zlen (b_cells k) /\ b_cap k' = b_cap k
    | Fail f, Fail f' => f = f'
    | _, _ => False
    end.

Lemma same_blocks_refl h : same_blocks h h.
Proof. split; [reflexivity|]. intros b. destruct (h_block h b); auto. Qed.

Lemma same_blocks_trans h1 h2 h3 : same_blocks h1 h2 -> same_blocks h2 h3 -> same_blocks h1 h3.
Proof.
  intros (A & B) (C & D). split; [congruence|]. intros b. specialize (B b). specialize (D b).
  destruct (h_block h1 b), (h_block h2 b), (h_block h3 b); try contradiction; try congruence. intuition congruence.
Qed.

Lemma h_write_ok h b i t0 t : h_read h b i = Ok t0 ->
  exists h', h_write h b i t = Ok h' /\ same_blocks h h' /\
    forall b' j, h_read h' b' j = if (b' =? b) && (j =? i) then Ok t else h_read h b' j.
Proof.
  intros E. apply h_read_inv in E. destruct E as (k & E & Hi & _). pose proof (h_block_inv h b k E) as (Hb & Eb).
  unfold h_write. rewrite E. cbn [bind]. rewrite (set_ok (b_cells k)) by exact Hi. cbn [bind].
  destruct (set h b (Some (Block (upd (b_cells k) (Z.to_nat i) t) (b_cap k)))) as [h'|] eqn:E'; [|rewrite set_ok in E' by exact Hb; discriminate].
  exists h'. split; [reflexivity|]. pose proof (fun b' => h_block_set h b b' _ h' Hb E') as B. split.
  - split; [rewrite set_ok in E' by exact Hb; injection E' as <-; apply zlen_upd|]. intros b'. rewrite B. destruct (Z.eqb_spec b' b) as [->|].
    + rewrite E. cbn. rewrite zlen_upd. auto.
    + destruct (h_block h b'); auto.
  - intros b' j. unfold h_read. rewrite B. destruct (Z.eqb_spec b' b) as [->|]; cbn [andb]; [|reflexivity].
    rewrite E. cbn [bind b_cells]. destruct (Z.eqb_spec j i) as [->|N].
    + rewrite (get_ok s0) by (rewrite zlen_upd; exact Hi). rewrite zn_upd by lia. now rewrite Z.eqb_refl.
    + destruct (Z.leb_spec 0 j) as [L1|L1]; [|now rewrite !get_out by (rewrite ?zlen_upd; lia)].
      destruct (Z.ltb_spec j (zlen (b_cells k))) as [L2|L2]; [|now rewrite !get_out by (rewrite ?zlen_upd; lia)].
      rewrite !(get_ok s0) by (rewrite ?zlen_upd; lia). rewrite zn_upd by lia. destruct (Z.eqb_spec j i); [lia|reflexivity].
Qed.

(** The exact effect of writing g 0 .. g (n-1) to cells off .. off+n-1 of buffer b. *)
Definition hw h (b off n : Z) (g : Z -> T) h' : Prop :=
  same_blocks h h' /\
  forall b' j, h_read h' b' j = if (b' =? b) && (off <=? j) && (j <? off + n) then Ok (g (j - off)) else h_read h b' j.

Lemma hw_nil h b off g : hw h b off 0 g h.
Proof.
  split; [apply same_blocks_refl|]. intros b' j. destruct (Z.eqb_spec b' b), (Z.leb_spec off j), (Z.ltb_spec j (off + 0)); cbn; try lia; reflexivity.
Qed.

Lemma hw_snoc h b off n g h1 t0 : 0 <= n -> hw h b off n g h1 -> h_read h b (off + n) = Ok t0 ->
  exists h2, h_write h1 b (off + n) (g n) = Ok h2 /\ hw h b off (n + 1) g h2.
Proof.
  intros Hn (A & B) E.
  assert (E1 : h_read h1 b (off + n) = Ok t0).
  { rewrite B. destruct (Z.ltb_spec (off + n) (off + n)); [lia|]. now rewrite andb_false_r. }
  destruct (h_write_ok h1 b (off + n) t0 (g n) E1) as (h2 & E2 & C & D). exists h2. split; [exact E2|].
  split; [eapply same_blocks_trans; eauto|]. intros b' j. rewrite D, B.
  destruct (Z.eqb_spec b' b), (Z.eqb_spec j (off + n)), (Z.leb_spec off j), (Z.ltb_spec j (off + n)), (Z.ltb_spec j (off + (n + 1))); cbn; try lia; try reflexivity.
  subst j. do 2 f_equal. lia.
Qed.

Lemma view_read h v i : view_ok h v -> 0 <= i < v_len v -> v_at h v i = Ok (vat h v i).
Proof.
  intros (Hl & [E|(k & E & Ho & Hb)]) Hi; [lia|]. unfold vat, v_at. rewrite (h_read_ok h _ _ k E) by lia. reflexivity.
Qed.

Lemma view_get h v i : view_ok h v -> 0 <= i < v_len v -> v_get h v i = Ok (vat h v i).
Proof. intros H Hi. unfold v_get. destruct (Z.ltb_spec i (v_len v)); [|lia]. cbn. now apply view_read. Qed.

Lemma same_view_ok h h' v : same_blocks h h' -> view_ok h v -> view_ok h' v.
Proof.
  intros (_ & B) (Hl & [E|(k & E & Ho & Hb)]); split; auto. right. specialize (B (v_buf v)). rewrite E in B.
  destruct (h_block h' (v_buf v)) as [k'|]; [|contradiction]. exists k'. split; [reflexivity|]. lia.
Qed.

Lemma hw_vat h b off n g h' w j : hw h b off n g h' ->
  vat h' w j = if inside (View b off n) w j then g (v_off w + j - off) else vat h w j.
Proof.
  intros (_ & B). unfold vat, v_at, inside. rewrite B. cbn. destruct ((v_buf w =? b) && (off <=? v_off w + j) && (v_off w + j <? off + n)); reflexivity.
Qed.

Lemma hw_writes h z g h' : hw h (v_buf z) (v_off z) (v_len z) g h' -> writes h z g h'.
Proof.
  intros H w Hw. split; [apply (same_view_ok h); [apply H|exact Hw]|]. intros j _. rewrite (hw_vat _ _ _ _ _ _ w j H).
  destruct z. reflexivity.
Qed.

(** A loop whose step i writes g i to element i of z. *)
Lemma view_loop h z (g : Z -> T) (body : Z -> heap S -> res (heap S)) : view_ok h z ->
  (forall i h1, 0 <= i < v_len z -> hw h (v_buf z) (v_off z) i g h1 -> body i h1 = v_put h1 z i (g i)) ->
  exists h', for_ 0 (v_len z) h body = Ok h' /\ hw h (v_buf z) (v_off z) (v_len z) g h'.
Proof.
  intros Hz Hb. pose proof Hz as (Hl & _).
  enough (G : returns (for_ 0 (v_len z) h body) (hw h (v_buf z) (v_off z) (v_len z) g)).
  { destruct (for_ 0 (v_len z) h body) as [h'|]; [|contradiction]. exists h'. auto. }
  apply (returns_for (fun i h1 => hw h (v_buf z) (v_off z) i g h1)); [lia|apply hw_nil| |auto].
  intros i h1 Hi H1. rewrite Hb by assumption. pose proof (view_read h z i Hz Hi) as E. unfold v_at in E.
  destruct (hw_snoc h (v_buf z) (v_off z) i g h1 _ ltac:(lia) H1 E) as (h2 & E2 & H2). unfold v_put. rewrite E2. exact H2.
Qed.

(** Element i of x is still the old one when elements 0 .. i-1 of z have been written. *)
Lemma safe_read h z x i g h1 : view_ok h x -> v_len x = v_len z -> ~ reads_behind z x -> 0 <= i < v_len z ->
  hw h (v_buf z) (v_off z) i g h1 -> v_at h1 x i = Ok (vat h x i).
Proof.
  intros Hx Hl Hs Hi (_ & B). unfold v_at. rewrite B.
  destruct (Z.eqb_spec (v_buf x) (v_buf z)) as [E|]; cbn [andb]; [|apply view_read; [exact Hx|lia]].
  destruct (Z.leb_spec (v_off z) (v_off x + i)) as [L1|]; cbn [andb]; [|apply view_read; [exact Hx|lia]].
  destruct (Z.ltb_spec (v_off x + i) (v_off z + i)) as [L2|]; [|apply view_read; [exact Hx|lia]].
  exfalso. apply Hs. split; [exact E|]. lia.
Qed.

Lemma not_behind_self z : ~ reads_behind z z.
Proof. intros (_ & H). lia. Qed.

Ltac view_step :=
  match goal with
  | H : hw ?h (v_buf ?z) (v_off ?z) ?i ?g ?h1 |- context [v_at ?h1 ?x ?i] =>
      rewrite (safe_read h z x i g h1) by (assumption || lia || apply not_behind_self)
  | |- context [v_get _ _ _] => unfold v_get
  | |- context [v_set _ _ _ _] => unfold v_set
  | |- context [?i <? ?n] => destruct (Z.ltb_spec i n); [|lia]
  end; cbn [assert_ bind].

Lemma v_fill_hw h v t : view_ok h v -> exists h', v_fill h v t = Ok h' /\ hw h (v_buf v) (v_off v) (v_len v) (fun _ => t) h'.
Proof. intros Hv. apply view_loop; [exact Hv|]. reflexivity. Qed.

Lemma v_randomize_hw gen h v : view_ok h v -> exists h', v_randomize gen h v = Ok h' /\ hw h (v_buf v) (v_off v) (v_len v) gen h'.
Proof. intros Hv. apply view_loop; [exact Hv|]. reflexivity. Qed.

Lemma v_map_hw f h v : view_ok h v ->
  exists h', v_map f h v = Ok h' /\ hw h (v_buf v) (v_off v) (v_len v) (fun i => f (vat h v i)) h'.
Proof. intros Hv. apply view_loop; [exact Hv|]. intros i h1 Hi H. cbv beta. repeat view_step. reflexivity. Qed.

Lemma v_copy_hw h z x : view_ok h z -> view_ok h x -> v_len x = v_len z -> ~ reads_behind z x ->
  exists h', v_copy h z x = Ok h' /\ hw h (v_buf z) (v_off z) (v_len z) (fun i => vat h x i) h'.
Proof.
  intros Hz Hx Hl Hs. unfold v_copy.
  destruct ((v_buf z =? v_buf x) && (v_off x <? v_off z) && (v_off z <? v_off x + v_len x)) eqn:E.
  { exfalso. apply Hs. apply andb_prop in E. destruct E as (E & E3). apply andb_prop in E. destruct E as (E1 & E2). split; lia. }
  rewrite Hl. apply view_loop; [exact Hz|]. intros i h1 Hi H. cbv beta. repeat view_step. reflexivity.
Qed.

Lemma v_assign_hw h z x : view_ok h z -> view_ok h x -> v_len x = v_len z -> ~ reads_behind z x ->
  exists h', v_assign h z x = Ok h' /\ hw h (v_buf z) (v_off z) (v_len z) (fun i => vat h x i) h'.
Proof. intros Hz Hx Hl Hs. unfold v_assign. destruct (Z.eqb_spec (v_len x) (v_len z)); [|lia]. cbn [assert_ bind]. now apply v_copy_hw. Qed.

Lemma v_add_scaled_hw h z alpha x : view_ok h z -> view_ok h x -> v_len x = v_len z -> ~ reads_behind z x ->
  exists h', v_add_scaled h z alpha x = Ok h' /\ hw h (v_buf z) (v_off z) (v_len z) (fun i => sadd (vat h z i) (smul alpha (vat h x i))) h'.
Proof.
  intros Hz Hx Hl Hs. unfold v_add_scaled. destruct (Z.eqb_spec (v_len x) (v_len z)); [|lia]. cbn [assert_ bind].
  apply view_loop; [exact Hz|]. intros i h1 Hi H. cbv beta. repeat view_step. reflexivity.
Qed.

Lemma v_sub_scaled_hw h z alpha x : view_ok h z -> view_ok h x -> v_len x = v_len z -> ~ reads_behind z x ->
  exists h', v_sub_scaled h z alpha x = Ok h' /\ hw h (v_buf z) (v_off z) (v_len z) (fun i => ssub (vat h z i) (smul alpha (vat h x i))) h'.
Proof.
  intros Hz Hx Hl Hs. unfold v_sub_scaled. destruct (Z.eqb_spec (v_len x) (v_len z)); [|lia]. cbn [assert_ bind].
  apply view_loop; [exact Hz|]. intros i h1 Hi H. cbv beta. repeat view_step. reflexivity.
Qed.

Lemma v_set_scaled_hw h z alpha x : view_ok h z -> view_ok h x -> v_len x = v_len z -> ~ reads_behind z x ->
  exists h', v_set_scaled h z alpha x = Ok h' /\ hw h (v_buf z) (v_off z) (v_len z) (fun i => smul alpha (vat h x i)) h'.
Proof.
  intros Hz Hx Hl Hs. unfold v_set_scaled. destruct (Z.eqb_spec (v_len x) (v_len z)); [|lia]. cbn [assert_ bind].
  apply view_loop; [exact Hz|]. intros i h1 Hi H. cbv beta. repeat view_step. reflexivity.
Qed.

Lemma v_zip_hw op h z x : view_ok h z -> view_ok h x -> v_len x = v_len z -> ~ reads_behind z x ->
  exists h', v_zip op h z x = Ok h' /\ hw h (v_buf z) (v_off z) (v_len z) (fun i => op (vat h z i) (vat h x i)) h'.
Proof.
  intros Hz Hx Hl Hs. unfold v_zip. destruct (Z.eqb_spec (v_len z) (v_len x)); [|lia]. cbn [assert_ bind].
  apply view_loop; [exact Hz|]. intros i h1 Hi H. cbv beta. repeat view_step. reflexivity.
Qed.

Lemma v_div_view_hw h z x : view_ok h z -> view_ok h x -> v_len x = v_len z -> ~ reads_behind z x ->
  (forall i, 0 <= i < v_len x -> seqb (vat h x i) s0 = false) ->
  exists h', v_div_view h z x = Ok h' /\ hw h (v_buf z) (v_off z) (v_len z) (fun i => sdiv (vat h z i) (vat h x i)) h'.
Proof.
  intros Hz Hx Hl Hs Hne. unfold v_div_view. destruct (Z.eqb_spec (v_len z) (v_len x)); [|lia]. cbn [assert_ bind].
  apply view_loop; [exact Hz|]. intros i h1 Hi H. cbv beta. unfold v_get. repeat view_step. rewrite Hne by lia. cbn [negb assert_ bind].
  repeat view_step. reflexivity.
Qed.

Lemma v_axpby_hw h alpha x beta y gamma z : view_ok h z -> view_ok h x -> view_ok h y -> v_len x = v_len z -> v_len y = v_len z ->
  ~ reads_behind z x -> ~ reads_behind z y ->
  exists h', v_axpby h alpha x beta y gamma z = Ok h' /\
    hw h (v_buf z) (v_off z) (v_len z) (fun i => sadd (sadd (smul alpha (vat h x i)) (smul beta (vat h y i))) (smul gamma (vat h z i))) h'.
Proof.
  intros Hz Hx Hy Hlx Hly Hsx Hsy. unfold v_axpby. destruct (Z.eqb_spec (v_len y) (v_len x)); [|lia]. destruct (Z.eqb_spec (v_len z) (v_len x)); [|lia].
  cbn [assert_ bind]. rewrite Hlx. apply view_loop; [exact Hz|]. intros i h1 Hi H. cbv beta. repeat view_step. reflexivity.
Qed.

(* ---------------------------------------------------------------- reading *)

Definition vlist h v : list T := map (vat h v) (zrange 0 (v_len v)).

Lemma v_list_ok h v : view_ok h v -> v_list h v = Ok (vlist h v).
Proof.
  intros Hv. pose proof Hv as (Hl & _). unfold v_list, vlist.
  enough (G : forall n, (n <= Z.to_nat (v_len v))%nat -> for_ 0 (Z.of_nat n) [] (fun i l => t <- v_at h v i ;; Ok (l ++ [t])) = Ok (map (vat h v) (zrange 0 (Z.of_nat n)))).
  { specialize (G (Z.to_nat (v_len v)) ltac:(lia)). rewrite Z2Nat.id in G by lia. exact G. }
  induction n as [|n IH]; intros Hn; [reflexivity|].
  rewrite (for_split 0 (Z.of_nat n)) by lia. rewrite IH by lia. cbn [bind].
  unfold for_. replace (Z.of_nat (Datatypes.S n)) with (Z.of_nat n + 1) by lia. rewrite (zrange_cons (Z.of_nat n)) by lia. rewrite (zrange_empty (Z.of_nat n + 1)) by lia. cbn [foldM].
  rewrite view_read by (auto; lia). cbn [bind]. f_equal. rewrite (zrange_app 0 (Z.of_nat n) (Z.of_nat n + 1)) by lia.
  rewrite (zrange_cons (Z.of_nat n)) by lia. rewrite (zrange_empty (Z.of_nat n + 1)) by lia. rewrite map_app. reflexivity.
Qed.

Lemma zlen_vlist h v : 0 <= v_len v -> zlen (vlist h v) = v_len v.
Proof. intros H. unfold vlist. rewrite zlen_map, zlen_zrange by lia. lia. Qed.

Lemma v_inner_ok h v w : view_ok h v -> view_ok h w -> v_len w = v_len v ->
  v_inner h v w = Ok (fold_left (fun s i => sadd s (smul (vat h v i) (vat h w i))) (zrange 0 (v_len v)) s0).
Proof.
  intros Hv Hw Hl. unfold v_inner. destruct (Z.eqb_spec (v_len w) (v_len v)); [|lia]. cbn [assert_ bind]. unfold for_.
  rewrite <- foldM_pure. apply foldM_ext. intros s i Hi. apply In_zrange in Hi. rewrite !view_read by (auto; lia). reflexivity.
Qed.

End VecProofs.
