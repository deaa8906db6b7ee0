(** Validity of CSR storage over histories; the CSR constructor; sums. *)

From Coq Require Import ZArith List Lia Bool Permutation.
From Verif Require Import Base Scalar Spec Dense Sparse LoopFacts SumFacts CsrFacts Rows SparseProofs
  TransposeProofs ProductProofs EntrywiseProofs SparseMore SortProofs SparseHistory.
Import ListNotations.
Open Scope Z_scope.

Lemma bind_Ok {A B} (m : res A) (k : A -> res B) b : bind m k = Ok b -> exists a, m = Ok a /\ k a = Ok b.
Proof. destruct m; cbn; [eauto|discriminate]. Qed.

Lemma assert_Ok b u : assert_ b = Ok u -> b = true.
Proof. destruct b; [reflexivity|discriminate]. Qed.

Lemma foldM_inv {St X} (I : St -> Prop) (f : St -> X -> res St) l s s' :
  I s -> (forall x s1 s2, In x l -> I s1 -> f s1 x = Ok s2 -> I s2) -> foldM f l s = Ok s' -> I s'.
Proof.
  revert s. induction l as [|x l IH]; cbn; intros s Hs Hf H; [injection H as <-; exact Hs|].
  apply bind_Ok in H. destruct H as (s1 & E1 & E2). apply (IH s1); [|intros y a b Hy; apply Hf; now right|exact E2].
  apply (Hf x s s1); auto.
Qed.

Lemma for_inv {St} (I : St -> Prop) lo hi s (body : Z -> St -> res St) s' :
  I s -> (forall i s1 s2, lo <= i < hi -> I s1 -> body i s1 = Ok s2 -> I s2) -> for_ lo hi s body = Ok s' -> I s'.
Proof.
  intros Hs Hf. unfold for_. apply foldM_inv; [exact Hs|]. intros i s1 s2 Hi. apply Hf. now apply In_zrange.
Qed.

Lemma for_inv_idx {St} (I : Z -> St -> Prop) lo hi s (body : Z -> St -> res St) s' :
  lo <= hi -> I lo s -> (forall i s1 s2, lo <= i < hi -> I i s1 -> body i s1 = Ok s2 -> I (i + 1) s2) ->
  for_ lo hi s body = Ok s' -> I hi s'.
Proof.
  intros Hl Hs Hb. unfold for_.
  assert (G : forall n k s, Z.to_nat (hi - k) = n -> lo <= k <= hi -> I k s ->
     foldM (fun s i => body i s) (zrange k hi) s = Ok s' -> I hi s').
  { induction n as [|n IH]; intros k s0 En Hk HI H.
    - rewrite zrange_empty in H by lia. cbn in H. injection H as <-. now replace hi with k by lia.
    - rewrite zrange_cons in H by lia. cbn [foldM] in H. apply bind_Ok in H. destruct H as (s1 & H1 & H).
      apply (IH (k + 1) s1); [lia|lia| |exact H]. apply (Hb k s0); auto. lia. }
  apply (G _ lo s eq_refl); [lia|exact Hs].
Qed.

Lemma zlen_set {X} (l : list X) i a l' : set l i a = Ok l' -> zlen l' = zlen l.
Proof. intros H. apply set_Ok_inv in H. destruct H as (_ & ->). apply zlen_upd. Qed.

Section History.
Context {S : scalar}.
Notation T := (car S).
Implicit Types (A B : csr S).

Definition good A : Prop := csr_valid A \/ moved_from A.

Lemma good_rows A : good A -> 0 <= c_rows A /\ 0 <= c_cols A.
Proof. intros [V| ->]; cbn; [split; apply V|lia]. Qed.

Lemma good_values A d : good A -> zlen d = zlen (c_val A) -> good (with_val A d).
Proof.
  intros [V|E] H.
  - left. now apply with_val_valid.
  - right. unfold moved_from in *. rewrite E in *. cbn in *. apply zlen_0_nil in H. now rewrite H.
Qed.

Lemma good_upd A body B :
  (forall i j d d', body i j d = Ok d' -> zlen d' = zlen d) ->
  good A -> sp_upd_data A body = Ok B -> good B.
Proof.
  intros Hb G H. unfold sp_upd_data in H. apply bind_Ok in H. destruct H as (d & Hd & E). injection E as <-.
  apply (good_values A d G). revert Hd. unfold for_entries. apply (for_inv (fun d => zlen d = zlen (c_val A))); [reflexivity|].
  intros i d1 d2 _ H1 H. apply bind_Ok in H. destruct H as (lo & _ & H). apply bind_Ok in H. destruct H as (hi & _ & H).
  revert H. apply (for_inv (fun d => zlen d = zlen (c_val A))); [exact H1|].
  intros j d3 d4 _ H3 H. apply Hb in H. lia.
Qed.

Ltac len_body := repeat (
  match goal with
  | H : bind _ _ = Ok _ |- _ => apply bind_Ok in H; destruct H as (? & ? & H)
  | H : (if ?b then _ else _) = Ok _ |- _ => destruct b
  | H : set _ _ _ = Ok _ |- _ => apply zlen_set in H
  | H : Ok _ = Ok _ |- _ => injection H as <-
  end); auto.

Lemma good_permute A perm B : good A -> sp_permute_cols A perm = Ok B -> good B.
Proof.
  intros G H. unfold sp_permute_cols in H. apply bind_Ok in H. destruct H as (_ & _ & H).
  apply bind_Ok in H. destruct H as (ix & Hix & E). injection E as <-.
  assert (HI : zlen ix = zlen (c_idx A) /\ (csr_valid A -> forall k, 0 <= k < zlen ix -> 0 <= zn 0 ix k < c_cols A)).
  { revert Hix. apply (for_inv (fun ix => zlen ix = zlen (c_idx A) /\ (csr_valid A -> forall k, 0 <= k < zlen ix -> 0 <= zn 0 ix k < c_cols A))).
    - split; [reflexivity|]. intros V. apply (cv_idx V).
    - intros i x1 x2 Hi (H1 & H2) H. apply bind_Ok in H. destruct H as (c & Hc & H).
      apply bind_Ok in H. destruct H as (p & Hp & H). apply bind_Ok in H. destruct H as ([] & Ha & H).
      apply bind_Ok in H. destruct H as ([] & Hb & H). apply assert_Ok in Ha, Hb.
      apply set_Ok_inv in H. destruct H as (_ & ->). rewrite zlen_upd. split; [exact H1|].
      intros V k Hk. rewrite zn_upd by lia. destruct (k =? i); [lia|]. now apply H2. }
  destruct HI as (H1 & H2). destruct G as [V|E].
  - left. constructor; cbn; try apply V.
    + rewrite H1. apply V.
    + intros k Hk. now apply H2.
  - right. unfold moved_from in *. rewrite E in *. cbn in *. apply zlen_0_nil in H1. now rewrite H1.
Qed.

Lemma good_inplace srt A o B : sorts srt -> good A -> run_inplace srt A o = Ok B -> good B.
Proof.
  intros HS G H. destruct o; cbn in H.
  - destruct G as [V| ->].
    + destruct (sp_sort_spec srt HS A V) as (B' & E & VB & _). rewrite H in E. injection E as <-. now left.
    + cbn in H. injection H as <-. now right.
  - injection H as <-. apply (good_values A (map (fun a => smul a v) (c_val A)) G). apply zlen_map.
  - unfold sp_div in H. apply bind_Ok in H. destruct H as (_ & _ & H). injection H as <-.
    apply (good_values A (map (fun a => sdiv a v) (c_val A)) G). apply zlen_map.
  - unfold sp_fill in H. apply bind_Ok in H. destruct H as (_ & _ & H). injection H as <-.
    apply (good_values A (map (fun _ => v) (c_val A)) G). apply zlen_map.
  - unfold sp_scale_rows in H. apply bind_Ok in H. destruct H as (_ & _ & H). apply bind_Ok in H.
    destruct H as (d & Hd & H). injection H as <-. apply (good_values A d G).
    revert Hd. apply (for_inv (fun d => zlen d = zlen (c_val A))); [reflexivity|]. intros i d1 d2 _ H1 H.
    do 3 (apply bind_Ok in H; destruct H as (? & _ & H)).
    revert H. apply (for_inv (fun d => zlen d = zlen (c_val A))); [exact H1|]. intros j d3 d4 _ H3 H. len_body. lia.
  - unfold sp_scale_cols in H. apply bind_Ok in H. destruct H as (_ & _ & H). revert H. apply good_upd; [|exact G].
    intros i j d d' H. len_body.
  - unfold sp_inv_scale_rows in H. apply bind_Ok in H. destruct H as (_ & _ & H). apply bind_Ok in H.
    destruct H as (d & Hd & H). injection H as <-. apply (good_values A d G).
    revert Hd. apply (for_inv (fun d => zlen d = zlen (c_val A))); [reflexivity|]. intros i d1 d2 _ H1 H.
    do 4 (apply bind_Ok in H; destruct H as (? & _ & H)).
    revert H. apply (for_inv (fun d => zlen d = zlen (c_val A))); [exact H1|]. intros j d3 d4 _ H3 H. len_body. lia.
  - unfold sp_inv_scale_cols in H. apply bind_Ok in H. destruct H as (_ & _ & H). revert H. apply good_upd; [|exact G].
    intros i j d d' H. len_body.
  - unfold sp_add_diag in H. apply bind_Ok in H. destruct H as (_ & _ & H). revert H. apply good_upd; [|exact G].
    intros i j d' d'' H. len_body.
  - unfold sp_add_diag_val in H. apply bind_Ok in H. destruct H as (_ & _ & H). revert H. apply good_upd; [|exact G].
    intros i j d' d'' H. len_body.
  - now apply good_permute in H.
  - unfold sp_elim_row_col in H. do 3 (apply bind_Ok in H; destruct H as (_ & _ & H)). revert H. apply good_upd; [|exact G].
    intros i j d' d'' H. len_body.
  - unfold sp_elim_row_col_marker in H. do 2 (apply bind_Ok in H; destruct H as (_ & _ & H)). revert H. apply good_upd; [|exact G].
    intros i j d' d'' H. len_body.
  - unfold sp_elim_row in H. do 2 (apply bind_Ok in H; destruct H as (_ & _ & H)).
    do 2 (apply bind_Ok in H; destruct H as (? & _ & H)). apply bind_Ok in H. destruct H as (d & Hd & H). injection H as <-.
    apply (good_values A d G). revert Hd. apply (for_inv (fun d => zlen d = zlen (c_val A))); [reflexivity|].
    intros j d3 d4 _ H3 H. len_body. lia.
  - unfold sp_elim_col in H. do 2 (apply bind_Ok in H; destruct H as (_ & _ & H)). revert H. apply good_upd; [|exact G].
    intros i j d' d'' H. len_body.
  - unfold sp_elim_col_marker in H. apply bind_Ok in H; destruct H as (_ & _ & H). revert H. apply good_upd; [|exact G].
    intros i j d' d'' H. len_body.
  - apply bind_Ok in H. destruct H as ([B' b'] & H & E). injection E as <-. cbn.
    unfold sp_elim_col_bc in H. apply bind_Ok in H. destruct H as (_ & _ & H). apply bind_Ok in H.
    destruct H as ([d b''] & Hd & H). injection H as <- <-. apply (good_values A d G).
    revert Hd. change d with (fst (d, b'')) at 2. generalize (d, b''). clear d b''. intros st. unfold for_entries.
    apply (for_inv (fun st : list T * list T => zlen (fst st) = zlen (c_val A))); [reflexivity|].
    intros i s1 s2 _ H1 H. do 2 (apply bind_Ok in H; destruct H as (? & _ & H)). revert H.
    apply (for_inv (fun st : list T * list T => zlen (fst st) = zlen (c_val A))); [exact H1|].
    intros j [d3 b3] s4 _ H3 H. cbn [fst] in H3. len_body; cbn [fst]; lia.
  - destruct G as [V| ->].
    + destruct (sp_elim_zeros_spec A tol V) as (B' & E & VB & _). rewrite H in E. injection E as <-. now left.
    + cbn in H. injection H as <-. left. constructor; cbn; try lia; try reflexivity.
      intros k Hk. rewrite zlen_nil in Hk. lia.
Qed.

Lemma good_empty : csr_valid (@sp_empty S).
Proof. constructor; cbn; try lia; try reflexivity. intros k Hk. rewrite zlen_nil in Hk. lia. Qed.

Lemma sp_make_inv ip ix d r c A : sp_make ip ix d r c = Ok A ->
  A = CSR r c ip ix d /\ zlen ip = r + 1 /\ zlen ix = zlen d /\ zn 0 ip 0 = 0 /\ 0 <= r /\ 0 <= c /\
  forall k, 0 <= k < zlen ix -> 0 <= zn 0 ix k < c.
Proof.
  unfold sp_make. intros H. apply bind_Ok in H. destruct H as ([] & R0 & H). apply bind_Ok in H. destruct H as ([] & C0 & H). apply assert_Ok in R0, C0. apply bind_Ok in H. destruct H as ([] & H1 & H). apply bind_Ok in H. destruct H as ([] & H2 & H).
  apply bind_Ok in H. destruct H as (p & H3 & H). apply bind_Ok in H. destruct H as ([] & H4 & H). apply bind_Ok in H.
  destruct H as ([] & H5 & H). injection H as <-. apply assert_Ok in H1, H2, H4.
  apply (get_Ok_inv 0) in H3. split; [reflexivity|]. split; [lia|]. split; [lia|]. split; [lia|]. split; [lia|]. split; [lia|].
  destruct (Z.ltb_spec 0 (zlen ix)) as [Hl|]; [|intros k Hk; lia].
  apply bind_Ok in H5. destruct H5 as (mx & Hx & H5). apply bind_Ok in H5. destruct H5 as ([] & Ha & H5).
  apply bind_Ok in H5. destruct H5 as (mn & Hn & H5). apply assert_Ok in Ha, H5.
  assert (Hmax : forall x, In x ix -> x <= mx).
  { destruct ix as [|a l]; [discriminate|]. cbn in Hx. injection Hx as <-. clear. revert a. induction l as [|b l IH]; intros a x.
    - cbn. intros [->|[]]. lia.
    - cbn [fold_left]. intros [->|[->|Hx]].
      + etransitivity; [|apply IH; left; reflexivity]. lia.
      + etransitivity; [|apply IH; left; reflexivity]. lia.
      + apply IH. right. exact Hx. }
  assert (Hmin : forall x, In x ix -> mn <= x).
  { destruct ix as [|a l]; [discriminate|]. cbn in Hn. injection Hn as <-. clear. revert a. induction l as [|b l IH]; intros a x.
    - cbn. intros [->|[]]. lia.
    - cbn [fold_left]. intros [->|[->|Hx]].
      + etransitivity; [apply IH; left; reflexivity|]. lia.
      + etransitivity; [apply IH; left; reflexivity|]. lia.
      + apply IH. right. exact Hx. }
  intros k Hk. pose proof (Hmax _ (zn_In 0 ix k Hk)). pose proof (Hmin _ (zn_In 0 ix k Hk)). lia.
Qed.

Lemma sp_make_accepts ip ix (d : list T) r c :
  0 <= r -> 0 <= c -> zlen ip = r + 1 -> zlen ix = zlen d -> zn 0 ip 0 = 0 ->
  (forall k, 0 <= k < zlen ix -> 0 <= zn 0 ix k < c) -> sp_make ip ix d r c = Ok (CSR r c ip ix d).
Proof.
  intros Hr Hc H1 H2 H3 H4. unfold sp_make. destruct (Z.leb_spec 0 r); [|lia]. destruct (Z.leb_spec 0 c); [|lia]. cbn [assert_ bind]. rewrite H1, Z.eqb_refl, H2, Z.eqb_refl. cbn [assert_ bind].
  rewrite (get_ok 0) by lia. cbn [bind]. rewrite H3. cbn [assert_ bind Z.eqb].
  destruct (Z.ltb_spec 0 (zlen d)); cbn [bind]; [|reflexivity].
  assert (Hne : ix <> []) by (intros ->; rewrite zlen_nil in H2; lia).
  assert (HI : forall x, In x ix -> 0 <= x < c).
  { intros x Hx. destruct (In_zn 0 ix x Hx) as (k & Hk & <-). now apply H4. }
  destruct (max_elem_lt ix c Hne ltac:(intros; apply HI; assumption)) as (mx & -> & Hmx).
  destruct (min_elem_ge ix 0 Hne ltac:(intros; apply HI; assumption)) as (mn & -> & Hmn). cbn [bind].
  destruct (Z.ltb_spec mx c); [|lia]. cbn [assert_ bind]. destruct (Z.leb_spec 0 mn); [|lia]. reflexivity.
Qed.

Lemma sub_valid A rows cols marker B m : sp_submatrix A rows cols marker = Ok (B, m) -> csr_valid B.
Proof.
  unfold sp_submatrix. intros H. apply bind_Ok in H. destruct H as ([] & _ & H).
  apply bind_Ok in H. destruct H as (ip0 & Hip0 & H). apply bind_Ok in H. destruct H as (ip1 & Hip1 & H).
  apply bind_Ok in H. destruct H as (mk & _ & H). apply bind_Ok in H. destruct H as ([ip n] & Hip & H).
  apply bind_Ok in H. destruct H as (ix0 & Hix0 & H). apply bind_Ok in H. destruct H as (d0 & Hd0 & H).
  apply bind_Ok in H. destruct H as ([[ix d] total] & Hfill & H). apply bind_Ok in H. destruct H as (mk2 & _ & H).
  apply bind_Ok in H. destruct H as (B' & HB & H). injection H as <- <-.
  pose proof (zlen_nonneg rows) as Hnr. pose proof (zlen_nonneg cols).
  unfold vec in Hip0. destruct (Z.ltb_spec (zlen rows + 1) 0); [lia|]. injection Hip0 as <-.
  apply set_Ok_inv in Hip1. destruct Hip1 as (_ & ->).
  assert (HI : n = zn 0 ip (zlen rows) /\ 0 <= n /\ (forall i, 0 <= i < zlen rows -> zn 0 ip i <= zn 0 ip (i + 1))).
  { set (I := fun (k : Z) (st : list Z * Z) => zlen (fst st) = zlen rows + 1 /\ snd st = zn 0 (fst st) k /\ 0 <= snd st /\
        (forall i, 0 <= i < k -> zn 0 (fst st) i <= zn 0 (fst st) (i + 1))).
    cut (I (zlen rows) (ip, n)); [unfold I; cbn [fst snd]; tauto|].
    revert Hip. apply (for_inv_idx I); [lia| |].
    - unfold I; cbn [fst snd]. split; [rewrite zlen_upd, zlen_repeat; lia|].
      split; [rewrite zn_upd by (rewrite ?zlen_repeat; lia); reflexivity|]. split; [lia|]. intros; lia.
    - intros k [ip1 n1] [ip2 n2] Hk (I1 & I2 & I3 & I4) Hs. cbn [fst snd] in *.
      apply bind_Ok in Hs. destruct Hs as (row & _ & Hs). apply bind_Ok in Hs. destruct Hs as (? & _ & Hs).
      apply bind_Ok in Hs. destruct Hs as (lo & _ & Hs). apply bind_Ok in Hs. destruct Hs as (hi & _ & Hs).
      apply bind_Ok in Hs. destruct Hs as (n3 & Hn3 & Hs). apply bind_Ok in Hs. destruct Hs as (ip3 & Hs & E3).
      injection E3 as <- <-. apply set_Ok_inv in Hs. destruct Hs as (Hr & ->).
      assert (Hle : n1 <= n3).
      { revert Hn3. apply (for_inv (fun n => n1 <= n)); [lia|]. intros j a b _ Ha Hb.
        apply bind_Ok in Hb. destruct Hb as (c & _ & Hb). apply bind_Ok in Hb. destruct Hb as (mm & _ & Hb).
        injection Hb as <-. destruct (mm =? -1); lia. }
      unfold I; cbn [fst snd].
      split; [now rewrite zlen_upd|]. split; [rewrite zn_upd by lia; now rewrite Z.eqb_refl|]. split; [lia|].
      intros i Hi. rewrite !zn_upd by lia. destruct (Z.eqb_spec i (k + 1)); [lia|].
      destruct (Z.eqb_spec (i + 1) (k + 1)); [|apply I4; lia]. replace i with k by lia. lia. }
  destruct HI as (Hn & Hn0 & Hmono).
  unfold vec in Hix0, Hd0. destruct (Z.ltb_spec n 0); [lia|]. injection Hix0 as <-. injection Hd0 as <-.
  assert (HL : zlen ix = n /\ zlen d = n).
  { change (zlen (fst (fst (ix, d, total))) = n /\ zlen (snd (fst (ix, d, total))) = n). revert Hfill. generalize (ix, d, total).
    intros st Hst. revert Hst. apply (foldM_inv (fun st : list Z * list T * Z => zlen (fst (fst st)) = n /\ zlen (snd (fst st)) = n)).
    - cbn. rewrite !zlen_repeat. lia.
    - intros row s1 s2 _ Hs1 Hb. do 2 (apply bind_Ok in Hb; destruct Hb as (? & _ & Hb)). revert Hb.
      apply (for_inv (fun st : list Z * list T * Z => zlen (fst (fst st)) = n /\ zlen (snd (fst st)) = n)); [exact Hs1|].
      intros j [[ix3 d3] t3] s4 _ (H3 & H4) Hb. cbn [fst snd] in *.
      apply bind_Ok in Hb; destruct Hb as (? & _ & Hb). apply bind_Ok in Hb; destruct Hb as (mm & _ & Hb).
      destruct (mm =? -1); [injection Hb as <-; auto|]. apply bind_Ok in Hb; destruct Hb as (ix4 & Hix4 & Hb).
      apply bind_Ok in Hb; destruct Hb as (? & _ & Hb). apply bind_Ok in Hb; destruct Hb as (d4 & Hd4 & Hb). injection Hb as <-.
      apply zlen_set in Hix4, Hd4. cbn. lia. }
  apply sp_make_inv in HB. destruct HB as (-> & G1 & G2 & G3 & G4 & _ & G5).
  constructor; cbn; auto. unfold ptr, nnz. cbn. lia.
Qed.

Lemma good_product A B C : good A -> good B -> sp_spmult A B = Ok C -> csr_valid C.
Proof.
  intros GA GB H.
  assert (Hs : c_rows B = c_cols A).
  { unfold sp_spmult in H. apply bind_Ok in H. destruct H as (mk & _ & H). unfold sp_spmult_marker in H.
    apply bind_Ok in H. destruct H as ([] & H & _). apply assert_Ok in H. lia. }
  assert (Safe : forall A' B', csr_valid A' -> csr_valid B' -> c_rows B' = c_cols A' -> sp_spmult A' B' = Ok C -> csr_valid C).
  { intros A' B' VA VB E HC. destruct (sp_spmult_safe A' B' VA VB E) as (C' & EC & VC & _). rewrite HC in EC. now injection EC as <-. }
  destruct GA as [VA|EA].
  - destruct GB as [VB|EB]; [now apply (Safe A B)|]. apply (Safe A (@sp_empty S)); auto; [apply good_empty|now rewrite EB in Hs|].
    rewrite <- H. clear H Safe. rewrite EB in *. cbn in Hs.
    assert (Hn : nnz A = 0).
    { destruct (Z.eq_dec (nnz A) 0); [assumption|]. pose proof (zlen_nonneg (c_val A)). unfold nnz in *.
      pose proof (idx_bounds A 0 VA ltac:(unfold nnz; lia)). lia. }
    assert (Hp : forall i, 0 <= i <= c_rows A -> ptr A i = 0) by (intros i Hi; pose proof (ptr_bounds A i VA Hi); lia).
    unfold sp_spmult. cbn [c_cols sp_empty]. destruct (vec 0 0); [|reflexivity]. cbn [bind].
    unfold sp_spmult_marker. cbn [c_rows c_cols sp_empty].
    destruct (assert_ (0 =? c_cols A)); [|reflexivity]. cbn [bind].
    destruct (vec (c_rows A + 1) 0) as [ip|]; [|reflexivity]. cbn [bind]. destruct (set ip 0 0) as [ip'|]; [|reflexivity]. cbn [bind].
    match goal with |- bind (for_ _ _ _ ?b1) ?k1 = bind (for_ _ _ _ ?b2) ?k2 =>
      assert (E1 : for_ 0 (c_rows A) (repeat (-1) (Z.to_nat 0), ip', 0) b1 = for_ 0 (c_rows A) (repeat (-1) (Z.to_nat 0), ip', 0) b2) end.
    { apply for_ext. intros i [[mk ip''] n] Hi. rewrite !get_ptr by (auto; lia). cbn [bind]. rewrite !Hp by lia. reflexivity. }
    rewrite E1. clear E1. match goal with |- bind ?m _ = bind ?m _ => destruct m as [[[mk ip''] n]|] end; [|reflexivity]. cbn [bind].
    destruct (vec n 0); [|reflexivity]. cbn [bind]. destruct (vec n s0); [|reflexivity]. cbn [bind].
    match goal with |- bind (for_ _ _ ?s ?b1) ?k1 = bind (for_ _ _ _ ?b2) ?k2 =>
      assert (E1 : for_ 0 (c_rows A) s b1 = for_ 0 (c_rows A) s b2) end.
    { apply for_ext. intros i st Hi. rewrite !get_ptr by (auto; lia). cbn [bind]. rewrite !Hp by lia. reflexivity. }
    rewrite E1. reflexivity.
  - rewrite EA in *. cbn in Hs. destruct (good_rows B GB) as (_ & Hc).
    unfold sp_spmult in H. rewrite vec_ok in H by exact Hc. cbn [bind] in H. unfold sp_spmult_marker in H.
    cbn [c_rows c_cols] in H. rewrite Hs in H. apply Z.leb_le in Hc. cbn in H. rewrite Hc in H. apply Z.leb_le in Hc. cbn in H. injection H as <-.
    constructor; cbn; try lia; try reflexivity. intros k Hk. rewrite zlen_nil in Hk. lia.
Qed.

Lemma good_transpose A B : good A -> sp_transpose A = Ok B -> csr_valid B.
Proof.
  intros [V| ->] H.
  - destruct (sp_transpose_full A V) as (B' & E & VB & _). rewrite H in E. now injection E as <-.
  - cbn in H. injection H as <-. apply good_empty.
Qed.

Lemma Forall_upd {X} (P : X -> Prop) l n a : Forall P l -> P a -> Forall P (upd l n a).
Proof.
  intros H Ha. revert n. induction H; intros [|n]; cbn; constructor; auto.
Qed.

Lemma Forall_set {X} (P : X -> Prop) l i a l' : Forall P l -> P a -> set l i a = Ok l' -> Forall P l'.
Proof. intros H Ha E. apply set_Ok_inv in E. destruct E as (_ & ->). now apply Forall_upd. Qed.

Lemma Forall_get {X} (P : X -> Prop) l i a : Forall P l -> get l i = Ok a -> P a.
Proof.
  intros H E. apply (get_Ok_inv a) in E. destruct E as (Hi & ->). rewrite Forall_forall in H. apply H, zn_In, Hi.
Qed.

Lemma sp_zero_valid r c A : @sp_zero S r c = Ok A -> csr_valid A.
Proof.
  intros H. unfold sp_zero in H. apply bind_Ok in H. destruct H as ([] & Hr & H). apply bind_Ok in H. destruct H as ([] & Hc & H). apply assert_Ok in Hr, Hc. apply Z.leb_le in Hr, Hc. rewrite vec_ok in H by lia. cbn in H. injection H as <-.
  constructor; cbn; auto.
  - rewrite zlen_repeat. lia.
  - unfold ptr. cbn. now rewrite zn_repeat by lia.
  - intros i Hi. unfold ptr. cbn. rewrite !zn_repeat by lia. lia.
  - unfold ptr. cbn. rewrite zn_repeat by lia. reflexivity.
  - intros k Hk. rewrite zlen_nil in Hk. lia.
Qed.

Lemma good_step srt st o st' :
  sorts srt -> op_args_ok o -> Forall good st -> run_op srt st o = Ok st' -> Forall good st'.
Proof.
  intros HS Ha G H. assert (App : forall A, good A -> Forall good (st ++ [A])) by (intros A HA; apply Forall_app; auto).
  destruct o; cbn in H.
  - injection H as <-. apply App. left. apply good_empty.
  - apply bind_Ok in H. destruct H as (A & HA & H). injection H as <-. apply App. left. cbn in Ha. now apply (sp_zero_valid rows cols).
  - injection H as <-. apply App. left. apply sp_diag_valid.
  - apply bind_Ok in H. destruct H as (A & HA & H). injection H as <-. apply App. left. apply sp_make_inv in HA.
    destruct HA as (-> & _). exact Ha.
  - apply bind_Ok in H. destruct H as (A & HA & H). apply (Forall_set good st dst A st' G); auto. now apply (Forall_get good st src).
  - apply bind_Ok in H. destruct H as (A & HA & H). cbn in H. apply bind_Ok in H. destruct H as (s1 & H1 & H).
    assert (G1 : Forall good s1) by (apply (Forall_set good st src (CSR 0 0 [] [] []) s1 G); [now right|exact H1]).
    apply (Forall_set good s1 dst A st' G1); auto. now apply (Forall_get good st src).
  - apply bind_Ok in H. destruct H as (A & HA & H). apply bind_Ok in H. destruct H as (B & HB & H). cbn in H.
    apply bind_Ok in H. destruct H as (s1 & H1 & H).
    apply (Forall_set good s1 j A st'); [apply (Forall_set good st i B s1 G)| |]; auto;
      [now apply (Forall_get good st j)|now apply (Forall_get good st i)].
  - apply bind_Ok in H. destruct H as (A & HA & H). cbn in H. apply bind_Ok in H. destruct H as (s1 & H1 & H). injection H as <-.
    apply Forall_app. split; [|constructor; auto; now apply (Forall_get good st src)].
    apply (Forall_set good st src (CSR 0 0 [] [] []) s1 G); [now right|exact H1].
  - apply bind_Ok in H. destruct H as (A & HA & H). apply bind_Ok in H. destruct H as (B & HB & H).
    apply (Forall_set good st dst B st' G); auto. apply (good_inplace srt A o); auto. now apply (Forall_get good st dst).
  - apply bind_Ok in H. destruct H as (A & HA & H). apply bind_Ok in H. destruct H as (B & HB & H).
    apply (Forall_set good st dst B st' G); auto. left. apply (good_transpose A); auto. now apply (Forall_get good st src).
  - apply bind_Ok in H. destruct H as (A & HA & H). apply bind_Ok in H. destruct H as (B & HB & H).
    apply bind_Ok in H. destruct H as (C & HC & H). apply (Forall_set good st dst C st' G); auto.
    left. apply (good_product A B); auto; [now apply (Forall_get good st a)|now apply (Forall_get good st b)].
  - apply bind_Ok in H. destruct H as (A & HA & H). apply bind_Ok in H. destruct H as ([B m] & HB & H).
    apply (Forall_set good st dst B st' G); auto. left. now apply sub_valid in HB.
Qed.

Lemma run_good srt (ops : list (op S)) (st st' : list (csr S)) :
  sorts srt -> Forall op_args_ok ops -> Forall good st -> run srt ops st = Ok st' -> Forall good st'.
Proof.
  intros HS Ha G. unfold run. apply foldM_inv; [exact G|]. intros o s1 s2 Ho G1. rewrite Forall_forall in Ha.
  apply good_step; auto.
Qed.

(** without moves no moved-from object appears *)
Lemma valid_inplace srt A o B : sorts srt -> csr_valid A -> run_inplace srt A o = Ok B -> csr_valid B.
Proof.
  intros HS V H. destruct (good_inplace srt A o B HS (or_introl V) H) as [|E]; [assumption|]. exfalso.
  (* a moved-from result has no row pointers, but the pointers of a valid matrix are kept or rebuilt *)
  assert (Hp : zlen (c_ptr B) = zlen (c_ptr A) \/ zlen (c_ptr B) >= 1).
  { destruct o; cbn in H.
    - destruct (sp_sort_spec srt HS A V) as (B' & E' & VB & _). rewrite H in E'. injection E' as <-.
      right. rewrite (cv_ptr_len VB). pose proof (cv_rows VB). lia.
    - injection H as <-. left. reflexivity.
    - unfold sp_div in H. apply bind_Ok in H. destruct H as (_ & _ & H). injection H as <-. left. reflexivity.
    - unfold sp_fill in H. apply bind_Ok in H. destruct H as (_ & _ & H). injection H as <-. left. reflexivity.
    - unfold sp_scale_rows in H. do 2 (apply bind_Ok in H; destruct H as (? & _ & H)). injection H as <-. left. reflexivity.
    - unfold sp_scale_cols, sp_upd_data in H. do 2 (apply bind_Ok in H; destruct H as (? & _ & H)). injection H as <-. left. reflexivity.
    - unfold sp_inv_scale_rows in H. do 2 (apply bind_Ok in H; destruct H as (? & _ & H)). injection H as <-. left. reflexivity.
    - unfold sp_inv_scale_cols, sp_upd_data in H. do 2 (apply bind_Ok in H; destruct H as (? & _ & H)). injection H as <-. left. reflexivity.
    - unfold sp_add_diag, sp_upd_data in H. do 2 (apply bind_Ok in H; destruct H as (? & _ & H)). injection H as <-. left. reflexivity.
    - unfold sp_add_diag_val, sp_upd_data in H. do 2 (apply bind_Ok in H; destruct H as (? & _ & H)). injection H as <-. left. reflexivity.
    - unfold sp_permute_cols in H. do 2 (apply bind_Ok in H; destruct H as (? & _ & H)). injection H as <-. left. reflexivity.
    - unfold sp_elim_row_col, sp_upd_data in H. do 4 (apply bind_Ok in H; destruct H as (? & _ & H)). injection H as <-. left. reflexivity.
    - unfold sp_elim_row_col_marker, sp_upd_data in H. do 3 (apply bind_Ok in H; destruct H as (? & _ & H)). injection H as <-. left. reflexivity.
    - unfold sp_elim_row in H. do 5 (apply bind_Ok in H; destruct H as (? & _ & H)). injection H as <-. left. reflexivity.
    - unfold sp_elim_col, sp_upd_data in H. do 3 (apply bind_Ok in H; destruct H as (? & _ & H)). injection H as <-. left. reflexivity.
    - unfold sp_elim_col_marker, sp_upd_data in H. do 2 (apply bind_Ok in H; destruct H as (? & _ & H)). injection H as <-. left. reflexivity.
    - apply bind_Ok in H. destruct H as ([B' b'] & H & EB). injection EB as <-. cbn.
      unfold sp_elim_col_bc in H. apply bind_Ok in H. destruct H as (_ & _ & H). apply bind_Ok in H.
      destruct H as ([d b''] & Hd & H). injection H as <- <-. left. reflexivity.
    - destruct (sp_elim_zeros_spec A tol V) as (B' & E' & VB & _). rewrite H in E'. injection E' as <-.
      right. rewrite (cv_ptr_len VB). pose proof (cv_rows VB). lia. }
  rewrite E in Hp. cbn in Hp. rewrite (cv_ptr_len V) in Hp. rewrite zlen_nil in Hp. pose proof (cv_rows V). lia.
Qed.

Lemma run_valid srt (ops : list (op S)) (st st' : list (csr S)) :
  sorts srt -> Forall op_args_ok ops -> Forall no_move ops -> Forall csr_valid st ->
  run srt ops st = Ok st' -> Forall csr_valid st'.
Proof.
  intros HS Ha Hn G. unfold run. apply foldM_inv; [exact G|]. intros o s1 s2 Ho G1 H.
  rewrite Forall_forall in Ha, Hn. specialize (Ha o Ho). specialize (Hn o Ho).
  assert (App : forall A, csr_valid A -> Forall csr_valid (s1 ++ [A])) by (intros A HA; apply Forall_app; auto).
  destruct o; cbn in H, Hn; try tauto.
  - injection H as <-. apply App, good_empty.
  - apply bind_Ok in H. destruct H as (A & HA & H). injection H as <-. apply App. cbn in Ha. now apply (sp_zero_valid rows cols).
  - injection H as <-. apply App, sp_diag_valid.
  - apply bind_Ok in H. destruct H as (A & HA & H). injection H as <-. apply App. apply sp_make_inv in HA.
    destruct HA as (-> & _). exact Ha.
  - apply bind_Ok in H. destruct H as (A & HA & H). apply (Forall_set csr_valid s1 dst A s2 G1); auto. now apply (Forall_get csr_valid s1 src).
  - apply bind_Ok in H. destruct H as (A & HA & H). apply bind_Ok in H. destruct H as (B & HB & H). cbn in H.
    apply bind_Ok in H. destruct H as (s3 & H1 & H).
    apply (Forall_set csr_valid s3 j A s2); [apply (Forall_set csr_valid s1 i B s3 G1)| |]; auto;
      [now apply (Forall_get csr_valid s1 j)|now apply (Forall_get csr_valid s1 i)].
  - apply bind_Ok in H. destruct H as (A & HA & H). apply bind_Ok in H. destruct H as (B & HB & H).
    apply (Forall_set csr_valid s1 dst B s2 G1); auto. apply (valid_inplace srt A o); auto. now apply (Forall_get csr_valid s1 dst).
  - apply bind_Ok in H. destruct H as (A & HA & H). apply bind_Ok in H. destruct H as (B & HB & H).
    apply (Forall_set csr_valid s1 dst B s2 G1); auto. apply (good_transpose A); auto. left. now apply (Forall_get csr_valid s1 src).
  - apply bind_Ok in H. destruct H as (A & HA & H). apply bind_Ok in H. destruct H as (B & HB & H).
    apply bind_Ok in H. destruct H as (C & HC & H). apply (Forall_set csr_valid s1 dst C s2 G1); auto.
    apply (good_product A B); auto; left; [now apply (Forall_get csr_valid s1 a)|now apply (Forall_get csr_valid s1 b)].
  - apply bind_Ok in H. destruct H as (A & HA & H). apply bind_Ok in H. destruct H as ([B m] & HB & H).
    apply (Forall_set csr_valid s1 dst B s2 G1); auto. now apply sub_valid in HB.
Qed.

(** ** The CSR constructor *)

Lemma sp_make_iff ip ix d r c A : sp_make ip ix d r c = Ok A <->
  A = CSR r c ip ix d /\ 0 <= r /\ 0 <= c /\ zlen ip = r + 1 /\ zlen ix = zlen d /\ zn 0 ip 0 = 0 /\
  forall k, 0 <= k < zlen ix -> 0 <= zn 0 ix k < c.
Proof.
  split.
  - intros H. apply sp_make_inv in H. tauto.
  - intros (-> & H1 & H2 & H3 & H4 & H5 & H6). now apply sp_make_accepts.
Qed.

Lemma sp_make_valid_iff ip ix d r c A :
  sp_make ip ix d r c = Ok A -> (forall i, 0 <= i < r -> zn 0 ip i <= zn 0 ip (i + 1)) -> zn 0 ip r = zlen d ->
  csr_valid A.
Proof.
  intros H Hm Hb. apply sp_make_inv in H. destruct H as (-> & H1 & H2 & H3 & H4 & H5 & H6). constructor; auto.
Qed.

End History.

(** ** Sums of a matrix *)

Section Sums.
Context {S : scalar}.
Notation T := (car S).
Implicit Types (A B : csr S).

Lemma entries_values A : csr_valid A -> map evalue (entries A) = c_val A.
Proof.
  intros V. rewrite entries_positions, map_map. transitivity (map (val A) (map snd (positions A))).
  - rewrite map_map. reflexivity.
  - rewrite positions_snd by exact V. apply map_zn_zrange.
Qed.

Lemma sp_max_norm_exact A : csr_valid A ->
  sp_max_norm A = fold_left (fun s e => sadd s (sabs (evalue e))) (entries A) s0.
Proof.
  intros V. unfold sp_max_norm. rewrite <- (entries_values A V), fold_left_map. reflexivity.
Qed.

Lemma mat_of_total (R : ring_laws S) rows cols (l : list (entry S)) : in_shape rows cols l ->
  sum_list (map evalue l) = sum_range 0 rows (fun i => sum_range 0 cols (fun j => mat_of l i j)).
Proof.
  induction l as [|e l IH]; intros H.
  - symmetry. apply (sum_range_0 R). intros i _. apply (sum_range_0 R). intros j _. reflexivity.
  - apply Forall_cons_iff in H. destruct H as ((H1 & H2) & H). cbn [map]. rewrite sum_cons, (IH H).
    rewrite (sum_range_ext 0 rows (fun i => sum_range 0 cols (fun j => mat_of (e :: l) i j))
      (fun i => sadd (if i =? erow e then evalue e else s0) (sum_range 0 cols (fun j => mat_of l i j)))).
    + rewrite (sum_range_add R). f_equal. symmetry. apply (sum_range_delta R 0 rows (erow e) (fun _ => evalue e) H1).
    + intros i _. rewrite (sum_range_ext 0 cols (fun j => mat_of (e :: l) i j)
        (fun j => sadd (if j =? ecol e then (if i =? erow e then evalue e else s0) else s0) (mat_of l i j))).
      * rewrite (sum_range_add R). f_equal. apply (sum_range_delta R 0 cols (ecol e) (fun _ => if i =? erow e then evalue e else s0) H2).
      * intros j _. rewrite (mat_of_cons R). unfold at_pos. rewrite (Z.eqb_sym i), (Z.eqb_sym j).
        destruct (erow e =? i), (ecol e =? j); reflexivity.
Qed.

Lemma sp_sum_spec (R : ring_laws S) A : csr_valid A ->
  sp_sum A = sum_range 0 (c_rows A) (fun i => sum_range 0 (c_cols A) (fun j => csr_mat A i j)).
Proof.
  intros V. unfold sp_sum. rewrite (fold_left_sum R), (sadd_0_l R), <- (entries_values A V).
  apply (mat_of_total R). now apply entries_in_shape.
Qed.

(** MaxNorm is at least the magnitude of every entry. *)
Lemma sle_refl (O : order_laws S) (a : T) : sle a a.
Proof. apply (slt_irrefl _ O). Qed.

Lemma sle_trans (O : order_laws S) (a b c : T) : sle a b -> sle b c -> sle a c.
Proof.
  unfold sle. intros H1 H2. destruct (slt c a) eqn:E; [|reflexivity]. exfalso.
  destruct (slt b c) eqn:E2.
  - rewrite (slt_trans _ O b c a E2 E) in H1. discriminate.
  - rewrite <- (slt_total _ O b c E2 H2) in E. congruence.
Qed.

Lemma sp_max_norm_bound (R : ring_laws S) (O : order_laws S) (AL : abs_laws S) (L : sum_order_laws S) A i j :
  csr_valid A -> sle (sabs (csr_mat A i j)) (sp_max_norm A).
Proof.
  intros V. rewrite sp_max_norm_exact by exact V. rewrite (fold_left_sum_map R), (sadd_0_l R). unfold csr_mat.
  induction (entries A) as [|e l IH].
  - cbn. unfold mat_of. cbn. rewrite (proj2 (sabs_zero _ AL s0) eq_refl). now apply sle_refl.
  - cbn [map]. rewrite sum_cons, (mat_of_cons R). eapply (sle_trans O); [apply (sabs_add _ L)|].
    apply (sle_add _ L); [|exact IH]. destruct (at_pos i j e); [now apply sle_refl|].
    rewrite (proj2 (sabs_zero _ AL s0) eq_refl). apply (sabs_nonneg _ AL).
Qed.

End Sums.
