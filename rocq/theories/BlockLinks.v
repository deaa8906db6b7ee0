(** The statements of PropBlock.v about everything a program can build. *)

From Coq Require Import ZArith List Bool Lia.
From Verif Require Import Base Scalar Spec Dense Sparse SumFacts LoopFacts CsrFacts Rows SparseProofs Vec VecSpec Block BlockSpec BlockFacts BlockProofs BlockMore BlockOp BlockVec.
Import ListNotations.
Open Scope Z_scope.

Section Links.
Context {S : scalar}.
Notation T := (car S).

Lemma built_ok ro co l (M : bmat S) : offsets_ok ro -> offsets_ok co -> bm_built ro co l M -> bm_ok M /\ bm_rows M = total ro /\ bm_cols M = total co /\ bm_ro M = ro /\ bm_co M = co /\
  (forall i j, 0 <= i < nblocks ro -> 0 <= j < nblocks co -> bm_block M i j = last_set l i j sp_empty).
Proof.
  intros Hro Hco HB. destruct (bm_built_ok ro co l M Hro Hco HB) as (H & E1 & E2 & E3).
  refine (conj H (conj _ (conj _ (conj E1 (conj E2 E3))))).
  - rewrite (bk_rows M H), E1. reflexivity.
  - rewrite (bk_cols M H), E2. reflexivity.
Qed.

Lemma built_blocks ro co l (M : bmat S) i j : offsets_ok ro -> offsets_ok co -> bm_built ro co l M ->
  0 <= i < nblocks ro -> 0 <= j < nblocks co -> bm_get_block M i j = Ok (last_set l i j sp_empty).
Proof.
  intros Hro Hco HB Hi Hj. destruct (built_ok ro co l M Hro Hco HB) as (H & _ & _ & E1 & E2 & E3).
  rewrite bm_get_block_ok by (rewrite ?E1, ?E2; auto). rewrite E3 by auto. reflexivity.
Qed.

Lemma built_mult (R : ring_laws S) ro co l (M : bmat S) x out : offsets_ok ro -> offsets_ok co -> bm_built ro co l M ->
  zlen x = total co -> zlen out = total ro ->
  exists y, bm_mult M x out = Ok y /\ zlen y = total ro /\
    forall i k, 0 <= i < nblocks ro -> 0 <= k < bsize ro i ->
      vec_of y (ofs ro i + k) = sum_range 0 (nblocks co) (fun j =>
        mat_vec (csr_mat (last_set l i j sp_empty)) (bsize co j) (vpart co (vec_of x) j) k).
Proof.
  intros Hro Hco HB Hx Ho. destruct (built_ok ro co l M Hro Hco HB) as (H & E4 & E5 & E1 & E2 & E3).
  destruct (bm_mult_spec R M x out H) as (y & E & Hl & _ & Hy); try lia. exists y. split; [exact E|]. split; [lia|].
  intros i k Hi Hk. rewrite E1, E2 in Hy. rewrite Hy by auto. apply sum_range_ext. intros j Hj. rewrite E3 by auto. reflexivity.
Qed.

Lemma built_multAT (R : ring_laws S) ro co l (M : bmat S) x out : offsets_ok ro -> offsets_ok co -> bm_built ro co l M ->
  zlen x = total ro -> zlen out = total co ->
  exists y, bm_multAT M x out = Ok y /\ zlen y = total co /\
    forall j m, 0 <= j < nblocks co -> 0 <= m < bsize co j ->
      vec_of y (ofs co j + m) = sum_range 0 (nblocks ro) (fun i =>
        mat_vec (mat_T (csr_mat (last_set l i j sp_empty))) (bsize ro i) (vpart ro (vec_of x) i) m).
Proof.
  intros Hro Hco HB Hx Ho. destruct (built_ok ro co l M Hro Hco HB) as (H & E4 & E5 & E1 & E2 & E3).
  destruct (bm_multAT_spec R M x out H) as (y & E & Hl & _ & Hy); try lia. exists y. split; [exact E|]. split; [lia|].
  intros i k Hi Hk. rewrite E1, E2 in Hy. rewrite Hy by auto. apply sum_range_ext. intros j Hj. rewrite E3 by auto. reflexivity.
Qed.

Lemma built_combine ro co l (M : bmat S) : offsets_ok ro -> offsets_ok co -> bm_built ro co l M ->
  exists C, bm_combine M = Ok C /\ csr_valid C /\ c_rows C = total ro /\ c_cols C = total co /\
    (forall x out, bm_mult M x out = sp_mult C x out) /\ (forall x out, bm_multAT M x out = sp_multAT C x out) /\
    (forall i j k m v, 0 <= i < nblocks ro -> 0 <= j < nblocks co -> 0 <= k < bsize ro i -> 0 <= m < bsize co j ->
       (In (ofs ro i + k, ofs co j + m, v) (entries C) <-> In (k, m, v) (entries (last_set l i j sp_empty)))) /\
    (forall i k, 0 <= i < nblocks ro -> 0 <= k < bsize ro i ->
       row_entries C (ofs ro i + k)
       = flat_map (fun j => map (fun e => (ofs ro i + k, ofs co j + ecol e, evalue e)) (row_entries (last_set l i j sp_empty) k)) (zrange 0 (nblocks co))) /\
    (ring_laws S -> forall i j k m, 0 <= i < nblocks ro -> 0 <= j < nblocks co -> 0 <= k < bsize ro i -> 0 <= m < bsize co j ->
       csr_mat C (ofs ro i + k) (ofs co j + m) = csr_mat (last_set l i j sp_empty) k m).
Proof.
  intros Hro Hco HB. destruct (built_ok ro co l M Hro Hco HB) as (H & E4 & E5 & E1 & E2 & E3).
  pose proof (bm_combine_rows M H) as HC. eexists. split; [exact HC|].
  destruct (combined_shape M _ H HC) as (HV & HR & HCc).
  split; [exact HV|]. split; [congruence|]. split; [congruence|]. split; [intros; apply bm_mult_combined; auto|]. split; [intros; apply bm_multAT_combined; auto|].
  split; [|split].
  - intros i j k m v Hi Hj Hk Hm. rewrite <- E3 by auto. rewrite <- E1, <- E2 in *. apply combined_entries; auto.
  - intros i k Hi Hk. rewrite <- E1 in *. rewrite (combined_row M _ i k H HC Hi Hk). rewrite E2. apply flat_map_ext_in. intros j Hj. apply In_zrange in Hj. rewrite E3 by auto. reflexivity.
  - intros R i j k m Hi Hj Hk Hm. rewrite <- E3 by auto. rewrite <- E1, <- E2 in *. apply combined_mat_at; auto.
Qed.

(* ---------------------------------------------------------------- Transpose *)

(** Transpose copies the blocks as they are. *)
Lemma built_transpose ro co l (M : bmat S) : offsets_ok ro -> offsets_ok co -> bm_built ro co l M ->
  (forall i j, 0 <= i < nblocks ro -> 0 <= j < nblocks co ->
     c_rows (last_set l i j sp_empty) = bsize co j /\ c_cols (last_set l i j sp_empty) = bsize ro i) ->
  exists N, bm_transpose M = Ok N /\ bm_ro N = co /\ bm_co N = ro /\
    forall i j, 0 <= i < nblocks ro -> 0 <= j < nblocks co -> bm_get_block N j i = Ok (last_set l i j sp_empty).
Proof.
  intros Hro Hco HB HT. destruct (built_ok ro co l M Hro Hco HB) as (H & E4 & E5 & E1 & E2 & E3).
  destruct (bm_transpose_ok M H) as (N & E & HN & R1 & C1 & HN').
  { intros i j Hi Hj. rewrite E1, E2 in *. rewrite E3 by auto. apply HT; auto. }
  rewrite E1, E2 in *. exists N. split; [exact E|]. split; [exact R1|]. split; [exact C1|].
  intros i j Hi Hj. rewrite bm_get_block_ok by (rewrite ?R1, ?C1; auto). rewrite HN', E3 by auto. reflexivity.
Qed.

Lemma built_transpose_fails ro co l (M : bmat S) i j : offsets_ok ro -> offsets_ok co -> bm_built ro co l M ->
  0 <= i < nblocks ro -> 0 <= j < nblocks co ->
  ~ (c_rows (last_set l i j sp_empty) = bsize co j /\ c_cols (last_set l i j sp_empty) = bsize ro i) ->
  bm_transpose M = Fail FAssert.
Proof.
  intros Hro Hco HB Hi Hj HT. destruct (built_ok ro co l M Hro Hco HB) as (H & E4 & E5 & E1 & E2 & E3).
  apply (bm_transpose_fails M i j H); rewrite ?E1, ?E2, ?E3 by auto; auto.
Qed.

Lemma built_transpose_values (R : ring_laws S) ro co l (M N : bmat S) : offsets_ok ro -> offsets_ok co -> bm_built ro co l M ->
  (forall i j k m, 0 <= i < nblocks ro -> 0 <= j < nblocks co -> 0 <= k < bsize co j -> 0 <= m < bsize ro i ->
     csr_mat (last_set l i j sp_empty) k m = csr_mat (last_set l i j sp_empty) m k) ->
  bm_transpose M = Ok N ->
  bm_rows N = bm_cols M /\ bm_cols N = bm_rows M /\
  forall r c, 0 <= r < bm_cols M -> 0 <= c < bm_rows M -> bm_mat N r c = bm_mat M c r.
Proof.
  intros Hro Hco HB HS E. destruct (built_ok ro co l M Hro Hco HB) as (H & E4 & E5 & E1 & E2 & E3).
  assert (Hs : bm_rows N = bm_cols M /\ bm_cols N = bm_rows M).
  { assert (HT : transposable M).
    { intros a b Ha Hb.
      destruct (Z.eq_dec (c_rows (bm_block M a b)) (bsize (bm_co M) b)) as [Er|Er];
        [destruct (Z.eq_dec (c_cols (bm_block M a b)) (bsize (bm_ro M) a)) as [Ec|Ec]; [auto|]|];
        exfalso; rewrite (bm_transpose_fails M a b H Ha Hb) in E by tauto; discriminate. }
    destruct (bm_transpose_ok M H HT) as (N' & E' & HN & R1 & C1 & _). rewrite E in E'. injection E' as <-.
    rewrite (bk_rows N HN), (bk_cols N HN), R1, C1, (bk_rows M H), (bk_cols M H). auto. }
  split; [apply Hs|]. split; [apply Hs|]. intros r c Hr Hc. rewrite E5 in Hr. rewrite E4 in Hc.
  destruct (at_blocks co r Hco Hr) as (j & k & Hj & Hk & ->). destruct (at_blocks ro c Hro Hc) as (i & m & Hi & Hm & ->).
  pose proof (bm_transpose_values R M N i j k m H E) as HV. rewrite E1, E2 in HV. destruct HV as (_ & _ & ->); auto.
  rewrite E3 by auto. rewrite HS by auto. unfold bm_mat. rewrite E1, E2. rewrite (tile_at R) by auto. rewrite E3 by auto. reflexivity.
Qed.

Lemma built_adjoint (R : ring_laws S) ro co l (M : bmat S) x y out1 out2 u v : offsets_ok ro -> offsets_ok co -> bm_built ro co l M ->
  bm_mult M x out1 = Ok u -> bm_multAT M y out2 = Ok v ->
  inner (total ro) (vec_of u) (vec_of y) = inner (total co) (vec_of x) (vec_of v).
Proof.
  intros Hro Hco HB Hu Hv. destruct (built_ok ro co l M Hro Hco HB) as (H & E4 & E5 & _).
  rewrite <- E4, <- E5. apply (bm_adjoint R M x y out1 out2 u v); auto.
Qed.

(* ---------------------------------------------------------------- BlockOperator *)

Section BO.
Context {W : Type}.
Variable I : W -> Prop.
Variables ro co : list Z.
Hypothesis Hro : offsets_ok ro.
Hypothesis Hco : offsets_ok co.
Variable w0 : W.
Hypothesis HI0 : I w0.

Lemma reached_mult l (B : bop S W) w u F G x out : Forall (sane_call I) l -> bo_reached ro co w0 l (B, w, u) -> blocks_do I B F G ->
  zlen x = total co -> zlen out = total ro ->
  exists w' u' y, bo_mult B w u x out = Ok (w', u', y) /\ I w' /\ zlen y = total ro /\
    forall i k, 0 <= i < nblocks ro -> 0 <= k < bsize ro i -> vec_of y (ofs ro i + k) = bo_value B F x i k.
Proof.
  intros HS HR HD Hx Ho. destruct (bo_reached_ok I ro co w0 l B w u Hro Hco HI0 HS HR) as (H & Hu & HI & E1 & E2 & _ & _).
  destruct (bo_mult_exact I B F G w u x out H HD HI Hu) as (w' & u' & y & E & HI' & _ & Hl & Hy).
  - rewrite (ok_cols B H), E2. exact Hx.
  - rewrite (ok_rows B H), E1. exact Ho.
  - exists w', u', y. rewrite E1 in *. split; [exact E|]. split; [exact HI'|]. split; [rewrite Hl, (ok_rows B H), E1; reflexivity|exact Hy].
Qed.
Lemma reached_multAT l (B : bop S W) w u F G x out : Forall (sane_call I) l -> bo_reached ro co w0 l (B, w, u) -> blocks_do I B F G ->
  zlen x = total ro -> zlen out = total co ->
  exists w' u' y, bo_multAT B w u x out = Ok (w', u', y) /\ I w' /\ zlen y = total co /\
    forall j m, 0 <= j < nblocks co -> 0 <= m < bsize co j -> vec_of y (ofs co j + m) = bo_valueAT B G x j m.
Proof.
  intros HS HR HD Hx Ho. destruct (bo_reached_ok I ro co w0 l B w u Hro Hco HI0 HS HR) as (H & Hu & HI & E1 & E2 & _ & _).
  destruct (bo_multAT_exact I B F G w u x out H HD HI Hu) as (w' & u' & y & E & HI' & _ & Hl & Hy).
  - rewrite (ok_rows B H), E1. exact Hx.
  - rewrite (ok_cols B H), E2. exact Ho.
  - exists w', u', y. rewrite E2 in *. split; [exact E|]. split; [exact HI'|]. split; [rewrite Hl, (ok_cols B H), E2; reflexivity|exact Hy].
Qed.

Lemma reached_same l1 l2 (B : bop S W) w1 u1 w2 u2 x out1 out2 : Forall (sane_call I) l1 -> Forall (sane_call I) l2 ->
  bo_reached ro co w0 l1 (B, w1, u1) -> bo_reached ro co w0 l2 (B, w2, u2) ->
  zlen x = total co -> zlen out1 = total ro -> zlen out2 = total ro ->
  exists w1' u1' w2' u2' y, bo_mult B w1 u1 x out1 = Ok (w1', u1', y) /\ bo_mult B w2 u2 x out2 = Ok (w2', u2', y).
Proof.
  intros HS1 HS2 HR1 HR2 Hx Ho1 Ho2.
  destruct (bo_reached_ok I ro co w0 l1 B w1 u1 Hro Hco HI0 HS1 HR1) as (H & Hu1 & HI1 & E1 & E2 & HA & _).
  destruct (bo_reached_ok I ro co w0 l2 B w2 u2 Hro Hco HI0 HS2 HR2) as (_ & Hu2 & HI2 & _).
  apply (bo_mult_same I); auto; rewrite ?(ok_rows B H), ?(ok_cols B H), ?E1, ?E2; auto.
Qed.
Lemma reached_sameAT l1 l2 (B : bop S W) w1 u1 w2 u2 x out1 out2 : Forall (sane_call I) l1 -> Forall (sane_call I) l2 ->
  bo_reached ro co w0 l1 (B, w1, u1) -> bo_reached ro co w0 l2 (B, w2, u2) ->
  zlen x = total ro -> zlen out1 = total co -> zlen out2 = total co ->
  exists w1' u1' w2' u2' y, bo_multAT B w1 u1 x out1 = Ok (w1', u1', y) /\ bo_multAT B w2 u2 x out2 = Ok (w2', u2', y).
Proof.
  intros HS1 HS2 HR1 HR2 Hx Ho1 Ho2.
  destruct (bo_reached_ok I ro co w0 l1 B w1 u1 Hro Hco HI0 HS1 HR1) as (H & Hu1 & HI1 & E1 & E2 & HA & _).
  destruct (bo_reached_ok I ro co w0 l2 B w2 u2 Hro Hco HI0 HS2 HR2) as (_ & Hu2 & HI2 & _).
  apply (bo_multAT_same I); auto; rewrite ?(ok_rows B H), ?(ok_cols B H), ?E1, ?E2; auto.
Qed.

(** Linear blocks: the tiled matrix. *)
Lemma reached_matrix (R : ring_laws S) l (B : bop S W) w u (A : Z -> Z -> mat S) : Forall (sane_call I) l -> bo_reached ro co w0 l (B, w, u) ->
  (forall i j o, 0 <= i < nblocks ro -> 0 <= j < nblocks co -> last_op l i j None = Some o -> op_matrix I o (A i j)) ->
  I w /\ buf_ok B u /\
  op_matrix (fun s : W * bbuf S => I (fst s) /\ buf_ok B (snd s)) (bo_op B) (tile ro co (fun i j => opt_mat (last_op l i j None) (A i j))).
Proof.
  intros HS HR HA. destruct (bo_reached_ok I ro co w0 l B w u Hro Hco HI0 HS HR) as (H & Hu & HI & E1 & E2 & _ & EB).
  split; [exact HI|]. split; [exact Hu|].
  assert (HA' : forall i j o, 0 <= i < nblocks (bo_ro B) -> 0 <= j < nblocks (bo_co B) -> bo_block B i j = Some o -> op_matrix I o (A i j)).
  { rewrite E1, E2. intros i j o Hi Hj Eb. rewrite EB in Eb by auto. apply (HA i j o); auto. }
  pose proof (bo_op_matrix R I B A H HA') as HM. rewrite E1, E2 in HM.
  assert (Ht : forall r c, tile ro co (fun i j => opt_mat (bo_block B i j) (A i j)) r c = tile ro co (fun i j => opt_mat (last_op l i j None) (A i j)) r c).
  { intros r c. unfold tile. apply sum_range_ext. intros i Hi. apply sum_range_ext. intros j Hj. rewrite EB by auto. reflexivity. }
  unfold op_matrix, op_does in *. destruct HM as (K1 & K2 & K3 & K4).
  split; [exact K1|]. split; [exact K2|]. split.
  - intros s x out Hs Hx Ho. destruct (K3 s x out Hs Hx Ho) as (_ & s' & E & Hs'). split; [apply zlen_map_zrange; exact K1|].
    exists s'. split; [|exact Hs']. rewrite E. do 2 f_equal. apply map_ext. intros r. apply mat_vec_ext; auto.
  - intros s x out Hs Hx Ho. destruct (K4 s x out Hs Hx Ho) as (_ & s' & E & Hs'). split; [apply zlen_map_zrange; exact K2|].
    exists s'. split; [|exact Hs']. rewrite E. do 2 f_equal. apply map_ext. intros r. apply mat_vec_ext; auto. intros c Hc. unfold mat_T. apply Ht.
Qed.

End BO.

(* ---------------------------------------------------------------- Operator *)

Lemma inner_matrix (R : ring_laws S) {W} (I : W -> Prop) (o : op S W) (A : mat S) w x y : op_matrix I o A -> I w -> zlen x = o_cols o -> zlen y = o_rows o ->
  exists w', op_inner o w x y = Ok (w', inner (o_rows o) (vec_of y) (mat_vec A (o_cols o) (vec_of x))) /\ I w'.
Proof.
  intros H HI Hx Hy. destruct (op_inner_does I o _ _ w x y H HI Hx Hy) as (w' & E & HI'). exists w'. split; [|exact HI'].
  rewrite E. do 2 f_equal. rewrite (fold_left_range R). unfold inner. apply sum_range_ext. intros i Hi. f_equal. unfold vec_of at 1. rewrite zn_map_zrange by lia. reflexivity.
Qed.

Lemma overloads_agree {W} (I : W -> Prop) (o : op S W) f g w x out : op_does I o f g -> I w -> zlen x = o_cols o ->
  exists w1 w2, op_mult_vec o w x out = Ok (w1, f x) /\ op_mult_new o w x = Ok (w2, f x).
Proof.
  intros H HI Hx. destruct (op_vec_does I o f g w x out H HI Hx) as (_ & w1 & E1 & _).
  destruct (op_new_does I o f g w x H HI Hx) as (w2 & E2 & _). exists w1, w2. auto.
Qed.
Lemma overloadsAT_agree {W} (I : W -> Prop) (o : op S W) f g w x out : op_does I o f g -> I w -> zlen x = o_rows o ->
  exists w1 w2, op_multAT_vec o w x out = Ok (w1, g x) /\ op_multAT_new o w x = Ok (w2, g x).
Proof.
  intros H HI Hx. destruct (op_vec_doesAT I o f g w x out H HI Hx) as (_ & w1 & E1 & _).
  destruct (op_new_doesAT I o f g w x H HI Hx) as (w2 & E2 & _). exists w1, w2. auto.
Qed.

End Links.
