(** BlockOperator and the overloads of Operator. *)

From Coq Require Import ZArith List Bool Lia.
From Verif Require Import Base Scalar Spec Dense Sparse SumFacts LoopFacts CsrFacts Rows SparseProofs Vec VecSpec Block BlockSpec BlockFacts BlockProofs BlockMore.
Import ListNotations.
Open Scope Z_scope.

Section BlockOp.
Context {S : scalar}.
Notation T := (car S).

(* ---------------------------------------------------------------- lists *)

Lemma l_set_size_same (l : list T) n : zlen l = n -> l_set_size l n = Ok l.
Proof. intros <-. unfold l_set_size. rewrite Z.eqb_refl. reflexivity. Qed.

Lemma l_set_size_ok (l : list T) n : 0 <= n -> exists l', l_set_size l n = Ok l' /\ zlen l' = n.
Proof.
  intros Hn. unfold l_set_size. destruct (Z.eqb_spec n (zlen l)) as [->|]; [eauto|].
  rewrite (proj2 (Z.leb_le 0 n) Hn). cbn [assert_ bind]. eexists. split; [reflexivity|].
  rewrite zlen_app, zlen_repeat. unfold zlen in *. rewrite firstn_length. lia.
Qed.

Lemma l_block_ok (l : list T) offs i : offsets_ok offs -> 0 <= i < nblocks offs ->
  l_block l offs i = Ok (ofs offs i, bsize offs i).
Proof.
  intros H Hi. unfold l_block. fold (nblocks offs). rewrite (proj2 (Z.ltb_lt i _)) by lia. cbn [assert_ bind].
  rewrite !get_ofs by (unfold nblocks in Hi; lia). cbn [bind].
  pose proof (bsize_nonneg offs i H Hi) as Hb. unfold bsize in Hb. rewrite (proj2 (Z.leb_le 0 _) Hb). reflexivity.
Qed.

Lemma l_read_ok (l : list T) lo n : 0 <= lo -> 0 <= n -> lo + n <= zlen l ->
  l_read l (lo, n) = Ok (map (fun k => zn s0 l (lo + k)) (zrange 0 n)).
Proof.
  intros Hlo Hn Hl. unfold l_read. cbn [fst snd]. 
  assert (Hm : returns (for_ 0 n [] (fun k r => a <- get l (lo + k) ;; Ok (r ++ [a]))) (fun r => r = map (fun k => zn s0 l (lo + k)) (zrange 0 n))).
  2: { apply returns_exists in Hm. destruct Hm as (r & E & ->). exact E. }
  apply (returns_for (fun k r => r = map (fun k => zn s0 l (lo + k)) (zrange 0 k))); auto.
  intros k r Hk ->. rewrite (get_ok s0) by lia. cbn [bind returns].
  rewrite (zrange_snoc 0 (k + 1)) by lia. rewrite map_app. replace (k + 1 - 1) with k by lia. reflexivity.
Qed.

Lemma l_read_part (x : list T) offs j : offsets_ok offs -> 0 <= j < nblocks offs -> zlen x = total offs ->
  l_read x (ofs offs j, bsize offs j) = Ok (lpart offs x j).
Proof.
  intros H Hj Hx. pose proof (ofs_nonneg offs j H ltac:(lia)). pose proof (ofs_nonneg offs (j + 1) H ltac:(lia)).
  pose proof (bsize_nonneg offs j H Hj). apply l_read_ok; try lia. unfold bsize. lia.
Qed.

Lemma zlen_lpart offs (x : list T) j : offsets_ok offs -> 0 <= j < nblocks offs -> zlen (lpart offs x j) = bsize offs j.
Proof. intros H Hj. unfold lpart. apply zlen_map_zrange. apply bsize_nonneg; auto. Qed.

Lemma l_add_ok (l tmp : list T) lo n : 0 <= lo -> zlen tmp = n -> lo + n <= zlen l ->
  exists l', l_add l (lo, n) tmp = Ok l' /\ zlen l' = zlen l /\
    forall r, 0 <= r < zlen l -> zn s0 l' r = if (lo <=? r) && (r <? lo + n) then sadd (zn s0 l r) (zn s0 tmp (r - lo)) else zn s0 l r.
Proof.
  intros Hlo Hn Hl. unfold l_add. cbn [fst snd]. rewrite Hn, Z.eqb_refl. cbn [assert_ bind].
  pose proof (zlen_nonneg tmp) as Hp.
  pose (I := fun (k : Z) (l' : list T) => zlen l' = zlen l /\
    forall r, 0 <= r < zlen l -> zn s0 l' r = if (lo <=? r) && (r <? lo + k) then sadd (zn s0 l r) (zn s0 tmp (r - lo)) else zn s0 l r).
  match goal with |- exists l', ?m = _ /\ _ => assert (Hm : returns m (I n)) end.
  { apply (returns_for I); try lia; auto.
    - split; [reflexivity|]. intros r Hr. destruct (Z.leb_spec lo r), (Z.ltb_spec r (lo + 0)); cbn [andb]; try reflexivity; lia.
    - intros k l1 Hk (Hl1 & Hz). rewrite (get_ok s0) by lia. cbn [bind]. rewrite (get_ok s0) by lia. cbn [bind].
      rewrite set_ok by lia. cbn [returns]. split; [rewrite zlen_upd; exact Hl1|].
      intros r Hr. rewrite zn_upd by lia. rewrite (Hz (lo + k)) by lia.
      destruct (Z.leb_spec lo (lo + k)); [|lia]. destruct (Z.ltb_spec (lo + k) (lo + k)); [lia|]. cbn [andb].
      destruct (Z.eqb_spec r (lo + k)) as [->|].
      + destruct (Z.leb_spec lo (lo + k)); [|lia]. destruct (Z.ltb_spec (lo + k) (lo + (k + 1))); [|lia]. cbn [andb].
        do 2 f_equal. lia.
      + rewrite Hz by lia. destruct (Z.leb_spec lo r), (Z.ltb_spec r (lo + k)), (Z.ltb_spec r (lo + (k + 1))); cbn [andb]; try reflexivity; lia. }
  apply returns_exists in Hm. destruct Hm as (l' & E & Hl' & Hz). exists l'. auto.
Qed.

Lemma zn_zero_map (l : list T) r : 0 <= r < zlen l -> zn s0 (map (fun _ => s0) l) r = (s0 : T).
Proof. intros H. apply zn_map_const. exact H. Qed.

(* ---------------------------------------------------------------- the loop *)

Section Loop.
Context {W : Type}.
Variable I : W -> Prop.
Variables ro co : list Z.
Hypothesis Hro : offsets_ok ro.
Hypothesis Hco : offsets_ok co.
Variable opat : Z -> Z -> res (option (op S W)).
Variable block : Z -> Z -> option (op S W).
Variable app : op S W -> W -> list T -> list T -> res (W * list T).
Variable F : Z -> Z -> list T -> list T.
Hypothesis Hat : forall i j, 0 <= i < nblocks ro -> 0 <= j < nblocks co -> opat i j = Ok (block i j).
Hypothesis Happ : forall i j o w x out, 0 <= i < nblocks ro -> 0 <= j < nblocks co -> block i j = Some o ->
  I w -> zlen x = bsize co j -> zlen out = bsize ro i ->
  zlen (F i j x) = bsize ro i /\ exists w', app o w x out = Ok (w', F i j x) /\ I w'.

(** Sum of the blocks (i, 0), ..., (i, j-1) in this order, at position k of block row i. *)
Definition acc_to (x : list T) (i j k : Z) : T :=
  fold_left (fun a j' => match block i j' with None => a | Some _ => sadd a (zn s0 (F i j' (lpart co x j')) k) end) (zrange 0 j) s0.

Lemma acc_to_succ x i j k : 0 <= j ->
  acc_to x i (j + 1) k = match block i j with None => acc_to x i j k | Some _ => sadd (acc_to x i j k) (zn s0 (F i j (lpart co x j)) k) end.
Proof.
  intros Hj. unfold acc_to. rewrite (zrange_snoc 0 (j + 1)) by lia. replace (j + 1 - 1) with j by lia.
  rewrite fold_left_app. reflexivity.
Qed.

Lemma block_loop w (y0 tmp x : list T) : I w -> zlen y0 = total ro -> zlen x = total co ->
  exists w' y tmp',
  for_ 0 (zlen ro - 1) (w, map (fun _ => s0) y0, tmp) (fun i st =>
    let '(w, y, tmp) := st in
    row_y <- l_block y ro i ;;
    tmp <- l_set_size tmp (snd row_y) ;;
    for_ 0 (zlen co - 1) (w, y, tmp) (fun j st =>
      let '(w, y, tmp) := st in
      o <- opat i j ;;
      match o with
      | None => Ok (w, y, tmp)
      | Some o =>
          b <- l_block x co j ;; xj <- l_read x b ;;
          '(w, tmp) <- app o w xj tmp ;;
          y <- l_add y row_y tmp ;;
          Ok (w, y, tmp)
      end)) = Ok (w', y, tmp') /\ I w' /\ zlen y = total ro /\
  forall i k, 0 <= i < nblocks ro -> 0 <= k < bsize ro i -> zn s0 y (ofs ro i + k) = acc_to x i (nblocks co) k.
Proof.
  intros HI Hy0 Hx. fold (nblocks ro) (nblocks co).
  pose proof (nblocks_nonneg ro Hro) as Hn1. pose proof (nblocks_nonneg co Hco) as Hn2.
  pose (J := fun (n m : Z) (st : W * list T * list T) => let '(w, y, tmp) := st in
    I w /\ zlen y = total ro /\ (n < nblocks ro -> 0 < m -> zlen tmp = bsize ro n) /\
    forall i k, 0 <= i < nblocks ro -> 0 <= k < bsize ro i ->
      zn s0 y (ofs ro i + k) = if i <? n then acc_to x i (nblocks co) k else if i =? n then acc_to x i m k else s0).
  match goal with |- exists w' y tmp', ?m = _ /\ _ => assert (Hm : returns m (J (nblocks ro) 0)) end.
  { apply (returns_for (fun n => J n 0)); auto.
    - split; [exact HI|]. rewrite zlen_map. split; [exact Hy0|]. split; [lia|]. intros i k Hi Hk.
      rewrite zn_zero_map by (rewrite Hy0; apply ofs_in; auto).
      destruct (Z.ltb_spec i 0); [lia|]. destruct (Z.eqb_spec i 0) as [->|]; reflexivity.
    - intros i [[w1 y1] tmp1] Hi (HI1 & Hl1 & _ & Hz1).
      rewrite l_block_ok by auto. cbn [bind snd].
      destruct (l_set_size_ok tmp1 (bsize ro i) (bsize_nonneg ro i Hro Hi)) as (tmp2 & E2 & Hl2). rewrite E2. cbn [bind].
      apply (returns_for (fun m st => J i m st /\ zlen (snd st) = bsize ro i)); auto.
      + split; [|exact Hl2]. split; [exact HI1|]. split; [exact Hl1|]. split; [lia|exact Hz1].
      + intros j [[w3 y3] tmp3] Hj ((HI3 & Hl3 & _ & Hz3) & Ht3). cbn [snd] in Ht3.
        rewrite Hat by auto. cbn [bind]. destruct (block i j) as [o|] eqn:Eb.
        * rewrite l_block_ok by auto. cbn [bind]. rewrite l_read_part by auto. cbn [bind].
          destruct (Happ i j o w3 (lpart co x j) tmp3 Hi Hj Eb HI3) as (HF & w4 & E4 & HI4);
            [apply zlen_lpart; auto|exact Ht3|]. rewrite E4. cbn [bind].
          pose proof (ofs_nonneg ro i Hro ltac:(lia)). pose proof (ofs_nonneg ro (i + 1) Hro ltac:(lia)).
          destruct (l_add_ok y3 (F i j (lpart co x j)) (ofs ro i) (bsize ro i)) as (y5 & E5 & Hl5 & Hz5);
            [lia|exact HF|unfold bsize; lia|]. rewrite E5. cbn [bind returns].
          split; [|exact HF]. split; [exact HI4|]. split; [lia|]. split; [intros; exact HF|].
          intros a k Ha Hk. pose proof (ofs_in ro a k Hro Ha Hk) as Hin. rewrite Hz5 by lia. rewrite Hz3 by auto.
          assert (Eblk : ((ofs ro i <=? ofs ro a + k) && (ofs ro a + k <? ofs ro i + bsize ro i)) = (a =? i)).
          { replace (ofs ro i + bsize ro i) with (ofs ro (i + 1)) by (unfold bsize; lia).
            fold (in_block ro i (ofs ro a + k)). rewrite in_block_iff by auto. rewrite blk_at by auto. apply Z.eqb_sym. }
          rewrite Eblk. destruct (Z.eqb_spec a i) as [->|].
          -- destruct (Z.ltb_spec i i); [lia|]. rewrite acc_to_succ, Eb by lia. do 2 f_equal. lia.
          -- reflexivity.
        * cbn [returns]. split; [|exact Ht3]. split; [exact HI3|]. split; [exact Hl3|]. split; [intros; exact Ht3|].
          intros a k Ha Hk. rewrite Hz3 by auto. destruct (Z.ltb_spec a i); [reflexivity|].
          destruct (Z.eqb_spec a i) as [->|]; [|reflexivity]. rewrite acc_to_succ, Eb by lia. reflexivity.
      + intros [[w3 y3] tmp3] ((HI3 & Hl3 & _ & Hz3) & Ht3). split; [exact HI3|]. split; [exact Hl3|]. split; [lia|].
        intros a k Ha Hk. rewrite Hz3 by auto.
        destruct (Z.ltb_spec a i), (Z.ltb_spec a (i + 1)), (Z.eqb_spec a i), (Z.eqb_spec a (i + 1)); try reflexivity; lia. }
  apply returns_exists in Hm. destruct Hm as ([[w' y] tmp'] & E & HI' & Hl & _ & Hz).
  exists w', y, tmp'. split; [exact E|]. split; [exact HI'|]. split; [exact Hl|].
  intros i k Hi Hk. rewrite Hz by auto. destruct (Z.ltb_spec i (nblocks ro)); [reflexivity|lia].
Qed.

End Loop.

(* ---------------------------------------------------------------- Operator overloads *)

Lemma op_vec_does {W} (I : W -> Prop) (o : op S W) f g w x out :
  op_does I o f g -> I w -> zlen x = o_cols o ->
  zlen (f x) = o_rows o /\ exists w', op_mult_vec o w x out = Ok (w', f x) /\ I w'.
Proof.
  intros (Hr & Hc & Hm & _) HI Hx. destruct (l_set_size_ok out (o_rows o) Hr) as (out' & E & Hl).
  unfold op_mult_vec. rewrite E. cbn [bind]. apply Hm; auto.
Qed.
Lemma op_vec_doesAT {W} (I : W -> Prop) (o : op S W) f g w x out :
  op_does I o f g -> I w -> zlen x = o_rows o ->
  zlen (g x) = o_cols o /\ exists w', op_multAT_vec o w x out = Ok (w', g x) /\ I w'.
Proof.
  intros (Hr & Hc & _ & Hm) HI Hx. destruct (l_set_size_ok out (o_cols o) Hc) as (out' & E & Hl).
  unfold op_multAT_vec. rewrite E. cbn [bind]. apply Hm; auto.
Qed.
Lemma op_new_does {W} (I : W -> Prop) (o : op S W) f g w x :
  op_does I o f g -> I w -> zlen x = o_cols o ->
  exists w', op_mult_new o w x = Ok (w', f x) /\ I w'.
Proof.
  intros H HI Hx. unfold op_mult_new. rewrite vec_ok by apply H. cbn [bind].
  destruct (op_vec_does I o f g w x (repeat s0 (Z.to_nat (o_rows o))) H HI Hx) as (_ & Hx'). exact Hx'.
Qed.
Lemma op_new_doesAT {W} (I : W -> Prop) (o : op S W) f g w x :
  op_does I o f g -> I w -> zlen x = o_rows o ->
  exists w', op_multAT_new o w x = Ok (w', g x) /\ I w'.
Proof.
  intros H HI Hx. unfold op_multAT_new. rewrite vec_ok by apply H. cbn [bind].
  destruct (op_vec_doesAT I o f g w x (repeat s0 (Z.to_nat (o_cols o))) H HI Hx) as (_ & Hx'). exact Hx'.
Qed.

Lemma l_inner_ok (x y : list T) : zlen x = zlen y ->
  l_inner x y = Ok (fold_left (fun s i => sadd s (smul (vec_of x i) (vec_of y i))) (zrange 0 (zlen x)) s0).
Proof.
  intros Hl. unfold l_inner. rewrite Hl, Z.eqb_refl. cbn [assert_ bind].
  apply foldM_pure_in. intros s i Hi. apply In_zrange in Hi. rewrite (get_ok s0) by lia. cbn [bind].
  rewrite (get_ok s0) by lia. reflexivity.
Qed.

Lemma op_inner_does {W} (I : W -> Prop) (o : op S W) f g w x y :
  op_does I o f g -> I w -> zlen x = o_cols o -> zlen y = o_rows o ->
  exists w', op_inner o w x y = Ok (w', fold_left (fun s i => sadd s (smul (vec_of y i) (vec_of (f x) i))) (zrange 0 (o_rows o)) s0) /\ I w'.
Proof.
  intros H HI Hx Hy. destruct (op_new_does I o f g w x H HI Hx) as (w' & E & HI').
  destruct (op_vec_does I o f g w x [] H HI Hx) as (Hl & _).
  exists w'. unfold op_inner. rewrite E. cbn [bind]. rewrite l_inner_ok by lia. cbn [bind]. rewrite Hy. auto.
Qed.

(* ---------------------------------------------------------------- BlockOperator *)

Section BO.
Context {W : Type}.
Implicit Type B : bop S W.

Lemma bo_at_ok B i j : bo_ok B -> 0 <= i < nblocks (bo_ro B) -> 0 <= j < nblocks (bo_co B) ->
  bo_at B i j = Ok (bo_block B i j).
Proof.
  intros H Hi Hj. unfold bo_at. rewrite (get_ok ([] : list (option (op S W)))) by (rewrite (ok_A B H); lia).
  cbn [bind]. apply get_ok. rewrite (ok_row B H) by lia. lia.
Qed.

Lemma bo_mult_exact I B F G w u x out : bo_ok B -> blocks_do I B F G -> I w -> buf_ok B u ->
  zlen x = bo_cols B -> zlen out = bo_rows B ->
  exists w' u' y, bo_mult B w u x out = Ok (w', u', y) /\ I w' /\ buf_ok B u' /\ zlen y = bo_rows B /\
    forall i k, 0 <= i < nblocks (bo_ro B) -> 0 <= k < bsize (bo_ro B) i -> vec_of y (ofs (bo_ro B) i + k) = bo_value B F x i k.
Proof.
  intros H HD HI (Hbx & Hby) Hx Ho. unfold bo_mult. rewrite Hx, Ho, !Z.eqb_refl. cbn [assert_ bind].
  destruct (block_loop I (bo_ro B) (bo_co B) (ok_ro B H) (ok_co B H) (bo_at B) (bo_block B) (fun o => op_mult_vec o) F) 
    with (w := w) (y0 := bb_y u) (tmp := bb_tmp u) (x := x) as (w' & y & tmp' & E & HI' & Hl & Hz).
  - intros; apply bo_at_ok; auto.
  - intros i j o w1 x1 out1 Hi Hj Eb HI1 Hx1 Ho1. destruct (ok_block B H i j o Hi Hj Eb) as (Er & Ec).
    rewrite <- Er. apply (op_vec_does I o (F i j) (G i j)); auto. lia.
  - exact HI.
  - rewrite Hby. apply H.
  - rewrite Hx. apply H.
  - rewrite E. cbn [bind]. rewrite Hl, (ok_rows B H), Z.eqb_refl. cbn [assert_ bind].
    exists w', (BBuf x y tmp'), y. repeat split; auto; cbn [bb_x bb_y]; rewrite ?(ok_rows B H); auto.
Qed.

Lemma bo_multAT_exact I B F G w u x out : bo_ok B -> blocks_do I B F G -> I w -> buf_ok B u ->
  zlen x = bo_rows B -> zlen out = bo_cols B ->
  exists w' u' y, bo_multAT B w u x out = Ok (w', u', y) /\ I w' /\ buf_ok B u' /\ zlen y = bo_cols B /\
    forall j l, 0 <= j < nblocks (bo_co B) -> 0 <= l < bsize (bo_co B) j -> vec_of y (ofs (bo_co B) j + l) = bo_valueAT B G x j l.
Proof.
  intros H HD HI (Hbx & Hby) Hx Ho. unfold bo_multAT. rewrite Hx, Ho, !Z.eqb_refl. cbn [assert_ bind].
  destruct (block_loop I (bo_co B) (bo_ro B) (ok_co B H) (ok_ro B H) (fun j i => bo_at B i j) (fun j i => bo_block B i j) (fun o => op_multAT_vec o) (fun j i => G i j)) 
    with (w := w) (y0 := bb_x u) (tmp := bb_tmp u) (x := x) as (w' & y & tmp' & E & HI' & Hl & Hz).
  - intros; apply bo_at_ok; auto.
  - intros j i o w1 x1 out1 Hj Hi Eb HI1 Hx1 Ho1. destruct (ok_block B H i j o Hi Hj Eb) as (Er & Ec).
    rewrite <- Ec. apply (op_vec_doesAT I o (F i j) (G i j)); auto. lia.
  - exact HI.
  - rewrite Hbx. apply H.
  - rewrite Hx. apply H.
  - rewrite E. cbn [bind]. rewrite Hl, (ok_cols B H), Z.eqb_refl. cbn [assert_ bind].
    exists w', (BBuf y x tmp'), y. repeat split; auto; cbn [bb_x bb_y]; rewrite ?(ok_cols B H); auto.
Qed.

(* ---------------------------------------------------------------- as a matrix *)

Section Lin.
Variable R : ring_laws S.

Lemma vec_of_lpart offs (x : list T) j l : 0 <= l < bsize offs j -> vec_of (lpart offs x j) l = vpart offs (vec_of x) j l.
Proof. intros Hl. unfold lpart, vec_of, vpart. rewrite zn_map_zrange by lia. reflexivity. Qed.

Lemma fold_opt (b : Z -> bool) (f : Z -> T) n :
  fold_left (fun a j => if b j then sadd a (f j) else a) (zrange 0 n) s0 = sum_range 0 n (fun j => if b j then f j else s0).
Proof.
  rewrite <- (fold_left_range R). apply fold_left_ext_in. intros a j _. destruct (b j); [reflexivity|].
  symmetry. apply (sadd_0_r R).
Qed.

Lemma bo_value_mat B (A : Z -> Z -> mat S) x i k : bo_ok B ->
  0 <= i < nblocks (bo_ro B) -> 0 <= k < bsize (bo_ro B) i ->
  bo_value B (fun i j x => map (mat_vec (A i j) (bsize (bo_co B) j) (vec_of x)) (zrange 0 (bsize (bo_ro B) i))) x i k
  = mat_vec (tile (bo_ro B) (bo_co B) (fun i j => opt_mat (bo_block B i j) (A i j))) (bo_cols B) (vec_of x) (ofs (bo_ro B) i + k).
Proof.
  intros H Hi Hk. rewrite (ok_cols B H), (tile_mult R) by (auto; apply H).
  unfold bo_value.
  rewrite (fold_left_ext_in _ (fun a j => if (match bo_block B i j with Some _ => true | None => false end) then sadd a (mat_vec (A i j) (bsize (bo_co B) j) (vpart (bo_co B) (vec_of x) j) k) else a)).
  - rewrite fold_opt. apply sum_range_ext. intros j Hj. unfold opt_mat. destruct (bo_block B i j); [reflexivity|].
    symmetry. unfold mat_vec. apply (sum_range_0 R). intros. apply (smul_0_l R).
  - intros a j Hj. destruct (bo_block B i j); [|reflexivity]. f_equal. rewrite zn_map_zrange by lia.
    apply mat_vec_ext; auto. intros l Hl. apply vec_of_lpart; auto.
Qed.

Lemma bo_valueAT_mat B (A : Z -> Z -> mat S) x j l : bo_ok B ->
  0 <= j < nblocks (bo_co B) -> 0 <= l < bsize (bo_co B) j ->
  bo_valueAT B (fun i j x => map (mat_vec (mat_T (A i j)) (bsize (bo_ro B) i) (vec_of x)) (zrange 0 (bsize (bo_co B) j))) x j l
  = mat_vec (mat_T (tile (bo_ro B) (bo_co B) (fun i j => opt_mat (bo_block B i j) (A i j)))) (bo_rows B) (vec_of x) (ofs (bo_co B) j + l).
Proof.
  intros H Hj Hl. rewrite (ok_rows B H).
  rewrite (mat_vec_ext _ (tile (bo_co B) (bo_ro B) (fun j i => mat_T (opt_mat (bo_block B i j) (A i j)))) _ _ (vec_of x)) by
    (auto; intros; apply (tile_T R)).
  rewrite (tile_mult R) by (auto; apply H).
  unfold bo_valueAT.
  rewrite (fold_left_ext_in _ (fun a i => if (match bo_block B i j with Some _ => true | None => false end) then sadd a (mat_vec (mat_T (A i j)) (bsize (bo_ro B) i) (vpart (bo_ro B) (vec_of x) i) l) else a)).
  - rewrite fold_opt. apply sum_range_ext. intros i Hi. unfold opt_mat. destruct (bo_block B i j); [reflexivity|].
    symmetry. unfold mat_vec. apply (sum_range_0 R). intros. apply (smul_0_l R).
  - intros a i Hi. destruct (bo_block B i j); [|reflexivity]. f_equal. rewrite zn_map_zrange by lia.
    apply mat_vec_ext; auto. intros k Hk. apply vec_of_lpart; auto.
Qed.

(** A BlockOperator represents the tiled matrix, in every state of its buffers. *)
Lemma bo_op_matrix I B (A : Z -> Z -> mat S) : bo_ok B ->
  (forall i j o, 0 <= i < nblocks (bo_ro B) -> 0 <= j < nblocks (bo_co B) -> bo_block B i j = Some o -> op_matrix I o (A i j)) ->
  op_matrix (fun s : W * bbuf S => I (fst s) /\ buf_ok B (snd s)) (bo_op B)
    (tile (bo_ro B) (bo_co B) (fun i j => opt_mat (bo_block B i j) (A i j))).
Proof.
  intros H HA.
  assert (HD : blocks_do I B
     (fun i j x => map (mat_vec (A i j) (bsize (bo_co B) j) (vec_of x)) (zrange 0 (bsize (bo_ro B) i)))
     (fun i j x => map (mat_vec (mat_T (A i j)) (bsize (bo_ro B) i) (vec_of x)) (zrange 0 (bsize (bo_co B) j)))).
  { intros i j o Hi Hj Eb. destruct (ok_block B H i j o Hi Hj Eb) as (Er & Ec).
    pose proof (HA i j o Hi Hj Eb) as Hm. unfold op_matrix in Hm. rewrite Er, Ec in Hm. exact Hm. }
  pose proof (total_nonneg _ (ok_ro B H)) as Hp1. pose proof (total_nonneg _ (ok_co B H)) as Hp2.
  assert (Hr0 : 0 <= bo_rows B) by (rewrite (ok_rows B H); exact Hp1).
  assert (Hc0 : 0 <= bo_cols B) by (rewrite (ok_cols B H); exact Hp2).
  unfold op_matrix, op_does. cbn [bo_op o_rows o_cols o_mult o_multAT].
  split; [exact Hr0|]. split; [exact Hc0|]. split.
  - intros [w u] x out (HI & Hu) Hx Ho. cbn [fst snd] in *. split; [apply zlen_map_zrange; exact Hr0|].
    destruct (bo_mult_exact I B _ _ w u x out H HD HI Hu Hx Ho) as (w' & u' & y & E & HI' & Hu' & Hl & Hy).
    exists (w', u'). rewrite E. cbn [bind]. split; [|auto]. do 2 f_equal.
    apply (list_ext s0); [rewrite zlen_map_zrange; auto|]. intros r Hr. rewrite Hl in Hr.
    rewrite zn_map_zrange by exact Hr. rewrite (ok_rows B H) in Hr.
    destruct (at_blocks _ r (ok_ro B H) Hr) as (i & k & Hi & Hk & ->).
    change (zn s0 y (ofs (bo_ro B) i + k)) with (vec_of y (ofs (bo_ro B) i + k)). rewrite Hy by auto.
    apply bo_value_mat; auto.
  - intros [w u] x out (HI & Hu) Hx Ho. cbn [fst snd] in *. split; [apply zlen_map_zrange; exact Hc0|].
    destruct (bo_multAT_exact I B _ _ w u x out H HD HI Hu Hx Ho) as (w' & u' & y & E & HI' & Hu' & Hl & Hy).
    exists (w', u'). rewrite E. cbn [bind]. split; [|auto]. do 2 f_equal.
    apply (list_ext s0); [rewrite zlen_map_zrange; auto|]. intros r Hr. rewrite Hl in Hr.
    rewrite zn_map_zrange by exact Hr. rewrite (ok_cols B H) in Hr.
    destruct (at_blocks _ r (ok_co B H) Hr) as (j & l & Hj & Hl' & ->).
    change (zn s0 y (ofs (bo_co B) j + l)) with (vec_of y (ofs (bo_co B) j + l)). rewrite Hy by auto.
    apply bo_valueAT_mat; auto.
Qed.

(** Operators that represent a matrix are adjoint. *)
Lemma op_matrix_adjoint I (o : op S W) (A : mat S) w1 w2 w1' w2' x y out1 out2 u v :
  op_matrix I o A -> I w1 -> I w2 -> zlen x = o_cols o -> zlen y = o_rows o -> zlen out1 = o_rows o -> zlen out2 = o_cols o ->
  o_mult o w1 x out1 = Ok (w1', u) -> o_multAT o w2 y out2 = Ok (w2', v) ->
  inner (o_rows o) (vec_of u) (vec_of y) = inner (o_cols o) (vec_of x) (vec_of v).
Proof.
  intros (Hr & Hc & Hm & Ht) H1 H2 Hx Hy Ho1 Ho2 Eu Ev.
  destruct (Hm w1 x out1 H1 Hx Ho1) as (_ & w3 & E3 & _). rewrite Eu in E3. injection E3 as _ ->.
  destruct (Ht w2 y out2 H2 Hy Ho2) as (_ & w4 & E4 & _). rewrite Ev in E4. injection E4 as _ ->.
  transitivity (inner (o_rows o) (mat_vec A (o_cols o) (vec_of x)) (vec_of y)).
  - unfold inner. apply sum_range_ext. intros i Hi. f_equal. unfold vec_of at 1. rewrite zn_map_zrange by lia. reflexivity.
  - rewrite (inner_mat_vec_T R). unfold inner. apply sum_range_ext. intros i Hi. f_equal.
    unfold vec_of at 2. rewrite zn_map_zrange by lia. reflexivity.
Qed.

End Lin.

(* ---------------------------------------------------------------- histories *)

Lemma bo_new_ok ro co : offsets_ok ro -> offsets_ok co ->
  exists B u, bo_new W ro co = Ok (B, u) /\ bo_ok B /\ buf_ok B u /\ bo_ro B = ro /\ bo_co B = co /\
    forall i j, 0 <= i < nblocks ro -> 0 <= j < nblocks co -> bo_block B i j = None.
Proof.
  intros Hro Hco. unfold bo_new. rewrite !back_ok by assumption. cbn [bind].
  pose proof (total_nonneg ro Hro). pose proof (total_nonneg co Hco).
  rewrite (proj2 (Z.leb_le 0 (total ro))), (proj2 (Z.leb_le 0 (total co))) by assumption. cbn [assert_ bind].
  pose proof (nblocks_nonneg ro Hro). pose proof (nblocks_nonneg co Hco).
  fold (nblocks ro) (nblocks co).
  rewrite (vec_ok (nblocks co)) by assumption. cbn [bind]. rewrite (vec_ok (nblocks ro)) by assumption. cbn [bind].
  rewrite (vec_ok (total co)) by assumption. cbn [bind]. rewrite (vec_ok (total ro)) by assumption. cbn [bind].
  assert (Hb : forall i j, 0 <= i < nblocks ro -> 0 <= j < nblocks co ->
    zn (@None (op S W)) (zn [] (repeat (repeat None (Z.to_nat (nblocks co))) (Z.to_nat (nblocks ro))) i) j = None).
  { intros i j Hi Hj. rewrite (zn_repeat []) by lia. apply zn_repeat. lia. }
  eexists _, _. split; [reflexivity|]. split; [|split; [|split; [reflexivity|split; [reflexivity|exact Hb]]]].
  - split; cbn [bo_ro bo_co bo_rows bo_cols bo_A]; auto.
    + rewrite zlen_repeat. lia.
    + intros i Hi. rewrite (zn_repeat []) by lia. rewrite zlen_repeat. lia.
    + intros i j o Hi Hj E. unfold bo_block in E. cbn [bo_A] in E. rewrite Hb in E by auto. discriminate.
  - split; cbn [bb_x bb_y bo_rows bo_cols]; rewrite zlen_repeat; lia.
Qed.

Lemma bo_set_ok B i j o B' : bo_ok B -> bo_set_block B i j o = Ok B' ->
  0 <= i < nblocks (bo_ro B) /\ 0 <= j < nblocks (bo_co B) /\
  o_rows o = bsize (bo_ro B) i /\ o_cols o = bsize (bo_co B) j /\
  bo_ok B' /\ bo_ro B' = bo_ro B /\ bo_co B' = bo_co B /\ bo_rows B' = bo_rows B /\ bo_cols B' = bo_cols B /\
  forall a b, 0 <= a < nblocks (bo_ro B) -> 0 <= b < nblocks (bo_co B) ->
    bo_block B' a b = if (a =? i) && (b =? j) then Some o else bo_block B a b.
Proof.
  intros H E. unfold bo_set_block in E. fold (nblocks (bo_ro B)) (nblocks (bo_co B)) in E.
  destruct (Z.ltb_spec i (nblocks (bo_ro B))); [|discriminate].
  destruct (Z.ltb_spec j (nblocks (bo_co B))); [|discriminate]. cbn [assert_ bind] in E.
  assert (L1 : zlen (bo_ro B) = nblocks (bo_ro B) + 1) by (unfold nblocks; lia).
  assert (L2 : zlen (bo_co B) = nblocks (bo_co B) + 1) by (unfold nblocks; lia).
  assert (Hi : 0 <= i).
  { destruct (Z_lt_le_dec i 0); [|assumption]. exfalso. rewrite (get_out (bo_ro B) i) in E by lia.
    destruct (get (bo_ro B) (i + 1)); discriminate. }
  rewrite !(get_ofs (bo_ro B)) in E by lia. cbn [bind] in E.
  destruct (Z.eqb_spec (o_rows o) (ofs (bo_ro B) (i + 1) - ofs (bo_ro B) i)) as [Er|]; [|discriminate]. cbn [assert_ bind] in E.
  assert (Hj : 0 <= j).
  { destruct (Z_lt_le_dec j 0); [|assumption]. exfalso. rewrite (get_out (bo_co B) j) in E by lia.
    destruct (get (bo_co B) (j + 1)); discriminate. }
  rewrite !(get_ofs (bo_co B)) in E by lia. cbn [bind] in E.
  destruct (Z.eqb_spec (o_cols o) (ofs (bo_co B) (j + 1) - ofs (bo_co B) j)) as [Ec|]; [|discriminate]. cbn [assert_ bind] in E.
  rewrite (get_ok ([] : list (option (op S W)))) in E by (rewrite (ok_A B H); lia). cbn [bind] in E.
  rewrite set_ok in E by (rewrite (ok_row B H) by lia; lia). cbn [bind] in E.
  rewrite set_ok in E by (rewrite (ok_A B H); lia). cbn [bind] in E. injection E as <-.
  match goal with |- context [bo_ok ?X] => set (B1 := X) end.
  assert (Hb : forall a b, 0 <= a < nblocks (bo_ro B) -> 0 <= b < nblocks (bo_co B) ->
      bo_block B1 a b = if (a =? i) && (b =? j) then Some o else bo_block B a b).
  { intros a b Ha Hb. unfold bo_block. cbn [bo_A B1].
    rewrite (zn_upd []) by (rewrite ?(ok_A B H); lia). destruct (Z.eqb_spec a i) as [->|]; [|reflexivity].
    rewrite zn_upd by (rewrite ?(ok_row B H) by lia; lia). cbn [andb]. reflexivity. }
  split; [lia|]. split; [lia|]. split; [exact Er|]. split; [exact Ec|].
  split; [|repeat (split; [reflexivity|]); exact Hb].
  split; cbn [bo_ro bo_co bo_rows bo_cols bo_A B1]; try apply H.
  - rewrite zlen_upd. apply H.
  - intros a Ha. rewrite (zn_upd []) by (rewrite ?(ok_A B H); lia).
    destruct (Z.eqb_spec a i) as [->|]; [rewrite zlen_upd|]; apply H; auto.
  - intros a b o' Ha Hb' Eb. rewrite Hb in Eb by auto.
    destruct (Z.eqb_spec a i) as [->|], (Z.eqb_spec b j) as [->|]; cbn [andb] in Eb; try (apply H; auto; fail).
    injection Eb as <-. auto.
Qed.

(** Every operator in B computes some function. *)
Definition all_do (I : W -> Prop) B : Prop :=
  forall i j o, 0 <= i < nblocks (bo_ro B) -> 0 <= j < nblocks (bo_co B) -> bo_block B i j = Some o -> exists f g, op_does I o f g.

(** Choosing the functions of all blocks is possible because there are finitely many. *)
Lemma finite_choice {X : Type} (d : X) (P : Z -> X -> Prop) n :
  (forall i, 0 <= i < n -> exists x, P i x) -> exists f : Z -> X, forall i, 0 <= i < n -> P i (f i).
Proof.
  intros H.
  assert (G : forall m : nat, Z.of_nat m <= n -> exists f : Z -> X, forall i, 0 <= i < Z.of_nat m -> P i (f i)).
  { induction m as [|m IH]; intros Hm; [exists (fun _ => d); intros; lia|].
    destruct IH as (f & Hf); [lia|]. destruct (H (Z.of_nat m) ltac:(lia)) as (x & Hx).
    exists (fun i => if i =? Z.of_nat m then x else f i). intros i Hi. destruct (Z.eqb_spec i (Z.of_nat m)) as [->|]; [exact Hx|]. apply Hf. lia. }
  destruct (Z_le_gt_dec n 0).
  - exists (fun _ => d). intros; lia.
  - destruct (G (Z.to_nat n) ltac:(lia)) as (f & Hf). exists f. intros i Hi. apply Hf. lia.
Qed.

Lemma all_do_choice I B : all_do I B -> exists F G, blocks_do I B F G.
Proof.
  intros HA. pose (id2 := (fun x : list T => x, fun x : list T => x)).
  destruct (finite_choice (fun _ => id2)
     (fun i Fi => forall j o, 0 <= j < nblocks (bo_co B) -> bo_block B i j = Some o -> op_does I o (fst (Fi j)) (snd (Fi j))) (nblocks (bo_ro B))) as (A & HA').
  - intros i Hi.
    destruct (finite_choice id2 (fun j Fj => forall o, bo_block B i j = Some o -> op_does I o (fst Fj) (snd Fj)) (nblocks (bo_co B))) as (Ai & HAi).
    + intros j Hj. destruct (bo_block B i j) as [o|] eqn:E.
      * destruct (HA i j o Hi Hj E) as (f & g & Hm). exists (f, g). intros o' E'. injection E' as <-. exact Hm.
      * exists id2. discriminate.
    + exists Ai. intros j o Hj E. apply HAi; auto.
  - exists (fun i j => fst (A i j)), (fun i j => snd (A i j)). intros i j o Hi Hj E. apply HA'; auto.
Qed.

Lemma bo_calls_ok (I : W -> Prop) l : forall B0 u0 w0 B w u, I w0 -> bo_ok B0 -> buf_ok B0 u0 -> all_do I B0 ->
  Forall (sane_call I) l -> foldM run_bcall l (B0, w0, u0) = Ok (B, w, u) ->
  bo_ok B /\ buf_ok B u /\ I w /\ bo_ro B = bo_ro B0 /\ bo_co B = bo_co B0 /\ all_do I B /\
  forall i j, 0 <= i < nblocks (bo_ro B0) -> 0 <= j < nblocks (bo_co B0) -> bo_block B i j = last_op l i j (bo_block B0 i j).
Proof.
  induction l as [|c l IH]; intros B0 u0 w0 B w u HI H0 Hu0 HM0 HS HR.
  - injection HR as <- <- <-. refine (conj H0 (conj Hu0 (conj HI (conj eq_refl (conj eq_refl (conj HM0 _)))))). reflexivity.
  - pose proof (Forall_inv HS) as Hc. pose proof (Forall_inv_tail HS) as HS'.
    cbn [foldM] in HR. destruct (all_do_choice I B0 HM0) as (F & G & HD).
    destruct c as [i j o|x out|x out]; cbn [run_bcall] in HR.
    + destruct (bo_set_block B0 i j o) as [B1|f] eqn:ES; [|discriminate]. cbn [bind] in HR.
      destruct (bo_set_ok B0 i j o B1 H0 ES) as (Hi & Hj & Er & Ec & H1 & R1 & C1 & R2 & C2 & Hb).
      destruct (IH B1 u0 w0 B w u) as (K1 & K2 & K3 & K4 & K5 & K6 & K7); auto.
      * unfold buf_ok. rewrite R2, C2. exact Hu0.
      * intros a b o' Ha Hb' Eb. rewrite R1 in Ha. rewrite C1 in Hb'. rewrite Hb in Eb by auto.
        destruct ((a =? i) && (b =? j)); [injection Eb as <-; exact Hc|apply (HM0 a b); auto].
      * rewrite R1, C1 in *. refine (conj K1 (conj K2 (conj K3 (conj K4 (conj K5 (conj K6 _)))))).
        intros a b Ha Hb'. cbn [last_op]. rewrite K7, Hb by auto. reflexivity.
    + destruct (bo_mult B0 w0 u0 x out) as [[[w1 u1] y1]|f] eqn:EM; [|discriminate]. cbn [bind] in HR.
      assert (Hx : zlen x = bo_cols B0 /\ zlen out = bo_rows B0).
      { unfold bo_mult in EM. destruct (Z.eqb_spec (zlen x) (bo_cols B0)); [|discriminate].
        destruct (Z.eqb_spec (zlen out) (bo_rows B0)); [|discriminate]. auto. }
      destruct Hx as (Hx & Ho).
      destruct (bo_mult_exact I B0 F G w0 u0 x out H0 HD HI Hu0 Hx Ho) as (w' & u' & y & E & HI' & Hu' & _).
      rewrite EM in E. injection E as <- <- _. apply (IH B0 u1 w1); auto.
    + destruct (bo_multAT B0 w0 u0 x out) as [[[w1 u1] y1]|f] eqn:EM; [|discriminate]. cbn [bind] in HR.
      assert (Hx : zlen x = bo_rows B0 /\ zlen out = bo_cols B0).
      { unfold bo_multAT in EM. destruct (Z.eqb_spec (zlen x) (bo_rows B0)); [|discriminate].
        destruct (Z.eqb_spec (zlen out) (bo_cols B0)); [|discriminate]. auto. }
      destruct Hx as (Hx & Ho).
      destruct (bo_multAT_exact I B0 F G w0 u0 x out H0 HD HI Hu0 Hx Ho) as (w' & u' & y & E & HI' & Hu' & _).
      rewrite EM in E. injection E as <- <- _. apply (IH B0 u1 w1); auto.
Qed.

Lemma bo_reached_ok (I : W -> Prop) ro co w0 l B w u : offsets_ok ro -> offsets_ok co -> I w0 ->
  Forall (sane_call I) l -> bo_reached ro co w0 l (B, w, u) ->
  bo_ok B /\ buf_ok B u /\ I w /\ bo_ro B = ro /\ bo_co B = co /\ all_do I B /\
  forall i j, 0 <= i < nblocks ro -> 0 <= j < nblocks co -> bo_block B i j = last_op l i j None.
Proof.
  intros Hro Hco HI HS HR. unfold bo_reached in HR.
  destruct (bo_new_ok ro co Hro Hco) as (B0 & u0 & E0 & H0 & Hu0 & R0 & C0 & N0). rewrite E0 in HR. cbn [bind] in HR.
  assert (HM0 : all_do I B0).
  { intros i j o Hi Hj E. rewrite R0 in Hi. rewrite C0 in Hj. rewrite N0 in E by auto. discriminate. }
  destruct (bo_calls_ok I l B0 u0 w0 B w u HI H0 Hu0 HM0 HS HR) as (K1 & K2 & K3 & K4 & K5 & K6 & K7).
  rewrite R0, C0 in *. refine (conj K1 (conj K2 (conj K3 (conj K4 (conj K5 (conj K6 _)))))).
  intros i j Hi Hj. rewrite K7, N0 by auto. reflexivity.
Qed.

(** The result does not depend on the buffers, the previous content of the output or the state
    of the operators. *)
Lemma list_by_blocks offs (y z : list T) (f : Z -> Z -> T) : offsets_ok offs -> zlen y = total offs -> zlen z = total offs ->
  (forall i k, 0 <= i < nblocks offs -> 0 <= k < bsize offs i -> vec_of y (ofs offs i + k) = f i k) ->
  (forall i k, 0 <= i < nblocks offs -> 0 <= k < bsize offs i -> vec_of z (ofs offs i + k) = f i k) -> y = z.
Proof.
  intros Ho Hy Hz H1 H2. apply (list_ext s0); [lia|]. intros r Hr. rewrite Hy in Hr.
  destruct (at_blocks offs r Ho Hr) as (i & k & Hi & Hk & ->).
  change (vec_of y (ofs offs i + k) = vec_of z (ofs offs i + k)). rewrite H1, H2 by auto. reflexivity.
Qed.

Lemma bo_mult_same I B w1 u1 w2 u2 x out1 out2 : bo_ok B -> all_do I B -> I w1 -> I w2 -> buf_ok B u1 -> buf_ok B u2 ->
  zlen x = bo_cols B -> zlen out1 = bo_rows B -> zlen out2 = bo_rows B ->
  exists w1' u1' w2' u2' y, bo_mult B w1 u1 x out1 = Ok (w1', u1', y) /\ bo_mult B w2 u2 x out2 = Ok (w2', u2', y).
Proof.
  intros H HA H1 H2 Hu1 Hu2 Hx Ho1 Ho2. destruct (all_do_choice I B HA) as (F & G & HD).
  destruct (bo_mult_exact I B F G w1 u1 x out1 H HD H1 Hu1 Hx Ho1) as (w1' & u1' & y1 & E1 & _ & _ & L1 & V1).
  destruct (bo_mult_exact I B F G w2 u2 x out2 H HD H2 Hu2 Hx Ho2) as (w2' & u2' & y2 & E2 & _ & _ & L2 & V2).
  exists w1', u1', w2', u2', y1. split; [exact E1|]. rewrite E2. do 2 f_equal.
  apply (list_by_blocks (bo_ro B) y2 y1 (bo_value B F x)); auto; rewrite <- ?(ok_rows B H); auto; apply H.
Qed.
Lemma bo_multAT_same I B w1 u1 w2 u2 x out1 out2 : bo_ok B -> all_do I B -> I w1 -> I w2 -> buf_ok B u1 -> buf_ok B u2 ->
  zlen x = bo_rows B -> zlen out1 = bo_cols B -> zlen out2 = bo_cols B ->
  exists w1' u1' w2' u2' y, bo_multAT B w1 u1 x out1 = Ok (w1', u1', y) /\ bo_multAT B w2 u2 x out2 = Ok (w2', u2', y).
Proof.
  intros H HA H1 H2 Hu1 Hu2 Hx Ho1 Ho2. destruct (all_do_choice I B HA) as (F & G & HD).
  destruct (bo_multAT_exact I B F G w1 u1 x out1 H HD H1 Hu1 Hx Ho1) as (w1' & u1' & y1 & E1 & _ & _ & L1 & V1).
  destruct (bo_multAT_exact I B F G w2 u2 x out2 H HD H2 Hu2 Hx Ho2) as (w2' & u2' & y2 & E2 & _ & _ & L2 & V2).
  exists w1', u1', w2', u2', y1. split; [exact E1|]. rewrite E2. do 2 f_equal.
  apply (list_by_blocks (bo_co B) y2 y1 (bo_valueAT B G x)); auto; rewrite <- ?(ok_cols B H); auto; apply H.
Qed.

End BO.

(* ---------------------------------------------------------------- the matrix classes as operators *)

Lemma sp_op_matrix (R : ring_laws S) (A : csr S) : csr_valid A -> op_matrix (fun _ => True) (sp_op A) (csr_mat A).
Proof.
  intros H. unfold op_matrix, op_does. cbn [sp_op o_rows o_cols o_mult o_multAT].
  split; [apply H|]. split; [apply H|]. split.
  - intros w x out _ Hx Ho. split; [apply zlen_map_zrange, H|]. exists w. split; [|exact Logic.I].
    destruct (sp_mult_spec R A x out H Hx Ho) as (y & E & Hl & Hy). rewrite E. cbn [bind]. do 2 f_equal.
    apply (list_ext s0); [rewrite zlen_map_zrange; auto; apply H|]. intros i Hi. rewrite zn_map_zrange by lia. apply Hy. lia.
  - intros w x out _ Hx Ho. split; [apply zlen_map_zrange, H|]. exists w. split; [|exact Logic.I].
    destruct (sp_multAT_spec R A x out H Hx Ho) as (y & E & Hl & Hy). rewrite E. cbn [bind]. do 2 f_equal.
    apply (list_ext s0); [rewrite zlen_map_zrange; auto; apply H|]. intros i Hi. rewrite zn_map_zrange by lia. apply Hy. lia.
Qed.

Lemma bm_op_matrix (R : ring_laws S) (M : bmat S) : bm_ok M -> op_matrix (fun _ => True) (bm_op M) (bm_mat M).
Proof.
  intros H. unfold op_matrix, op_does. cbn [bm_op o_rows o_cols o_mult o_multAT].
  assert (Hr0 : 0 <= bm_rows M) by (rewrite (bk_rows M H); apply total_nonneg, H).
  assert (Hc0 : 0 <= bm_cols M) by (rewrite (bk_cols M H); apply total_nonneg, H).
  split; [exact Hr0|]. split; [exact Hc0|]. split.
  - intros w x out _ Hx Ho. split; [apply zlen_map_zrange; exact Hr0|]. exists w. split; [|exact Logic.I].
    destruct (bm_mult_spec R M x out H Hx Ho) as (y & E & Hl & Hy & _). rewrite E. cbn [bind]. do 2 f_equal.
    apply (list_ext s0); [rewrite zlen_map_zrange; auto|]. intros i Hi. rewrite zn_map_zrange by lia. apply Hy. lia.
  - intros w x out _ Hx Ho. split; [apply zlen_map_zrange; exact Hc0|]. exists w. split; [|exact Logic.I].
    destruct (bm_multAT_spec R M x out H Hx Ho) as (y & E & Hl & Hy & _). rewrite E. cbn [bind]. do 2 f_equal.
    apply (list_ext s0); [rewrite zlen_map_zrange; auto|]. intros i Hi. rewrite zn_map_zrange by lia. apply Hy. lia.
Qed.

End BlockOp.
