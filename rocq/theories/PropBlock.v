(** Properties C34 - C39 and C73: BlockVector, BlockMatrix, BlockOperator, Operator; their
    parts of C21. *)

From Coq Require Import ZArith List Bool Lia.
From Verif Require Import Base Scalar Spec Dense Sparse SparseProofs Examples Vec VecSpec VecMore Block BlockSpec BlockFacts BlockMore BlockOp BlockVec BlockLinks.
Import ListNotations.
Open Scope Z_scope.

(** Example layout: block rows of size 2, 0 and 3, block columns of size 3, 2. *)
Definition exRo : list Z := [0; 2; 2; 5].
Definition exCo : list Z := [0; 3; 5].
Lemma exRo_ok : offsets_ok exRo.
Proof.
  split; [discriminate|reflexivity|]. intros i Hi. change (nblocks exRo) with 3 in Hi.
  assert (i = 0 \/ i = 1 \/ i = 2) as [->|[->| ->]] by lia; vm_compute; discriminate.
Qed.
Lemma exCo_ok : offsets_ok exCo.
Proof.
  split; [discriminate|reflexivity|]. intros i Hi. change (nblocks exCo) with 2 in Hi.
  assert (i = 0 \/ i = 1) as [->| ->] by lia; vm_compute; discriminate.
Qed.
(** Blocks (0,0): 2 x 3 and (2,1): 3 x 2; (2,0) is never set. *)
Definition ex00 : csr Zs := @CSR Zs 2 3 [0; 2; 3] [0; 2; 1] [1; 2; 3].
Lemma ex00_valid : csr_valid ex00.
Proof. apply csr_validb_ok. vm_compute. reflexivity. Qed.
Definition exSets : list (Z * Z * csr Zs) := [(0, 0, ex00); (2, 1, exB)].
Definition exM : bmat Zs := @BMat Zs 5 5 exRo exCo [[ex00; sp_empty]; [sp_empty; sp_empty]; [sp_empty; exB]].
Lemma exM_built : bm_built exRo exCo exSets exM.
Proof. split; [repeat first [apply Forall_nil|apply Forall_cons; [first [exact ex00_valid|exact exB_valid]|]]|vm_compute; reflexivity]. Qed.

(* ---------------------------------------------------------------- C34 *)

(** Every position lies in exactly one block. *)
Theorem C34_blocks_cover :
  forall (offs : list Z) (r : Z), offsets_ok offs -> 0 <= r < total offs ->
  exists i k, (0 <= i < nblocks offs /\ 0 <= k < bsize offs i /\ r = ofs offs i + k) /\
    forall i' k', 0 <= i' < nblocks offs -> 0 <= k' < bsize offs i' -> r = ofs offs i' + k' -> i' = i /\ k' = k.
Proof. exact offsets_tile. Qed.
Print Assumptions C34_blocks_cover.

(** GetBlock(i) is a view of elements offsets[i] .. offsets[i+1]-1. *)
Theorem C34_get_block :
  forall (S : scalar) (h : heap S) (w : vector) (offs : list Z) (i : Z), bv_ok h w offs -> 0 <= i < nblocks offs ->
  exists b, bv_block w offs i = Ok b /\ view_ok h b /\ v_len b = bsize offs i /\
    forall k, vat h b k = vat h (w_view w) (ofs offs i + k).
Proof. exact @bv_block_ok. Qed.
Print Assumptions C34_get_block.

(** Anything written through block i appears there and nowhere else. *)
Theorem C34_write_block :
  forall (S : scalar) (h : heap S) (w : vector) (offs : list Z) (i : Z) (b : view) (g : Z -> car S) (h' : heap S),
  bv_ok h w offs -> 0 <= i < nblocks offs -> bv_block w offs i = Ok b -> writes h b g h' ->
  bv_ok h' w offs /\
  (forall r, 0 <= r < total offs -> vat h' (w_view w) r = if in_block offs i r then g (r - ofs offs i) else vat h (w_view w) r) /\
  (forall j c k, 0 <= j < nblocks offs -> j <> i -> bv_block w offs j = Ok c -> 0 <= k < bsize offs j -> vat h' c k = vat h c k).
Proof. exact @bv_block_write. Qed.
Print Assumptions C34_write_block.

(** BlockVector(offsets, t), in any reachable program state. *)
Theorem C34_construct :
  forall (S : scalar) (grow : Z -> Z -> Z) (st : vstate S) (offs : list Z) (t : car S), reached grow st -> offsets_ok offs ->
  exists st', bv_new grow st offs t = Ok (st', offs) /\ reached grow st' /\
    values st' = values st ++ [repeat t (Z.to_nat (total offs))] /\
    bv_ok (st_heap st') (zn w_new (st_vars st') (zlen (values st))) offs.
Proof. exact @bv_new_ok. Qed.
Print Assumptions C34_construct.

(** BlockVector(data, offsets) with data of the right size. *)
Theorem C34_construct_from_data_partial :
  forall (S : scalar) (grow : Z -> Z -> Z) (st : vstate S) (r : vref) (x off : Z) (offs : list Z), reached grow st -> offsets_ok offs ->
  lref (values st) r = Some (x, off, total offs) ->
  exists st', bv_of_view grow st r offs = Ok (st', offs) /\ reached grow st' /\
    values st' = values st ++ [lslice (values st) x off (total offs)] /\
    bv_ok (st_heap st') (zn w_new (st_vars st') (zlen (values st))) offs.
Proof. exact @bv_of_view_ok. Qed.
Print Assumptions C34_construct_from_data_partial.

(** The size is not checked: with data that is too short some block reaches beyond it. *)
Theorem C34_data_size_unchecked_refuted :
  forall (S : scalar) (grow : Z -> Z -> Z) (st : vstate S) (r : vref) (x off n : Z) (offs : list Z), reached grow st -> offsets_ok offs ->
  lref (values st) r = Some (x, off, n) -> 0 < n < total offs ->
  exists st' i b, bv_of_view grow st r offs = Ok (st', offs) /\ 0 <= i < nblocks offs /\
    bv_block (zn w_new (st_vars st') (zlen (values st))) offs i = Ok b /\ ~ view_ok (st_heap st') b.
Proof. exact @bv_of_view_short. Qed.
Print Assumptions C34_data_size_unchecked_refuted.

Theorem C34_block_number_too_large :
  forall (w : vector) (offs : list Z) (i : Z), nblocks offs <= i -> bv_block w offs i = Fail FAssert.
Proof. exact bv_block_high. Qed.
Print Assumptions C34_block_number_too_large.

(** A negative block number is not refused. *)
Theorem C34_negative_block_number_refuted :
  forall (w : vector) (offs : list Z) (i : Z), offsets_ok offs -> i < 0 -> bv_block w offs i = Fail FUB.
Proof. exact bv_block_negative. Qed.
Print Assumptions C34_negative_block_number_refuted.

Definition exBH : heap Zs := [Some (@Vec.Block Zs [1; 2; 3; 4; 5] 5)].
Definition exBW : vector := Vector (View 0 0 5) 0.
Example C34_instance :
  offsets_ok exRo /\ bv_ok exBH exBW exRo /\ bv_block exBW exRo 0 = Ok (View 0 0 2) /\ bv_block exBW exRo 2 = Ok (View 0 2 3) /\
  v_fill exBH (View 0 2 3) 9 = Ok [Some (@Vec.Block Zs [1; 2; 9; 9; 9] 5)] /\
  reached (fun a _ => a) (VState (S := Zs) [] []) /\ @lref Zs [[7; 8; 9]] (RSub 0 1 2) = Some (0, 1, 2).
Proof.
  split; [apply exRo_ok|]. split.
  { split; [|split; [apply exRo_ok|reflexivity]]. split; [discriminate|]. right. eexists. split; [reflexivity|]. cbn. split; discriminate. }
  split; [vm_compute; reflexivity|]. split; [vm_compute; reflexivity|]. split; [vm_compute; reflexivity|].
  split; [exists [], []; split; reflexivity|vm_compute; reflexivity].
Qed.

(* ---------------------------------------------------------------- C35 *)

(** Block row i of the product is the sum of its blocks times the parts of x; blocks never set
    contribute nothing. *)
Theorem C35_block_mult :
  forall (S : scalar), ring_laws S -> forall (ro co : list Z) (l : list (Z * Z * csr S)) (M : bmat S) (x out : list (car S)),
  offsets_ok ro -> offsets_ok co -> bm_built ro co l M -> zlen x = total co -> zlen out = total ro ->
  exists y, bm_mult M x out = Ok y /\ zlen y = total ro /\
    forall i k, 0 <= i < nblocks ro -> 0 <= k < bsize ro i ->
      vec_of y (ofs ro i + k) = sum_range 0 (nblocks co) (fun j =>
        mat_vec (csr_mat (last_set l i j sp_empty)) (bsize co j) (vpart co (vec_of x) j) k).
Proof. exact @built_mult. Qed.
Print Assumptions C35_block_mult.

(** For every arithmetic: exactly the product with the combined matrix. *)
Theorem C35_block_mult_is_combined :
  forall (S : scalar) (ro co : list Z) (l : list (Z * Z * csr S)) (M : bmat S),
  offsets_ok ro -> offsets_ok co -> bm_built ro co l M ->
  exists C, bm_combine M = Ok C /\ csr_valid C /\ forall x out, bm_mult M x out = sp_mult C x out.
Proof.
  intros S ro co l M Hro Hco HB. destruct (built_combine ro co l M Hro Hco HB) as (C & E & HV & _ & _ & HM & _). exists C. auto.
Qed.
Print Assumptions C35_block_mult_is_combined.

(** GetBlock returns what SetBlock stored last. *)
Theorem C35_blocks_read_back :
  forall (S : scalar) (ro co : list Z) (l : list (Z * Z * csr S)) (M : bmat S) (i j : Z),
  offsets_ok ro -> offsets_ok co -> bm_built ro co l M -> 0 <= i < nblocks ro -> 0 <= j < nblocks co ->
  bm_get_block M i j = Ok (last_set l i j sp_empty).
Proof. exact @built_blocks. Qed.
Print Assumptions C35_blocks_read_back.

Example C35_instance :
  offsets_ok exRo /\ offsets_ok exCo /\ bm_built exRo exCo exSets exM /\
  bm_mult exM [1; 2; 3; 4; 5] [0; 0; 0; 0; 0] = Ok [7; 6; 14; 15; 16] /\ last_set exSets 2 0 sp_empty = sp_empty.
Proof. split; [apply exRo_ok|]. split; [apply exCo_ok|]. split; [apply exM_built|]. split; vm_compute; reflexivity. Qed.

(* ---------------------------------------------------------------- C36 *)

Theorem C36_block_multAT :
  forall (S : scalar), ring_laws S -> forall (ro co : list Z) (l : list (Z * Z * csr S)) (M : bmat S) (x out : list (car S)),
  offsets_ok ro -> offsets_ok co -> bm_built ro co l M -> zlen x = total ro -> zlen out = total co ->
  exists y, bm_multAT M x out = Ok y /\ zlen y = total co /\
    forall j m, 0 <= j < nblocks co -> 0 <= m < bsize co j ->
      vec_of y (ofs co j + m) = sum_range 0 (nblocks ro) (fun i =>
        mat_vec (mat_T (csr_mat (last_set l i j sp_empty))) (bsize ro i) (vpart ro (vec_of x) i) m).
Proof. exact @built_multAT. Qed.
Print Assumptions C36_block_multAT.

Theorem C36_block_multAT_is_combined :
  forall (S : scalar) (ro co : list Z) (l : list (Z * Z * csr S)) (M : bmat S),
  offsets_ok ro -> offsets_ok co -> bm_built ro co l M ->
  exists C, bm_combine M = Ok C /\ csr_valid C /\ forall x out, bm_multAT M x out = sp_multAT C x out.
Proof.
  intros S ro co l M Hro Hco HB. destruct (built_combine ro co l M Hro Hco HB) as (C & E & HV & _ & _ & _ & HM & _). exists C. auto.
Qed.
Print Assumptions C36_block_multAT_is_combined.

Example C36_instance :
  offsets_ok exRo /\ offsets_ok exCo /\ bm_built exRo exCo exSets exM /\
  bm_multAT exM [1; 2; 3; 4; 5] [0; 0; 0; 0; 0] = Ok [1; 6; 2; 23; 18].
Proof. split; [apply exRo_ok|]. split; [apply exCo_ok|]. split; [apply exM_built|]. vm_compute; reflexivity. Qed.

(* ---------------------------------------------------------------- C37 *)

(** The stored entries of the combined matrix are those of the blocks, moved to the offsets. *)
Theorem C37_combine :
  forall (S : scalar) (ro co : list Z) (l : list (Z * Z * csr S)) (M : bmat S),
  offsets_ok ro -> offsets_ok co -> bm_built ro co l M ->
  exists C, bm_combine M = Ok C /\ csr_valid C /\ c_rows C = total ro /\ c_cols C = total co /\
    forall i j k m v, 0 <= i < nblocks ro -> 0 <= j < nblocks co -> 0 <= k < bsize ro i -> 0 <= m < bsize co j ->
      (In (ofs ro i + k, ofs co j + m, v) (entries C) <-> In (k, m, v) (entries (last_set l i j sp_empty))).
Proof.
  intros S ro co l M Hro Hco HB. destruct (built_combine ro co l M Hro Hco HB) as (C & E & HV & HR & HC & _ & _ & HE & _). exists C. auto.
Qed.
Print Assumptions C37_combine.

(** Row by row, in order, with duplicates. *)
Theorem C37_combine_rows :
  forall (S : scalar) (ro co : list Z) (l : list (Z * Z * csr S)) (M : bmat S),
  offsets_ok ro -> offsets_ok co -> bm_built ro co l M ->
  exists C, bm_combine M = Ok C /\
    forall i k, 0 <= i < nblocks ro -> 0 <= k < bsize ro i ->
      row_entries C (ofs ro i + k)
      = flat_map (fun j => map (fun e => (ofs ro i + k, ofs co j + ecol e, evalue e)) (row_entries (last_set l i j sp_empty) k)) (zrange 0 (nblocks co)).
Proof.
  intros S ro co l M Hro Hco HB. destruct (built_combine ro co l M Hro Hco HB) as (C & E & _ & _ & _ & _ & _ & _ & HE & _). exists C. auto.
Qed.
Print Assumptions C37_combine_rows.

Theorem C37_combine_values :
  forall (S : scalar), ring_laws S -> forall (ro co : list Z) (l : list (Z * Z * csr S)) (M : bmat S),
  offsets_ok ro -> offsets_ok co -> bm_built ro co l M ->
  exists C, bm_combine M = Ok C /\
    forall i j k m, 0 <= i < nblocks ro -> 0 <= j < nblocks co -> 0 <= k < bsize ro i -> 0 <= m < bsize co j ->
      csr_mat C (ofs ro i + k) (ofs co j + m) = csr_mat (last_set l i j sp_empty) k m.
Proof.
  intros S R ro co l M Hro Hco HB. destruct (built_combine ro co l M Hro Hco HB) as (C & E & _ & _ & _ & _ & _ & _ & _ & HE). exists C. auto.
Qed.
Print Assumptions C37_combine_values.

Example C37_instance :
  offsets_ok exRo /\ offsets_ok exCo /\ bm_built exRo exCo exSets exM /\
  bm_combine exM = Ok (@CSR Zs 5 5 [0; 2; 3; 5; 6; 7] [0; 2; 1; 3; 4; 4; 3] [1; 2; 3; 1; 2; 3; 4]).
Proof. split; [apply exRo_ok|]. split; [apply exCo_ok|]. split; [apply exM_built|]. vm_compute; reflexivity. Qed.

(* ---------------------------------------------------------------- C38 *)

(** The part that holds: when Transpose returns and every block is symmetric. *)
Theorem C38_transpose_partial :
  forall (S : scalar), ring_laws S -> forall (ro co : list Z) (l : list (Z * Z * csr S)) (M N : bmat S),
  offsets_ok ro -> offsets_ok co -> bm_built ro co l M ->
  (forall i j k m, 0 <= i < nblocks ro -> 0 <= j < nblocks co -> 0 <= k < bsize co j -> 0 <= m < bsize ro i ->
     csr_mat (last_set l i j sp_empty) k m = csr_mat (last_set l i j sp_empty) m k) ->
  bm_transpose M = Ok N ->
  bm_rows N = bm_cols M /\ bm_cols N = bm_rows M /\
  forall r c, 0 <= r < bm_cols M -> 0 <= c < bm_rows M -> bm_mat N r c = bm_mat M c r.
Proof. exact @built_transpose_values. Qed.
Print Assumptions C38_transpose_partial.

(** What Transpose does: block (j,i) of the result is block (i,j), not its transpose. *)
Theorem C38_transpose_copies_blocks_refuted :
  forall (S : scalar) (ro co : list Z) (l : list (Z * Z * csr S)) (M : bmat S),
  offsets_ok ro -> offsets_ok co -> bm_built ro co l M ->
  (forall i j, 0 <= i < nblocks ro -> 0 <= j < nblocks co ->
     c_rows (last_set l i j sp_empty) = bsize co j /\ c_cols (last_set l i j sp_empty) = bsize ro i) ->
  exists N, bm_transpose M = Ok N /\ bm_ro N = co /\ bm_co N = ro /\
    forall i j, 0 <= i < nblocks ro -> 0 <= j < nblocks co -> bm_get_block N j i = Ok (last_set l i j sp_empty).
Proof. exact @built_transpose. Qed.
Print Assumptions C38_transpose_copies_blocks_refuted.

(** It refuses every block matrix with a block that is not square or was never set. *)
Theorem C38_transpose_fails_refuted :
  forall (S : scalar) (ro co : list Z) (l : list (Z * Z * csr S)) (M : bmat S) (i j : Z),
  offsets_ok ro -> offsets_ok co -> bm_built ro co l M -> 0 <= i < nblocks ro -> 0 <= j < nblocks co ->
  ~ (c_rows (last_set l i j sp_empty) = bsize co j /\ c_cols (last_set l i j sp_empty) = bsize ro i) ->
  bm_transpose M = Fail FAssert.
Proof. exact @built_transpose_fails. Qed.
Print Assumptions C38_transpose_fails_refuted.

Definition exUp : csr Zs := @CSR Zs 2 2 [0; 1; 1] [1] [5].
Definition exUpM : bmat Zs := @BMat Zs 2 2 [0; 2] [0; 2] [[exUp]].
Lemma ex2_ok : offsets_ok [0; 2].
Proof. split; [discriminate|reflexivity|]. intros i Hi. change (nblocks [0; 2]) with 1 in Hi. assert (i = 0) as -> by lia. vm_compute. discriminate. Qed.
Lemma exUpM_built : bm_built [0; 2] [0; 2] [(0, 0, exUp)] exUpM.
Proof. split; [repeat first [apply Forall_nil|apply Forall_cons; [apply csr_validb_ok; vm_compute; reflexivity|]]|vm_compute; reflexivity]. Qed.

(** One 2 x 2 block with a single entry above the diagonal: the result is the same matrix. *)
Theorem C38_transpose_wrong_refuted :
  exists (M N : bmat Zs) (r c : Z), bm_built [0; 2] [0; 2] [(0, 0, exUp)] M /\ bm_transpose M = Ok N /\
    0 <= r < bm_cols M /\ 0 <= c < bm_rows M /\ bm_mat N r c <> bm_mat M c r.
Proof.
  exists exUpM, exUpM, 0, 1. split; [apply exUpM_built|]. split; [vm_compute; reflexivity|].
  split; [cbn; lia|]. split; [cbn; lia|]. vm_compute. discriminate.
Qed.
Print Assumptions C38_transpose_wrong_refuted.

Definition exSy : csr Zs := @CSR Zs 2 2 [0; 2; 3] [1; 0; 0] [5; 7; 5].
Definition exSyM : bmat Zs := @BMat Zs 2 4 [0; 2] [0; 2; 4] [[exSy; exSy]].
Example C38_instance :
  bm_built [0; 2] [0; 2; 4] [(0, 0, exSy); (0, 1, exSy)] exSyM /\
  (forall i j k m, 0 <= i < 1 -> 0 <= j < 2 -> 0 <= k < bsize [0; 2; 4] j -> 0 <= m < bsize [0; 2] i ->
     csr_mat (last_set [(0, 0, exSy); (0, 1, exSy)] i j sp_empty) k m = csr_mat (last_set [(0, 0, exSy); (0, 1, exSy)] i j sp_empty) m k) /\
  bm_transpose exSyM = Ok (@BMat Zs 4 2 [0; 2; 4] [0; 2] [[exSy]; [exSy]]) /\
  bm_transpose exM = Fail FAssert.
Proof.
  split; [split; [repeat first [apply Forall_nil|apply Forall_cons; [apply csr_validb_ok; vm_compute; reflexivity|]]|vm_compute; reflexivity]|].
  split; [|split; vm_compute; reflexivity].
  intros i j k m Hi Hj Hk Hm. assert (i = 0) as -> by lia. change (bsize [0; 2] 0) with 2 in Hm.
  assert (k = 0 \/ k = 1) as Hk' by (assert (j = 0 \/ j = 1) as [->| ->] by lia; [change (bsize [0; 2; 4] 0) with 2 in Hk|change (bsize [0; 2; 4] 1) with 2 in Hk]; lia).
  assert (m = 0 \/ m = 1) as Hm' by lia.
  assert (j = 0 \/ j = 1) as [->| ->] by lia; destruct Hk' as [->| ->], Hm' as [->| ->]; vm_compute; reflexivity.
Qed.

(* ---------------------------------------------------------------- C39 *)

(** In any state reached by earlier calls, entry k of block row i of Mult(x) is the sum, over
    the blocks that are set, of what block (i,j) computes from part j of x. *)
Theorem C39_mult_sums_blocks :
  forall (S : scalar) (W : Type) (I : W -> Prop) (ro co : list Z), offsets_ok ro -> offsets_ok co ->
  forall (w0 : W), I w0 -> forall (l : list (bcall S W)) (B : bop S W) (w : W) (u : bbuf S) (F G : Z -> Z -> list (car S) -> list (car S)) (x out : list (car S)),
  Forall (sane_call I) l -> bo_reached ro co w0 l (B, w, u) -> blocks_do I B F G -> zlen x = total co -> zlen out = total ro ->
  exists w' u' y, bo_mult B w u x out = Ok (w', u', y) /\ I w' /\ zlen y = total ro /\
    forall i k, 0 <= i < nblocks ro -> 0 <= k < bsize ro i -> vec_of y (ofs ro i + k) = bo_value B F x i k.
Proof. exact @reached_mult. Qed.
Print Assumptions C39_mult_sums_blocks.

Theorem C39_multAT_sums_blocks :
  forall (S : scalar) (W : Type) (I : W -> Prop) (ro co : list Z), offsets_ok ro -> offsets_ok co ->
  forall (w0 : W), I w0 -> forall (l : list (bcall S W)) (B : bop S W) (w : W) (u : bbuf S) (F G : Z -> Z -> list (car S) -> list (car S)) (x out : list (car S)),
  Forall (sane_call I) l -> bo_reached ro co w0 l (B, w, u) -> blocks_do I B F G -> zlen x = total ro -> zlen out = total co ->
  exists w' u' y, bo_multAT B w u x out = Ok (w', u', y) /\ I w' /\ zlen y = total co /\
    forall j m, 0 <= j < nblocks co -> 0 <= m < bsize co j -> vec_of y (ofs co j + m) = bo_valueAT B G x j m.
Proof. exact @reached_multAT. Qed.
Print Assumptions C39_multAT_sums_blocks.

(** Whatever was called before: the same result. *)
Theorem C39_mult_history_independent :
  forall (S : scalar) (W : Type) (I : W -> Prop) (ro co : list Z), offsets_ok ro -> offsets_ok co ->
  forall (w0 : W), I w0 -> forall (l1 l2 : list (bcall S W)) (B : bop S W) (w1 : W) (u1 : bbuf S) (w2 : W) (u2 : bbuf S) (x out1 out2 : list (car S)),
  Forall (sane_call I) l1 -> Forall (sane_call I) l2 -> bo_reached ro co w0 l1 (B, w1, u1) -> bo_reached ro co w0 l2 (B, w2, u2) ->
  zlen x = total co -> zlen out1 = total ro -> zlen out2 = total ro ->
  exists w1' u1' w2' u2' y, bo_mult B w1 u1 x out1 = Ok (w1', u1', y) /\ bo_mult B w2 u2 x out2 = Ok (w2', u2', y).
Proof. exact @reached_same. Qed.
Print Assumptions C39_mult_history_independent.

Theorem C39_multAT_history_independent :
  forall (S : scalar) (W : Type) (I : W -> Prop) (ro co : list Z), offsets_ok ro -> offsets_ok co ->
  forall (w0 : W), I w0 -> forall (l1 l2 : list (bcall S W)) (B : bop S W) (w1 : W) (u1 : bbuf S) (w2 : W) (u2 : bbuf S) (x out1 out2 : list (car S)),
  Forall (sane_call I) l1 -> Forall (sane_call I) l2 -> bo_reached ro co w0 l1 (B, w1, u1) -> bo_reached ro co w0 l2 (B, w2, u2) ->
  zlen x = total ro -> zlen out1 = total co -> zlen out2 = total co ->
  exists w1' u1' w2' u2' y, bo_multAT B w1 u1 x out1 = Ok (w1', u1', y) /\ bo_multAT B w2 u2 x out2 = Ok (w2', u2', y).
Proof. exact @reached_sameAT. Qed.
Print Assumptions C39_multAT_history_independent.

(** Linear blocks: Mult and MultAT are the products with the tiled matrix and its transpose,
    in every state of the buffers.  The result is an operator again, so block operators may
    contain block operators. *)
Theorem C39_block_operator_is_tiled_matrix :
  forall (S : scalar) (W : Type) (I : W -> Prop) (ro co : list Z), offsets_ok ro -> offsets_ok co ->
  forall (w0 : W), I w0 -> ring_laws S -> forall (l : list (bcall S W)) (B : bop S W) (w : W) (u : bbuf S) (A : Z -> Z -> mat S),
  Forall (sane_call I) l -> bo_reached ro co w0 l (B, w, u) ->
  (forall i j o, 0 <= i < nblocks ro -> 0 <= j < nblocks co -> last_op l i j None = Some o -> op_matrix I o (A i j)) ->
  I w /\ buf_ok B u /\
  op_matrix (fun s : W * bbuf S => I (fst s) /\ buf_ok B (snd s)) (bo_op B) (tile ro co (fun i j => opt_mat (last_op l i j None) (A i j))).
Proof. exact @reached_matrix. Qed.
Print Assumptions C39_block_operator_is_tiled_matrix.

(** The tiled matrix has entry (k,m) of block (i,j) at (offset_i + k, offset_j + m). *)
Theorem C39_tiled_matrix :
  forall (S : scalar), ring_laws S -> forall (ro co : list Z) (F : Z -> Z -> mat S) (i j k m : Z), offsets_ok ro -> offsets_ok co ->
  0 <= i < nblocks ro -> 0 <= j < nblocks co -> 0 <= k < bsize ro i -> 0 <= m < bsize co j ->
  tile ro co F (ofs ro i + k) (ofs co j + m) = F i j k m.
Proof. exact @tile_at. Qed.
Print Assumptions C39_tiled_matrix.

(** SparseMatrix and BlockMatrix are operators of this kind. *)
Theorem C39_sparse_matrix_operator :
  forall (S : scalar), ring_laws S -> forall (A : csr S), csr_valid A -> op_matrix (fun _ => True) (sp_op A) (csr_mat A).
Proof. exact @sp_op_matrix. Qed.
Print Assumptions C39_sparse_matrix_operator.

Theorem C39_block_matrix_operator :
  forall (S : scalar), ring_laws S -> forall (M : bmat S), bm_ok M -> op_matrix (fun _ => True) (bm_op M) (bm_mat M).
Proof. exact @bm_op_matrix. Qed.
Print Assumptions C39_block_matrix_operator.

(** A history: set two blocks, multiply, multiply transposed. *)
Definition exCalls : list (bcall Zs unit) :=
  [@CSet Zs unit 0 0 (sp_op ex00); @CSet Zs unit 2 1 (sp_op exB);
   @CMult Zs unit [1; 1; 1; 1; 1] [8; 8; 8; 8; 8]; @CMultAT Zs unit [2; 2; 2; 2; 2] [0; 0; 0; 0; 0]].
Definition exBop : bop Zs unit :=
  @BOp Zs unit 5 5 exRo exCo [[Some (sp_op ex00); None]; [None; None]; [None; Some (sp_op exB)]].
Example C39_instance :
  offsets_ok exRo /\ offsets_ok exCo /\ Forall (sane_call (fun _ => True)) exCalls /\
  (exists w u, bo_reached exRo exCo tt exCalls (exBop, w, u)) /\
  (exists F G, blocks_do (fun _ => True) exBop F G) /\
  (forall i j o, 0 <= i < nblocks exRo -> 0 <= j < nblocks exCo -> last_op exCalls i j None = Some o ->
     op_matrix (fun _ => True) o (csr_mat (if i =? 0 then ex00 else exB))) /\
  bm_ok exM /\
  (y <- bo_mult exBop tt (@BBuf Zs [3; 3; 3; 3; 3] [4; 4; 4; 4; 4] [6]) [1; 2; 3; 4; 5] [0; 0; 0; 0; 0] ;; Ok (snd y)) = Ok [7; 6; 14; 15; 16].
Proof.
  split; [apply exRo_ok|]. split; [apply exCo_ok|]. split.
  { repeat first [apply Forall_nil|apply Forall_cons; [first [exact Logic.I|eexists _, _; apply (sp_op_matrix Zs_ring); first [exact ex00_valid|exact exB_valid]]|]]. }
  split; [eexists _, _; vm_compute; reflexivity|].
  assert (Hop : forall i j o, 0 <= i < 3 -> 0 <= j < 2 -> bo_block exBop i j = Some o -> op_matrix (fun _ => True) o (csr_mat (if i =? 0 then ex00 else exB))).
  { intros i j o Hi Hj E. assert (i = 0 \/ i = 1 \/ i = 2) as [->|[->| ->]] by lia; assert (j = 0 \/ j = 1) as [->| ->] by lia; cbn in E; try discriminate; injection E as <-; apply (sp_op_matrix Zs_ring); first [apply ex00_valid|apply exB_valid]. }
  split.
  { apply all_do_choice. intros i j o Hi Hj E. eexists _, _. apply (Hop i j o Hi Hj E). }
  split.
  { intros i j o Hi Hj E. apply (Hop i j o Hi Hj). change (nblocks exRo) with 3 in Hi. change (nblocks exCo) with 2 in Hj. rewrite <- E.
    assert (i = 0 \/ i = 1 \/ i = 2) as [->|[->| ->]] by lia; assert (j = 0 \/ j = 1) as [->| ->] by lia; reflexivity. }
  split; [apply (built_ok exRo exCo exSets exM exRo_ok exCo_ok exM_built)|]. vm_compute. reflexivity.
Qed.

(* ---------------------------------------------------------------- C21 (block types) *)

Theorem C21_block_matrix_adjoint :
  forall (S : scalar), ring_laws S -> forall (ro co : list Z) (l : list (Z * Z * csr S)) (M : bmat S) (x y out1 out2 u v : list (car S)),
  offsets_ok ro -> offsets_ok co -> bm_built ro co l M -> bm_mult M x out1 = Ok u -> bm_multAT M y out2 = Ok v ->
  inner (total ro) (vec_of u) (vec_of y) = inner (total co) (vec_of x) (vec_of v).
Proof. exact @built_adjoint. Qed.
Print Assumptions C21_block_matrix_adjoint.

(** For any operator that represents a matrix, in particular block operators (C39). *)
Theorem C21_operator_adjoint :
  forall (S : scalar) (W : Type), ring_laws S -> forall (I : W -> Prop) (o : op S W) (A : mat S) (w1 w2 w1' w2' : W) (x y out1 out2 u v : list (car S)),
  op_matrix I o A -> I w1 -> I w2 -> zlen x = o_cols o -> zlen y = o_rows o -> zlen out1 = o_rows o -> zlen out2 = o_cols o ->
  o_mult o w1 x out1 = Ok (w1', u) -> o_multAT o w2 y out2 = Ok (w2', v) ->
  inner (o_rows o) (vec_of u) (vec_of y) = inner (o_cols o) (vec_of x) (vec_of v).
Proof. exact @op_matrix_adjoint. Qed.
Print Assumptions C21_operator_adjoint.

(* ---------------------------------------------------------------- C73 *)

(** The overloads that resize or allocate the output return what Mult computes, whatever the
    output was. *)
Theorem C73_mult_overloads :
  forall (S : scalar) (W : Type) (I : W -> Prop) (o : op S W) (f g : list (car S) -> list (car S)) (w : W) (x out : list (car S)),
  op_does I o f g -> I w -> zlen x = o_cols o ->
  exists w1 w2, op_mult_vec o w x out = Ok (w1, f x) /\ op_mult_new o w x = Ok (w2, f x).
Proof. exact @overloads_agree. Qed.
Print Assumptions C73_mult_overloads.

Theorem C73_multAT_overloads :
  forall (S : scalar) (W : Type) (I : W -> Prop) (o : op S W) (f g : list (car S) -> list (car S)) (w : W) (x out : list (car S)),
  op_does I o f g -> I w -> zlen x = o_rows o ->
  exists w1 w2, op_multAT_vec o w x out = Ok (w1, g x) /\ op_multAT_new o w x = Ok (w2, g x).
Proof. exact @overloadsAT_agree. Qed.
Print Assumptions C73_multAT_overloads.

(** InnerProduct(x, y) = <y, A x> *)
Theorem C73_inner_product :
  forall (S : scalar), ring_laws S -> forall (W : Type) (I : W -> Prop) (o : op S W) (A : mat S) (w : W) (x y : list (car S)),
  op_matrix I o A -> I w -> zlen x = o_cols o -> zlen y = o_rows o ->
  exists w', op_inner o w x y = Ok (w', inner (o_rows o) (vec_of y) (mat_vec A (o_cols o) (vec_of x))) /\ I w'.
Proof. exact @inner_matrix. Qed.
Print Assumptions C73_inner_product.

Example C73_instance :
  op_matrix (fun _ => True) (sp_op exB) (csr_mat exB) /\
  op_mult_vec (sp_op exB) tt [1; 2] [9; 9; 9; 9; 9] = Ok (tt, [5; 6; 4]) /\
  op_inner (sp_op exB) tt [1; 2] [1; 1; 2] = Ok (tt, 19).
Proof. split; [apply (sp_op_matrix Zs_ring), exB_valid|]. split; vm_compute; reflexivity. Qed.
