(** C100: products and sums of doubles are the exact ones up to rounding errors of a known size. *)

From Coq Require Import ZArith Reals List Lia Lra Floats.SpecFloat.
From Flocq Require Import Core.
From Verif Require Import Base Scalar ScalarR Spec Double RoundSpec RoundSumSpec RoundProofs RoundProduct RoundSum Sparse Coo CooSpec Dense Vec VecSpec Par ParSpec ParExamples ParVec ParVecSpec RoundWorldSpec RoundWorld RoundNormSpec RoundNorm RoundNormWorldSpec RoundNormWorld.
Import ListNotations.

Theorem C100_sparse_mult :
  forall (A : csr SFs) (x out : list spec_float),
  csr_valid A -> zlen x = c_cols A -> zlen out = c_rows A -> Forall double (c_val A) -> Forall double x ->
  exists y, sp_mult A x out = Ok y /\ zlen y = c_rows A /\
    forall i, (0 <= i < c_rows A)%Z -> accurate_row (entries A) (c_cols A) (vec_of (S := SFs) x) i (vec_of (S := SFs) y i).
Proof. exact sp_mult_rounds. Qed.
Print Assumptions C100_sparse_mult.

Theorem C100_sparse_multAT :
  forall (A : csr SFs) (x out : list spec_float),
  csr_valid A -> zlen x = c_rows A -> zlen out = c_cols A -> Forall double (c_val A) -> Forall double x ->
  exists y, sp_multAT A x out = Ok y /\ zlen y = c_cols A /\
    forall j, (0 <= j < c_cols A)%Z -> accurate_col (entries A) (c_rows A) (vec_of (S := SFs) x) j (vec_of (S := SFs) y j).
Proof. exact sp_multAT_rounds. Qed.
Print Assumptions C100_sparse_multAT.

Theorem C100_sparse_dense :
  forall (A : csr SFs) (X out : dense SFs),
  csr_valid A -> dense_ok X -> d_rows X = c_cols A -> Forall double (c_val A) -> Forall double (d_data X) ->
  exists D, sp_mult_dense A X out = Ok D /\ dense_ok D /\ d_rows D = c_rows A /\ d_cols D = d_cols X /\
    forall i k, (0 <= i < c_rows A)%Z -> (0 <= k < d_cols X)%Z -> accurate_row (entries A) (c_cols A) (fun j => dense_mat X j k) i (dense_mat D i k).
Proof. exact sp_mult_dense_rounds. Qed.
Print Assumptions C100_sparse_dense.

Theorem C100_sparse_denseAT :
  forall (A : csr SFs) (X out : dense SFs),
  csr_valid A -> dense_ok X -> d_rows X = c_rows A -> Forall double (c_val A) -> Forall double (d_data X) ->
  exists D, sp_multAT_dense A X out = Ok D /\ dense_ok D /\ d_rows D = c_cols A /\ d_cols D = d_cols X /\
    forall j k, (0 <= j < c_cols A)%Z -> (0 <= k < d_cols X)%Z -> accurate_col (entries A) (c_rows A) (fun i => dense_mat X i k) j (dense_mat D j k).
Proof. exact sp_multAT_dense_rounds. Qed.
Print Assumptions C100_sparse_denseAT.

Theorem C100_sparse_denseCT :
  forall (A : csr SFs) (X out : dense SFs),
  csr_valid A -> dense_ok X -> d_rows X = c_cols A -> Forall double (c_val A) -> Forall double (d_data X) ->
  exists D, sp_multCT_dense A X out = Ok D /\ dense_ok D /\ d_rows D = d_cols X /\ d_cols D = c_rows A /\
    forall i k, (0 <= i < c_rows A)%Z -> (0 <= k < d_cols X)%Z -> accurate_row (entries A) (c_cols A) (fun j => dense_mat X j k) i (dense_mat D k i).
Proof. exact sp_multCT_dense_rounds. Qed.
Print Assumptions C100_sparse_denseCT.

(** The product of two sparse matrices has an entry where two entries meet, and its value is the rounded sum. *)
Theorem C100_sparse_product :
  forall A B : csr SFs,
  csr_valid A -> csr_valid B -> c_rows B = c_cols A -> Forall double (c_val A) -> Forall double (c_val B) ->
  exists C, sp_spmult A B = Ok C /\ csr_valid C /\ c_rows C = c_rows A /\ c_cols C = c_cols B /\ no_dup_coords (entries C) /\
    (forall i j, (exists v, In (i, j, v) (entries C)) <-> filter (meet i j) (list_prod (entries A) (entries B)) <> []) /\
    forall i j v, In (i, j, v) (entries C) -> accurate_product (entries A) (entries B) (c_cols A) i j v.
Proof. exact sp_spmult_rounds. Qed.
Print Assumptions C100_sparse_product.

Theorem C100_coo_mult :
  forall (M : coo SFs) (x out : list spec_float),
  coo_ok M -> o_set M = true -> zlen x = o_cols M -> zlen out = o_rows M ->
  (forall e : entry SFs, In e (o_entries M) -> double (evalue (S := SFs) e)) -> Forall double x ->
  exists y, coo_mult M x out = Ok y /\ zlen y = o_rows M /\
    forall i, (0 <= i < o_rows M)%Z -> accurate_row (o_entries M) (o_cols M) (vec_of (S := SFs) x) i (vec_of (S := SFs) y i).
Proof. exact coo_mult_rounds. Qed.
Print Assumptions C100_coo_mult.

Theorem C100_dense_mult :
  forall (D : dense SFs) (x out : list spec_float),
  dense_ok D -> zlen x = d_cols D -> zlen out = d_rows D -> Forall double (d_data D) -> Forall double x ->
  exists y, d_mult D x out = Ok y /\ zlen y = d_rows D /\
    forall i, (0 <= i < d_rows D)%Z -> accurate_sum (d_cols D) (dense_mat D i) (vec_of (S := SFs) x) (vec_of (S := SFs) y i).
Proof. exact d_mult_rounds. Qed.
Print Assumptions C100_dense_mult.

Theorem C100_dense_multAT :
  forall (D : dense SFs) (x out : list spec_float),
  dense_ok D -> zlen x = d_rows D -> zlen out = d_cols D -> Forall double (d_data D) -> Forall double x ->
  exists y, d_multAT D x out = Ok y /\ zlen y = d_cols D /\
    forall j, (0 <= j < d_cols D)%Z -> accurate_sum (d_rows D) (fun i => dense_mat D i j) (vec_of (S := SFs) x) (vec_of (S := SFs) y j).
Proof. exact d_multAT_rounds. Qed.
Print Assumptions C100_dense_multAT.

Theorem C100_inner :
  forall (h : heap SFs) (v w : view),
  view_ok h v -> view_ok h w -> v_len w = v_len v ->
  (forall k, (0 <= k < v_len v)%Z -> double (vat h v k) /\ double (vat h w k)) ->
  exists p, v_inner h v w = Ok p /\ accurate_sum (v_len v) (vat h v) (vat h w) p.
Proof. exact v_inner_rounds. Qed.
Print Assumptions C100_inner.

(** Sum of a vector and of a matrix: the bound has one factor less, and no term for underflow. *)
Theorem C100_sum :
  forall (h : heap SFs) (v : view),
  view_ok h v -> (forall k, (0 <= k < v_len v)%Z -> double (vat h v k)) ->
  exists p, v_sum h v = Ok p /\ accurate_total (v_len v) (vat h v) p.
Proof. exact v_sum_rounds. Qed.
Print Assumptions C100_sum.

Theorem C100_dense_sum :
  forall A : dense SFs,
  (0 < zlen (d_data A))%Z -> Forall double (d_data A) ->
  exists p, d_sum A = Ok p /\ accurate_total (zlen (d_data A)) (vec_of (S := SFs) (d_data A)) p.
Proof. exact d_sum_rounds. Qed.
Print Assumptions C100_dense_sum.

(** L2Norm, with the square root of IEEE 754 *)
Theorem C100_norm :
  forall (h : heap SFs) (x : view),
  view_ok h x -> (forall k, (0 <= k < v_len x)%Z -> double (vat h x k)) ->
  exists y, v_l2norm (S := SFs) (SFsqrt 53 1024) h x = Ok y /\ accurate_norm (v_len x) (vat h x) y.
Proof. exact v_l2norm_rounds. Qed.
Print Assumptions C100_norm.

(** InnerProduct of ParVectors: whatever order the communication adds the ranks' results in (the ranks may even get
    different results), every rank's result is off by no more than n + ranks - 1 roundings allow, n being the longest part. *)
Theorem C100_distributed_inner :
  forall (red : allreduce (S := SFs)) (ws : list (heap SFs * view * view)) (n : nat),
  sums red -> ws <> [] -> same_layout ws ->
  (forall h x y, In (h, x, y) ws -> (v_len x <= Z.of_nat n)%Z /\ all_xy double (h, x, y)) ->
  exists ps, inner_product_of Dist red ws = Ok ps /\ zlen ps = zlen ws /\
    forall r, (0 <= r < zlen ws)%Z ->
    rounded (n + (length ws - 1)) (INR (length ws) * INR n) (over_ranks local_inner ws) (over_ranks local_inner_size ws)
      (forall w, In w ws -> all_xy finite w) (forall w, In w ws -> all_xy integral w) (vec_of (S := SFs) ps r).
Proof. exact par_inner_rounds. Qed.
Print Assumptions C100_distributed_inner.

(** GlobalSum: n + ranks - 2 roundings and no underflow term. *)
Theorem C100_distributed_sum :
  forall (red : allreduce (S := SFs)) (ws : list (heap SFs * view)) (n : nat),
  sums red -> ws <> [] -> (forall h x, In (h, x) ws -> view_ok h x) ->
  (forall h x, In (h, x) ws -> (v_len x <= Z.of_nat n)%Z /\ all_x double (h, x)) ->
  exists ps, par_sum red ws = Ok ps /\ zlen ps = zlen ws /\
    forall r, (0 <= r < zlen ws)%Z ->
    rounded (n - 1 + (length ws - 1)) 0 (over_ranks local_total ws) (over_ranks local_total_size ws)
      (forall w, In w ws -> all_x finite w) (forall w, In w ws -> all_x integral w) (vec_of (S := SFs) ps r).
Proof. exact par_total_rounds. Qed.
Print Assumptions C100_distributed_sum.

(** L2Norm of a ParVector *)
Theorem C100_distributed_norm :
  forall (red : allreduce (S := SFs)) (ws : list (heap SFs * view)) (n : nat),
  sums red -> ws <> [] -> (forall h x, In (h, x) ws -> view_ok h x) ->
  (forall h x, In (h, x) ws -> (v_len x <= Z.of_nat n)%Z /\ all_x double (h, x)) ->
  exists ys, l2norm_of (S := SFs) Dist red (SFsqrt 53 1024) ws = Ok ys /\ zlen ys = zlen ws /\
    forall r, (0 <= r < zlen ws)%Z ->
    rounded_norm (n + (length ws - 1)) (INR (length ws) * INR n) (over_ranks local_squares ws) (forall w, In w ws -> all_x finite w) (vec_of (S := SFs) ys r).
Proof. exact l2norm_dist_rounds. Qed.
Print Assumptions C100_distributed_norm.

(** The factor in the bound is the usual one, and overflow needs large numbers. *)
Theorem C100_factor :
  forall n : nat, (INR n * unit_roundoff < 1 -> (1 + unit_roundoff) ^ n - 1 <= INR n * unit_roundoff / (1 - INR n * unit_roundoff))%R.
Proof. exact gamma_bound. Qed.
Print Assumptions C100_factor.

Theorem C100_no_overflow :
  forall (n : nat) (a : R), (INR n * unit_roundoff <= / 2 -> a <= bpow radix2 1022 -> no_overflow n a)%R.
Proof. exact small_in_range. Qed.
Print Assumptions C100_no_overflow.

(** [ 0.1 0.2 ] times (1, 3) is 0.7000000000000001; rows (2^53, 1, -2^53) and (2^53, -2^53, 1) give 0 and 1 with (1, 1, 1). *)
Definition e01 : spec_float := S754_finite false 7205759403792794 (-56).
Definition e02 : spec_float := S754_finite false 7205759403792794 (-55).
Definition e1 : spec_float := S754_finite false 4503599627370496 (-52).
Definition e3 : spec_float := S754_finite false 6755399441055744 (-51).
Definition eb : spec_float := S754_finite false 4503599627370496 1.
Definition exE : csr SFs := @CSR SFs 3 3 [0; 2; 5; 8]%Z [0; 1; 0; 1; 2; 0; 2; 1]%Z [e01; e02; eb; e1; SFopp eb; eb; SFopp eb; e1].

Definition exG : csr SFs := @CSR SFs 3 1 [0; 1; 2; 3]%Z [0; 0; 0]%Z [e1; e3; e1].

Example C100_instance :
  csr_valid exE /\ Forall double (c_val exE) /\ Forall double [e1; e3; e1] /\ Forall finite (c_val exE) /\
  sp_mult exE [e1; e3; e1] [e1; e1; e1] = Ok [S754_finite false 6305039478318695 (-53); S754_finite false 4503599627370496 (-50); e3] /\
  sp_mult exE [e1; e1; e1] [e1; e1; e1] = Ok [S754_finite false 5404319552844596 (-54); S754_zero false; e1] /\
  (exists C, sp_spmult exE exG = Ok C /\ c_ptr C = [0; 1; 2; 3]%Z /\ c_idx C = [0; 0; 0]%Z /\
     c_val C = [S754_finite false 6305039478318695 (-53); S754_finite false 4503599627370496 (-50); e3]) /\
  integral e3 /\ rv e3 = 3%R /\ no_overflow 3 1000%R.
Proof.
  assert (P : forall x m e, x = S754_finite false m e -> rv x = (IZR (Zpos m) * bpow radix2 e)%R) by (intros x m e ->; reflexivity).
  assert (E3 : rv e3 = 3%R). { rewrite (P e3 _ _ eq_refl). change (bpow radix2 (-51)) with (/ IZR 2251799813685248)%R. field. }
  split; [|split; [|split; [|split; [|split; [|split; [|split; [|split; [|split]]]]]]]].
  - split; try (vm_compute; congruence); try reflexivity.
    + intros i Hi. assert (C : (i = 0 \/ i = 1 \/ i = 2)%Z) by (change (c_rows exE) with 3%Z in Hi; lia). destruct C as [->|[->| ->]]; vm_compute; congruence.
    + intros k Hk. assert (C : (k = 0 \/ k = 1 \/ k = 2 \/ k = 3 \/ k = 4 \/ k = 5 \/ k = 6 \/ k = 7)%Z) by (change (zlen (c_idx exE)) with 8%Z in Hk; lia).
      destruct C as [->|[->|[->|[->|[->|[->|[->| ->]]]]]]]; vm_compute; split; congruence.
  - repeat constructor.
  - repeat constructor.
  - repeat constructor.
  - vm_compute. reflexivity.
  - vm_compute. reflexivity.
  - assert (E : match sp_spmult exE exG with Ok C => (c_ptr C, c_idx C, c_val C) | Fail _ => ([], [], []) end =
      ([0; 1; 2; 3]%Z, [0; 0; 0]%Z, [S754_finite false 6305039478318695 (-53); S754_finite false 4503599627370496 (-50); e3])) by (vm_compute; reflexivity).
    destruct (sp_spmult exE exG) as [C|]; [|discriminate E]. exists C. split; [reflexivity|]. now inversion E.
  - split; [reflexivity|]. exists 3%Z. exact E3.
  - exact E3.
  - apply small_in_range.
    + simpl (INR 3). unfold unit_roundoff. change (bpow radix2 (-53)) with (/ IZR 9007199254740992)%R. lra.
    + apply Rle_trans with (bpow radix2 10); [change (bpow radix2 10) with (IZR 1024); lra|]. apply bpow_le. lia.
Qed.

Example C100_sum_instance :
  let h : heap SFs := [Some (@Vec.Block SFs [e01; e02; e01] 3%Z)] in
  view_ok h (View 0 0 3) /\ (forall k, (0 <= k < 3)%Z -> double (vat h (View 0 0 3) k)) /\
  v_sum h (View 0 0 3) = Ok (S754_finite false 7205759403792794 (-54)) /\
  d_sum (@Dense SFs 1 3 [eb; e1; SFopp eb]) = Ok (S754_zero false) /\
  d_sum (@Dense SFs 1 3 [eb; SFopp eb; e1]) = Ok e1.
Proof.
  cbv zeta. split; [split; [cbn; lia|right; eexists; split; [reflexivity|unfold zlen; cbn; lia]]|].
  split; [|repeat split; vm_compute; reflexivity].
  intros k Hk. assert (C : (k = 0 \/ k = 1 \/ k = 2)%Z) by lia. destruct C as [->|[->| ->]]; vm_compute; reflexivity.
Qed.

(** Two ranks with (0.1, 0.2) and (3): the parts of x; y is x. *)
Example C100_distributed_instance :
  let w (l : list spec_float) : heap SFs * view * view := ([Some (@Vec.Block SFs l (zlen l))], View 0 0 (zlen l), View 0 0 (zlen l)) in
  let ws := [w [e01; e02]; w [e3]] in
  sums (@left_sum SFs) /\ same_layout ws /\
  (forall h x y, In (h, x, y) ws -> (v_len x <= Z.of_nat 2)%Z /\ all_xy double (h, x, y)) /\
  inner_product_of Dist left_sum ws = Ok [S754_finite false 5094697078462874 (-49); S754_finite false 5094697078462874 (-49)] /\
  par_sum left_sum (map fst ws) = Ok [S754_finite false 7430939385161318 (-51); S754_finite false 7430939385161318 (-51)].
Proof.
  cbv zeta. split; [exact left_sum_ok|]. split.
  - intros h x y [Q|[Q|[]]]; injection Q as <- <- <-; (split; [|split; [|reflexivity]]); (split; [unfold zlen; cbn; lia|right; eexists; split; [reflexivity|unfold zlen; cbn; lia]]).
  - split; [|split; vm_compute; reflexivity].
    intros h x y [Q|[Q|[]]]; injection Q as <- <- <-; (split; [unfold zlen; cbn; lia|]); intros k Hk.
    + assert (C : (k = 0 \/ k = 1)%Z) by (unfold zlen in Hk; cbn in Hk; lia). destruct C as [->| ->]; split; vm_compute; reflexivity.
    + assert (C : (k = 0)%Z) by (unfold zlen in Hk; cbn in Hk; lia). rewrite C. split; vm_compute; reflexivity.
Qed.

(** The norms of (3, 3, 3, 3) and of (0.1, 0.2): 6 and 0.223606797749979 *)
Example C100_norm_instance :
  let h : heap SFs := [Some (@Vec.Block SFs [e3; e3; e3; e3] 4%Z); Some (@Vec.Block SFs [e01; e02] 2%Z)] in
  view_ok h (View 0 0 4) /\ (forall k, (0 <= k < 4)%Z -> double (vat h (View 0 0 4) k)) /\
  v_l2norm (S := SFs) (SFsqrt 53 1024) h (View 0 0 4) = Ok (S754_finite false 6755399441055744 (-50)) /\
  v_l2norm (S := SFs) (SFsqrt 53 1024) h (View 1 0 2) = Ok (S754_finite false 8056283928194522 (-55)).
Proof.
  cbv zeta. split; [split; [cbn; lia|right; eexists; split; [reflexivity|unfold zlen; cbn; lia]]|].
  split; [|split; vm_compute; reflexivity].
  intros k Hk. assert (C : (k = 0 \/ k = 1 \/ k = 2 \/ k = 3)%Z) by lia. destruct C as [->|[->|[->| ->]]]; vm_compute; reflexivity.
Qed.

(** Two ranks with (3, 3) and (3, 3): the norm is 6 on both. *)
Example C100_distributed_norm_instance :
  let w : heap SFs * view := ([Some (@Vec.Block SFs [e3; e3] 2%Z)], View 0 0 2) in
  (forall h x, In (h, x) [w; w] -> view_ok h x) /\ (forall h x, In (h, x) [w; w] -> (v_len x <= Z.of_nat 2)%Z /\ all_x double (h, x)) /\
  l2norm_of (S := SFs) Dist left_sum (SFsqrt 53 1024) [w; w] = Ok [S754_finite false 6755399441055744 (-50); S754_finite false 6755399441055744 (-50)].
Proof.
  cbv zeta. split; [|split; [|vm_compute; reflexivity]].
  - intros h x [Q|[Q|[]]]; injection Q as <- <-; (split; [cbn; lia|right; eexists; split; [reflexivity|unfold zlen; cbn; lia]]).
  - intros h x [Q|[Q|[]]]; injection Q as <- <-; (split; [cbn; lia|]); intros k Hk; assert (C : (k = 0 \/ k = 1)%Z) by (cbn in Hk; lia); destruct C as [->| ->]; vm_compute; reflexivity.
Qed.
