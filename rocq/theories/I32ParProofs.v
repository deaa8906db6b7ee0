(** Proofs about the arithmetic on int of the parallel module. *)

From Coq Require Import ZArith List Bool Lia.
From Verif Require Import Base Scalar Spec Dense Sparse Coo Par HypreOps ParSpec ParProofs ParLinks I32 I32Par LifeProofs I32Proofs.
Import ListNotations.
Open Scope Z_scope.

Lemma range_ok rows n ii : 0 <= rows <= int_max -> 1 <= n <= int_max -> 0 <= ii < n -> thread_range_i rows n ii = Ok (thread_range rows n ii).
Proof.
  intros Hr Hn Hi. unfold thread_range_i, thread_range. cbv zeta. set (size := Z.quot rows n).
  assert (Hq : rows = n * size + Z.rem rows n) by (apply Z.quot_rem'). pose proof (Z.rem_bound_pos rows n ltac:(lia) ltac:(lia)) as Hm.
  assert (Hs : 0 <= size) by (apply Z.quot_pos; lia). set (m := Z.rem rows n) in *. clearbody size m.
  assert (H1 : 0 <= ii * size) by nia. assert (H2 : (ii + 1) * size <= n * size) by nia. assert (H3 : ii * size <= (ii + 1) * size) by nia. rewrite (Z.mul_comm n size) in *.
  rewrite (i32_ok (size * n)) by (apply int_range; lia). cbn [bind]. replace (rows - size * n) with m by lia.
  rewrite (i32_ok m) by (apply int_range; lia). cbn [bind].
  destruct (Z.ltb_spec ii m).
  - rewrite (i32_ok (ii * size)) by (apply int_range; lia). cbn [bind]. rewrite (i32_ok (ii * size + ii)) by (apply int_range; lia). cbn [bind].
    rewrite (i32_ok (ii + 1)) by (apply int_range; lia). cbn [bind]. rewrite (i32_ok ((ii + 1) * size)) by (apply int_range; lia). cbn [bind].
    rewrite (i32_ok ((ii + 1) * size + ii)) by (apply int_range; lia). cbn [bind]. rewrite (i32_ok ((ii + 1) * size + ii + 1)) by (apply int_range; lia). reflexivity.
  - rewrite (i32_ok (ii * size)) by (apply int_range; lia). cbn [bind]. rewrite (i32_ok (ii * size + m)) by (apply int_range; lia). cbn [bind].
    rewrite (i32_ok (ii + 1)) by (apply int_range; lia). cbn [bind]. rewrite (i32_ok ((ii + 1) * size)) by (apply int_range; lia). cbn [bind].
    rewrite (i32_ok ((ii + 1) * size + m)) by (apply int_range; lia). reflexivity.
Qed.

Lemma first_cons x l r : 0 <= r -> first_of (x :: l) (r + 1) = x + first_of l r.
Proof.
  intros H. revert r H. apply natlike_ind; [rewrite (first_of_S (x :: l) 0), !first_of_0 by lia; unfold zn; cbn [Z.to_nat nth]; lia|]. intros r Hr IH. unfold Z.succ. rewrite first_of_S by lia. rewrite IH, first_of_S by lia.
  assert (E : zn 0 (x :: l) (r + 1) = zn 0 l r) by (unfold zn; rewrite Z2Nat.inj_add by lia; rewrite Nat.add_comm; reflexivity). lia.
Qed.

Lemma first_total l : first_of l (zlen l) = I32Proofs.zsum l.
Proof.
  induction l as [|x l IH]; [reflexivity|]. rewrite zlen_cons. cbn [I32Proofs.zsum]. pose proof (zlen_nonneg l). rewrite first_cons by lia. now rewrite IH.
Qed.

Lemma zn_partial_sum l : forall a r, 0 <= r < zlen l -> zn 0 (partial_sum_from a l) r = a + first_of l (r + 1).
Proof.
  induction l as [|x l IH]; intros a r Hr; [unfold zlen in Hr; cbn in Hr; lia|]. cbn [partial_sum_from]. rewrite zlen_cons in Hr. rewrite first_cons by lia.
  destruct (Z.eq_dec r 0) as [->|]; [rewrite first_of_0; unfold zn; cbn [Z.to_nat nth]; lia|].
  replace (zn 0 (a + x :: partial_sum_from (a + x) l) r) with (zn 0 (partial_sum_from (a + x) l) (r - 1))
    by (unfold zn; replace (Z.to_nat r) with (S (Z.to_nat (r - 1))) by lia; reflexivity).
  rewrite IH by lia. replace (r - 1 + 1) with r by lia. lia.
Qed.

Lemma first_mono l r k : I32Proofs.nonneg l -> 0 <= r <= k -> k <= zlen l -> 0 <= first_of l r <= first_of l k.
Proof.
  intros N Hr Hk. assert (P : forall i, 0 <= i < zlen l -> 0 <= zn 0 l i) by (intros i Hi; apply N; now apply zn_In).
  split; [|apply zsum_le; [exact Hr|intros i Hi; apply P; lia]]. rewrite <- (first_of_0 l). apply zsum_le; [lia|]. intros i Hi. apply P. lia.
Qed.

Lemma offsets_ok sizes : 0 < zlen sizes -> (forall s, In s sizes -> 0 <= s) ->
  (first_of sizes (zlen sizes) <= int_max -> generate_offsets1_i sizes = generate_offsets1 sizes) /\
  (int_max < first_of sizes (zlen sizes) -> generate_offsets1_i sizes = Fail FUB).
Proof.
  intros Hp N. destruct (partial_sum_ok sizes 0 ltac:(lia) N) as (P1 & P2). rewrite first_total. split; intros H; unfold generate_offsets1_i.
  - rewrite P1 by lia. cbn [bind]. rewrite (get_ok 0) by (rewrite zlen_partial_sum; lia). cbn [bind]. rewrite generate_offsets1_ok by exact Hp.
    apply ranks_ok. intros r Hr. rewrite (get_ok 0) by (rewrite zlen_partial_sum; lia). cbn [bind]. rewrite (get_ok 0) by lia. cbn [bind].
    rewrite !zn_partial_sum by lia. replace (zlen sizes - 1 + 1) with (zlen sizes) by lia. rewrite !Z.add_0_l.
    replace (first_of sizes (r + 1) - zn 0 sizes r) with (first_of sizes r) by (rewrite first_of_S; lia).
    pose proof (first_mono sizes r (zlen sizes) N ltac:(lia) ltac:(lia)) as M. rewrite first_total in M.
    rewrite i32_ok by (apply int_range; lia). reflexivity.
  - rewrite P2 by (unfold int_max in *; lia). reflexivity.
Qed.
