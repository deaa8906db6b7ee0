(** The LU factorisation of doubles, and the solve with it. *)

From Coq Require Import ZArith Reals List Bool Lia Lra Floats.SpecFloat.
From Flocq Require Import Core BinarySingleNaN.
From Verif Require Import Base Scalar ScalarR Spec SumFacts LoopFacts Dense DenseFacts Double RoundSpec RoundFacts RoundProofs RoundTriFacts RoundTriSpec LuQr LuQrSpec LuProofs RoundTri.
Import ListNotations.
Open Scope R_scope.

Lemma rv_one : rv (@s1 SFs) = 1.
Proof. unfold rv, SF2R. cbn. unfold F2R. cbn. lra. Qed.
Lemma double_one : double (@s1 SFs).
Proof. unfold double. cbn. reflexivity. Qed.

(** Doubles at every position are doubles everywhere *)
Lemma dense_all_double m n (D : dense SFs) : is_dense m n D -> (forall i j, (0 <= i < m)%Z -> (0 <= j < n)%Z -> double (at_ D i j)) -> Forall double (d_data D).
Proof.
  intros ((H1 & H2 & H3) & Hm & Hn) H. subst m n. rewrite Forall_forall. intros v I. apply In_zn with (d := @s0 SFs) in I. destruct I as (k & Hk & <-).
  change (@zlen spec_float (d_data D)) with (@zlen (car SFs) (d_data D)) in Hk. rewrite H3 in Hk. assert (HR : (0 < d_rows D)%Z) by nia.
  pose proof (Z.div_mod k (d_rows D) ltac:(lia)) as E. pose proof (Z.mod_pos_bound k (d_rows D) HR) as B.
  replace k with (k mod d_rows D + k / d_rows D * d_rows D)%Z by lia. apply H; [exact B|]. split; [apply Z.div_pos; lia|]. apply Z.div_lt_upper_bound; nia.
Qed.

Section LuRun.
Variable n : Z.
Context (A : dense SFs).
Hypothesis HA : is_dense n n A.
Hypothesis DA : Forall double (d_data A).

Definition lu_pairs (L U : dense SFs) (j k e : Z) := pairs (fun t => at_ L j t) (fun t => at_ U t k) 0 e.

(** After i steps *)
Definition lu_state (i : Z) (L U : dense SFs) : Prop :=
  is_dense n n L /\ is_dense n n U /\
  (forall j k, (0 <= j < n)%Z -> (0 <= k < n)%Z -> (Z.min i j <= k)%Z -> at_ U j k = chain (at_ A j k) (lu_pairs L U j k (Z.min i j))) /\
  (forall j k, (0 <= j < n)%Z -> (0 <= k < Z.min i j)%Z -> at_ L j k = SFdiv 53 1024 (chain (at_ A j k) (lu_pairs L U j k k)) (at_ U k k)) /\
  (forall j, (0 <= j < i)%Z -> (j < n)%Z -> at_ L j j = s1) /\
  (forall j k, (0 <= j < n)%Z -> (0 <= k < n)%Z -> (j < k \/ i <= k)%Z -> at_ L j k = s0) /\
  (forall j k, (0 <= j < n)%Z -> (0 <= k < n)%Z -> double (at_ U j k) /\ double (at_ L j k)).

Lemma lu_state_step i L U : (0 <= i < n)%Z -> lu_state i L U -> returns (lu_step (S := SFs) n i (L, U)) (fun LU => lu_state (i + 1) (fst LU) (snd LU)).
Proof.
  intros Hi (HL & HU & S1 & S2 & S3 & S4 & S5). eapply returns_weaken; [apply (lu_step_exact n i L U Hi HL HU)|]. cbv beta. intros (L' & U'). cbn [fst snd]. intros (HL' & HU' & EL & EU).
  assert (Le : forall r c, (0 <= r < n)%Z -> (0 <= c < n)%Z -> c <> i -> at_ L' r c = at_ L r c).
  { intros r c Hr Hc N. rewrite EL by lia. destruct (Z.eqb_spec c i); [lia|reflexivity]. }
  assert (Ue : forall r c, (0 <= r <= i)%Z -> (0 <= c < n)%Z -> at_ U' r c = at_ U r c).
  { intros r c Hr Hc. rewrite EU by lia. destruct (Z.ltb_spec i r); [lia|reflexivity]. }
  assert (Lc : forall r, (i < r < n)%Z -> at_ L' r i = SFdiv 53 1024 (at_ U r i) (at_ U i i)).
  { intros r Hr. rewrite EL by lia. rewrite Z.eqb_refl. destruct (Z.eqb_spec r i); [lia|]. destruct (Z.ltb_spec i r); [reflexivity|lia]. }
  assert (Pe : forall j k e, (0 <= j < n)%Z -> (0 <= k < n)%Z -> (0 <= e <= i)%Z -> lu_pairs L' U' j k e = lu_pairs L U j k e).
  { intros j k e Hj Hk He. apply pairs_ext. intros t Ht. split; [apply Le; lia|apply Ue; lia]. }
  split; [exact HL'|]. split; [exact HU'|]. split; [|split; [|split; [|split]]].
  - intros j k Hj Hk Hm. destruct (Z.le_gt_cases j i) as [Hji|Hji].
    + replace (Z.min (i + 1) j) with j in * by lia. rewrite Ue by lia. rewrite Pe by lia. rewrite (S1 j k Hj Hk) by lia. now replace (Z.min i j) with j by lia.
    + replace (Z.min (i + 1) j) with (i + 1)%Z in * by lia. unfold lu_pairs. rewrite pairs_last by lia. fold (lu_pairs L' U' j k i). unfold chain. rewrite fold_left_app. fold (chain (at_ A j k) (lu_pairs L' U' j k i)). cbn [fold_left].
      rewrite Pe by lia. pose proof (S1 j k Hj Hk ltac:(lia)) as E. replace (Z.min i j) with i in E by lia. rewrite <- E. rewrite EU by lia. destruct (Z.ltb_spec i j); [|lia]. destruct (Z.leb_spec i k); [|lia]. cbn [andb]. unfold chain_step. cbn [fst snd]. rewrite Lc, Ue by lia. reflexivity.
  - intros j k Hj Hk. destruct (Z.eq_dec k i) as [->|N].
    + rewrite Lc by lia. rewrite Pe by lia. rewrite Ue by lia. pose proof (S1 j i Hj Hi ltac:(lia)) as E. replace (Z.min i j) with i in E by lia. rewrite <- E. reflexivity.
    + rewrite Le by lia. rewrite Pe by lia. rewrite Ue by lia. apply S2; lia.
  - intros j Hj Hn. destruct (Z.eq_dec j i) as [->|N]; [rewrite EL by lia; now rewrite !Z.eqb_refl|]. rewrite Le by lia. apply S3; lia.
  - intros j k Hj Hk Hc. destruct (Z.eq_dec k i) as [->|N].
    + rewrite EL by lia. rewrite Z.eqb_refl. destruct (Z.eqb_spec j i); [lia|]. destruct (Z.ltb_spec i j); [lia|]. apply S4; lia.
    + rewrite Le by lia. apply S4; lia.
  - intros j k Hj Hk. split.
    + rewrite EU by lia. destruct ((i <? j) && (i <=? k))%Z; [|now apply S5]. apply sub_double; [now apply S5|]. apply mul_double; [|now apply S5]. apply div_double; now apply S5.
    + rewrite EL by lia. destruct (k =? i)%Z; [|now apply S5]. destruct (j =? i)%Z; [exact double_one|]. destruct (i <? j)%Z; [|now apply S5]. apply div_double; now apply S5.
Qed.

Lemma lu_run : exists L U, lu_decomp A = Ok (L, U) /\ lu_state n L U.
Proof.
  destruct (HA) as ((Hr & Hc & Hs) & HR & HC). assert (Hn : (0 <= n)%Z) by lia.
  rewrite (lu_decomp_steps n A HR). destruct (@d_zeros_ok SFs n n Hn Hn) as (Z0 & -> & K & R & C & E). cbn [bind].
  assert (G : returns (for_ 0 n (Z0, A) (lu_step n)) (fun LU => lu_state n (fst LU) (snd LU))).
  { apply (returns_for (fun i LU => lu_state i (fst LU) (snd LU))).
    - exact Hn.
    - cbn [fst snd]. split; [now split|]. split; [exact HA|]. split; [|split; [|split; [|split]]].
      + intros j k Hj Hk _. replace (Z.min 0 j) with 0%Z by lia. reflexivity.
      + intros; lia.
      + intros; lia.
      + intros j k Hj Hk _. now apply E.
      + intros j k Hj Hk. split; [now apply dense_double|]. rewrite E by lia. exact double_0.
    - intros i (L & U) Hi H. now apply lu_state_step.
    - intros LU H. exact H. }
  apply returns_exists in G. destruct G as ((L & U) & -> & H). exists L, U. split; [reflexivity|exact H].
Qed.

(* ---------------------------------------------------------------- L U is nearly A *)

Lemma lu_state_doubles i L U : lu_state i L U -> Forall double (d_data L) /\ Forall double (d_data U).
Proof. intros (HL & HU & _ & _ & _ & _ & D). split; eapply dense_all_double; eauto; intros; now apply D. Qed.

Lemma product_upper L U j k : lu_state n L U -> (0 <= j <= k)%Z -> (k < n)%Z -> forall f : R -> R, f 0 = 0 ->
  @mat_mul Rs (fun a b => f (real_dense L a b)) (fun a b => f (triu (real_dense U) a b)) n j k = rsum 0 j (fun t => f (rv (at_ L j t)) * f (rv (at_ U t k))) + f 1 * f (rv (at_ U j k)).
Proof.
  intros (_ & _ & _ & _ & S3 & S4 & _) Hj Hk f F0. unfold mat_mul. rewrite (rsum_split 0 (j + 1) n) by lia. rewrite (rsum_zero (j + 1)%Z n).
  2:{ intros t Ht. unfold real_dense at 1. rewrite S4 by lia. change (rv (@s0 SFs)) with 0. rewrite F0. apply Rmult_0_l. }
  rewrite Rplus_0_r, rsum_last by lia. f_equal.
  - apply rsum_ext. intros t Ht. unfold triu. destruct (Z.leb_spec t k); [reflexivity|lia].
  - unfold triu, real_dense. rewrite S3 by lia. rewrite rv_one. destruct (Z.leb_spec j k); [reflexivity|lia].
Qed.
Lemma product_lower L U j k : (0 <= k < j)%Z -> (j < n)%Z -> forall f : R -> R, f 0 = 0 ->
  @mat_mul Rs (fun a b => f (real_dense L a b)) (fun a b => f (triu (real_dense U) a b)) n j k = rsum 0 k (fun t => f (rv (at_ L j t)) * f (rv (at_ U t k))) + f (rv (at_ L j k)) * f (rv (at_ U k k)).
Proof.
  intros Hk Hj f F0. unfold mat_mul. rewrite (rsum_split 0 (k + 1) n) by lia. rewrite (rsum_zero (k + 1)%Z n).
  2:{ intros t Ht. unfold triu. destruct (Z.leb_spec t k); [lia|]. rewrite F0. apply Rmult_0_r. }
  rewrite Rplus_0_r, rsum_last by lia. f_equal.
  - apply rsum_ext. intros t Ht. unfold triu. destruct (Z.leb_spec t k); [reflexivity|lia].
  - unfold triu, real_dense. now rewrite Z.leb_refl.
Qed.

Lemma doubles_lu i L U j k e : lu_state i L U -> (0 <= j < n)%Z -> (0 <= k < n)%Z -> (e <= n)%Z -> doubles (lu_pairs L U j k e).
Proof. intros (_ & _ & _ & _ & _ & _ & D) Hj Hk He. apply doubles_range. intros t Ht. split; apply D; lia. Qed.

Lemma lu_upper L U j k : lu_state n L U -> (0 <= j <= k)%Z -> (k < n)%Z -> finite (at_ U j k) -> nearly_product_at n (real_dense L) (triu (real_dense U)) (real_dense A) j k.
Proof.
  intros H Hj Hk F. pose proof H as (_ & _ & S1 & _ & _ & _ & _). pose proof (S1 j k ltac:(lia) ltac:(lia) ltac:(lia)) as E. replace (Z.min n j) with j in E by lia.
  pose proof (doubles_lu n L U j k j H ltac:(lia) ltac:(lia) ltac:(lia)) as Dl. rewrite E in F. destruct (chain_error _ Dl (at_ A j k) (dense_double A DA j k) F) as (_ & _ & B). rewrite <- E in B.
  unfold nearly_product_at. pose proof (product_upper L U j k H Hj Hk (fun t => t) eq_refl) as P1. pose proof (product_upper L U j k H Hj Hk Rabs Rabs_R0) as P2. cbv beta in P1, P2.
  change (mat_mul (abs_of (real_dense L)) (abs_of (triu (real_dense U))) n j k) with (@mat_mul Rs (fun a b => Rabs (real_dense L a b)) (fun a b => Rabs (triu (real_dense U) a b)) n j k). rewrite P2.
  change (mat_mul (real_dense L) (triu (real_dense U)) n j k) with (@mat_mul Rs (fun a b => real_dense L a b) (fun a b => triu (real_dense U) a b) n j k). rewrite P1. clear P1 P2.
  unfold lu_pairs in B. rewrite exact_range, abs_range, length_range in B. replace (Z.to_nat (j - 0)) with (Z.to_nat j) in B by (f_equal; lia).
  set (X := rsum 0 j (fun t => rv (at_ L j t) * rv (at_ U t k))) in *. set (Y := rsum 0 j (fun t => Rabs (rv (at_ L j t)) * Rabs (rv (at_ U t k)))) in *.
  assert (HY : 0 <= Y) by (apply rsum_nonneg; intros; apply Rmult_le_pos; apply Rabs_pos). rewrite Rabs_R1.
  eapply bound_size with (m := Z.to_nat j); [lia| |apply Rabs_pos|]; [pose proof (Rabs_pos (rv (at_ U j k))); lra|].
  change (real_dense A j k) with (rv (at_ A j k)). replace (rv (at_ A j k) - (X + 1 * rv (at_ U j k))) with (rv (at_ A j k) - X - rv (at_ U j k)) by ring.
  eapply Rle_trans; [exact B|]. pose proof (pow_ge (Z.to_nat j)) as G. pose proof (Rabs_pos (rv (at_ U j k))) as PU. pose proof (Rabs_pos (triu (real_dense U) k k)) as PD. pose proof eta_pos as PE. pose proof u_pos as PQ.
  assert (G1 : q ^ Z.to_nat j <= q ^ (Z.to_nat j + 1)) by (apply Rle_pow; lra || lia).
  assert (K : q ^ Z.to_nat j * (INR (Z.to_nat j) * underflow) <= q ^ Z.to_nat j * ((INR (Z.to_nat j) + Rabs (triu (real_dense U) k k)) * underflow)).
  { apply Rmult_le_compat_l; [lra|]. apply Rmult_le_compat_r; lra. }
  assert (K2 : (q ^ Z.to_nat j - 1) * Rabs (rv (at_ U j k)) <= (q ^ (Z.to_nat j + 1) - 1) * Rabs (rv (at_ U j k))) by (apply Rmult_le_compat_r; lra). lra.
Qed.

Lemma lu_lower L U j k : lu_state n L U -> (0 <= k < j)%Z -> (j < n)%Z -> finite (at_ L j k) -> finite (at_ U k k) -> nearly_product_at n (real_dense L) (triu (real_dense U)) (real_dense A) j k.
Proof.
  intros H Hk Hj F FU. pose proof H as (_ & _ & _ & S2 & _ & _ & D). pose proof (S2 j k ltac:(lia) ltac:(lia)) as E.
  pose proof (doubles_lu n L U j k k H ltac:(lia) ltac:(lia) ltac:(lia)) as Dl. pose proof (quotient_error _ (at_ A j k) (at_ U k k) Dl (dense_double A DA j k) (proj1 (D k k ltac:(lia) ltac:(lia))) FU) as Q. cbv zeta in Q. rewrite <- E in Q. destruct (Q F) as (_ & _ & B).
  unfold nearly_product_at. pose proof (product_lower L U j k Hk Hj (fun t => t) eq_refl) as P1. pose proof (product_lower L U j k Hk Hj Rabs Rabs_R0) as P2. cbv beta in P1, P2.
  change (mat_mul (abs_of (real_dense L)) (abs_of (triu (real_dense U))) n j k) with (@mat_mul Rs (fun a b => Rabs (real_dense L a b)) (fun a b => Rabs (triu (real_dense U) a b)) n j k). rewrite P2.
  change (mat_mul (real_dense L) (triu (real_dense U)) n j k) with (@mat_mul Rs (fun a b => real_dense L a b) (fun a b => triu (real_dense U) a b) n j k). rewrite P1. clear P1 P2.
  unfold lu_pairs in B. rewrite exact_range, abs_range, length_range in B. replace (Z.to_nat (k - 0)) with (Z.to_nat k) in B by (f_equal; lia).
  assert (T : triu (real_dense U) k k = rv (at_ U k k)) by (unfold triu; now rewrite Z.leb_refl). rewrite T.
  eapply bound_size with (m := Z.to_nat k); [lia| |apply Rabs_pos|].
  { apply Rplus_le_le_0_compat; [apply rsum_nonneg; intros; apply Rmult_le_pos; apply Rabs_pos|apply Rmult_le_pos; apply Rabs_pos]. }
  change (real_dense A j k) with (rv (at_ A j k)). rewrite (Rmult_comm (Rabs (rv (at_ L j k)))). eapply Rle_trans; [|exact B]. apply Req_le. f_equal. ring.
Qed.
End LuRun.
