(** Solving with the computed factors. *)

From Coq Require Import ZArith Reals List Bool Lia Lra Floats.SpecFloat.
From Flocq Require Import Core BinarySingleNaN.
From Verif Require Import Base Scalar ScalarR Spec SumFacts Dense Double RoundSpec RoundFacts RoundProofs RoundTriFacts RoundTriSpec LuQr LuQrSpec RoundTri RoundLu.
Import ListNotations.
Open Scope R_scope.

Ltac rring := match goal with |- @eq _ ?a ?b => change (@eq R a b) end; ring.

Lemma rsum_plus lo hi (f g : Z -> R) : rsum lo hi (fun i => f i + g i) = rsum lo hi f + rsum lo hi g.
Proof. exact (sum_range_add RR lo hi f g). Qed.
Lemma rsum_scale lo hi c (f : Z -> R) : rsum lo hi (fun i => c * f i) = c * rsum lo hi f.
Proof. exact (sum_range_scale RR lo hi c f). Qed.
Lemma rsum_scale_r lo hi c (f : Z -> R) : rsum lo hi (fun i => f i * c) = rsum lo hi f * c.
Proof. exact (sum_range_scale_r RR lo hi c f). Qed.
Lemma rsum_minus lo hi (f g : Z -> R) : (rsum lo hi (fun i => f i - g i) : R) = rsum lo hi f - rsum lo hi g.
Proof. rewrite (rsum_ext lo hi _ (fun i => f i + (-1) * g i)) by (intros; rring). rewrite rsum_plus, rsum_scale. rring. Qed.
Lemma rsum_le lo hi (f g : Z -> R) : (forall i, (lo <= i < hi)%Z -> f i <= g i) -> rsum lo hi f <= rsum lo hi g.
Proof. intros H. pose proof (rsum_nonneg lo hi (fun i => g i - f i) ltac:(intros i Hi; specialize (H i Hi); lra)) as P. rewrite rsum_minus in P. lra. Qed.
Lemma rsum_abs lo hi (f : Z -> R) : Rabs (rsum lo hi f) <= rsum lo hi (fun i => Rabs (f i)).
Proof.
  apply Rabs_le. split.
  - replace (- rsum lo hi (fun i => Rabs (f i))) with (rsum lo hi (fun i => (-1) * Rabs (f i))) by (rewrite rsum_scale; rring). apply rsum_le. intros i _. pose proof (Rle_abs (- f i)) as P. rewrite Rabs_Ropp in P. lra.
  - apply rsum_le. intros i _. apply Rle_abs.
Qed.
Lemma rsum_assoc n (f : Z -> R) (g : Z -> Z -> R) (h : Z -> R) : rsum 0 n (fun j => rsum 0 n (fun t => f t * g t j) * h j) = rsum 0 n (fun t => f t * rsum 0 n (fun j => g t j * h j)).
Proof.
  rewrite (rsum_ext 0 n _ (fun j => rsum 0 n (fun t => f t * g t j * h j))) by (intros j _; now rewrite <- rsum_scale_r).
  rewrite (rsum_ext 0 n (fun t => f t * _) (fun t => rsum 0 n (fun j => f t * g t j * h j))).
  2:{ intros t _. rewrite <- rsum_scale. apply rsum_ext. intros; ring. }
  exact (sum_range_swap RR 0 n 0 n (fun j t => f t * g t j * h j)).
Qed.

(** Errors of the three stages put together *)
Lemma stages n (L U A : mat Rs) (b y x : vect Rs) i G e d : 1 <= G -> 0 <= e -> 0 <= d ->
  Rabs (b i - mat_vec L n y i) <= (G - 1) * mat_vec (abs_of L) n (abs_vec y) i + G * ((d + 1) * e) ->
  (forall j, (0 <= j < n)%Z -> Rabs (y j - mat_vec U n x j) <= (G - 1) * mat_vec (abs_of U) n (abs_vec x) j + G * ((d + Rabs (U j j)) * e)) ->
  (forall j, (0 <= j < n)%Z -> Rabs (A i j - mat_mul L U n i j) <= (G - 1) * mat_mul (abs_of L) (abs_of U) n i j + G * ((d + Rabs (U j j)) * e)) ->
  Rabs (b i - mat_vec A n x i) <= (G ^ 3 - 1) * mat_vec (mat_mul (abs_of L) (abs_of U) n) n (abs_vec x) i + G ^ 2 * ((d + 1 + rsum 0 n (fun j => (d + Rabs (U j j)) * (Rabs (L i j) + Rabs (x j)))) * e).
Proof.
  intros HG He Hd E1 E2 E3. set (w := fun j => mat_vec (abs_of U) n (abs_vec x) j : R) in *. set (v := fun j => d + Rabs (U j j)) in *.
  set (W := rsum 0 n (fun j => Rabs (L i j) * w j)). set (P := rsum 0 n (fun j => Rabs (L i j) * v j)). set (Q := rsum 0 n (fun j => v j * Rabs (x j))).
  assert (w0 : forall j, 0 <= w j) by (intros j; apply rsum_nonneg; intros; apply Rmult_le_pos; apply Rabs_pos).
  assert (v0 : forall j, 0 <= v j) by (intros j; unfold v; pose proof (Rabs_pos (U j j)); lra).
  assert (W0 : 0 <= W) by (apply rsum_nonneg; intros; apply Rmult_le_pos; [apply Rabs_pos|apply w0]).
  assert (P0 : 0 <= P) by (apply rsum_nonneg; intros; apply Rmult_le_pos; [apply Rabs_pos|apply v0]).
  assert (Q0 : 0 <= Q) by (apply rsum_nonneg; intros; apply Rmult_le_pos; [apply v0|apply Rabs_pos]).
  assert (EW : mat_vec (mat_mul (abs_of L) (abs_of U) n) n (abs_vec x) i = W).
  { exact (rsum_assoc n (fun t => Rabs (L i t)) (fun t j => Rabs (U t j)) (fun j => Rabs (x j))). }
  assert (EPQ : rsum 0 n (fun j => (d + Rabs (U j j)) * (Rabs (L i j) + Rabs (x j))) = P + Q).
  { unfold P, Q. rewrite <- rsum_plus. apply rsum_ext. intros j _. unfold v. rring. }
  rewrite EW, EPQ.
  (* |y| *)
  assert (Y : forall j, (0 <= j < n)%Z -> Rabs (y j) <= G * w j + G * (v j * e)).
  { intros j Hj. replace (y j) with ((y j - mat_vec U n x j) + mat_vec U n x j) by rring. eapply Rle_trans; [apply Rabs_triang|]. specialize (E2 j Hj). fold (w j) in E2. fold (v j) in E2.
    assert (B : Rabs (mat_vec U n x j) <= w j). { eapply Rle_trans; [exact (rsum_abs 0 n (fun t => U j t * x t))|]. apply rsum_le. intros t _. rewrite Rabs_mult. apply Rle_refl. } lra. }
  assert (T1 : mat_vec (abs_of L) n (abs_vec y) i <= G * W + G * (P * e)).
  { eapply Rle_trans; [apply (rsum_le 0 n (fun j => Rabs (L i j) * Rabs (y j)) (fun j => G * (Rabs (L i j) * w j) + (G * e) * (Rabs (L i j) * v j)))|].
    - intros j Hj. pose proof (Rmult_le_compat_l _ _ _ (Rabs_pos (L i j)) (Y j Hj)). lra.
    - rewrite rsum_plus, !rsum_scale. fold W. fold P. lra. }
  assert (T2 : Rabs (mat_vec L n y i - rsum 0 n (fun j => L i j * mat_vec U n x j)) <= (G - 1) * W + G * (P * e)).
  { unfold mat_vec at 1. change (@sum_range Rs 0 n (fun j => smul (L i j) (y j))) with (rsum 0 n (fun j => L i j * y j)). rewrite <- rsum_minus. eapply Rle_trans; [apply rsum_abs|].
    eapply Rle_trans; [apply (rsum_le 0 n _ (fun j => (G - 1) * (Rabs (L i j) * w j) + (G * e) * (Rabs (L i j) * v j)))|].
    - intros j Hj. replace (L i j * y j - L i j * mat_vec U n x j) with (L i j * (y j - mat_vec U n x j)) by rring. rewrite Rabs_mult. specialize (E2 j Hj). fold (w j) in E2. fold (v j) in E2. pose proof (Rmult_le_compat_l _ _ _ (Rabs_pos (L i j)) E2). lra.
    - rewrite rsum_plus, !rsum_scale. fold W. fold P. lra. }
  assert (T3 : Rabs (rsum 0 n (fun j => L i j * mat_vec U n x j) - mat_vec A n x i) <= (G - 1) * W + G * (Q * e)).
  { replace (rsum 0 n (fun j => L i j * mat_vec U n x j)) with (rsum 0 n (fun j => rsum 0 n (fun t => L i t * U t j) * x j)) by exact (rsum_assoc n (fun t => L i t) (fun t j => U t j) (fun j => x j)). unfold mat_vec. change (@sum_range Rs 0 n (fun j => smul (A i j) (x j))) with (rsum 0 n (fun j => A i j * x j)). rewrite <- rsum_minus. eapply Rle_trans; [apply rsum_abs|].
    eapply Rle_trans; [apply (rsum_le 0 n _ (fun j => (G - 1) * (mat_mul (abs_of L) (abs_of U) n i j * Rabs (x j)) + (G * e) * (v j * Rabs (x j))))|].
    - intros j Hj. specialize (E3 j Hj). fold (v j) in E3. change (rsum 0 n (fun t => L i t * U t j)) with (mat_mul L U n i j). replace (mat_mul L U n i j * x j - A i j * x j) with (- (A i j - mat_mul L U n i j) * x j) by rring. rewrite Rabs_mult, Rabs_Ropp. pose proof (Rmult_le_compat_r _ _ _ (Rabs_pos (x j)) E3). lra.
    - rewrite rsum_plus, !rsum_scale. fold Q. change (rsum 0 n (fun j => mat_mul (abs_of L) (abs_of U) n i j * Rabs (x j))) with (mat_vec (mat_mul (abs_of L) (abs_of U) n) n (abs_vec x) i). rewrite EW. lra. }
  replace (b i - mat_vec A n x i) with ((b i - mat_vec L n y i) + (mat_vec L n y i - rsum 0 n (fun j => L i j * mat_vec U n x j)) + (rsum 0 n (fun j => L i j * mat_vec U n x j) - mat_vec A n x i)) by rring.
  eapply Rle_trans; [apply Rabs_triang3|]. pose proof (Rmult_le_compat_l (G - 1) _ _ ltac:(lra) T1) as T1'.
  assert (Pe : 0 <= P * e) by now apply Rmult_le_pos. assert (Qe : 0 <= Q * e) by now apply Rmult_le_pos. assert (de : 0 <= (d + 1) * e) by (apply Rmult_le_pos; lra).
  replace ((d + 1 + (P + Q)) * e) with ((d + 1) * e + P * e + Q * e) by rring. set (pe := P * e) in *. set (qe := Q * e) in *. set (dd := (d + 1) * e) in *.
  assert (M1 : (G * (G - 1) + 2 * (G - 1)) * W <= (G ^ 3 - 1) * W). { apply Rmult_le_compat_r; [exact W0|]. assert (0 <= (G - 1) * (G - 1) * (G + 1)) by (apply Rmult_le_pos; [apply Rmult_le_pos|]; lra). lra. }
  assert (GG : G <= G ^ 2) by nra. pose proof (Rmult_le_compat_r _ _ _ Qe GG). pose proof (Rmult_le_compat_r _ _ _ de GG). lra.
Qed.

Lemma growth_mult n (k : nat) : (0 <= n)%Z -> growth (Z.of_nat k * n) = growth n ^ k.
Proof. intros Hn. unfold growth. rewrite Z2Nat.inj_mul, Nat2Z.id by lia. rewrite Nat.mul_comm. apply pow_mult. Qed.

Section Solve.
Variable n : Z.
Context (A : dense SFs) (b : list spec_float).
Hypothesis HA : is_dense n n A.
Hypothesis Hb : zlen b = n.
Hypothesis DA : Forall double (d_data A).
Hypothesis Db : Forall double b.

Lemma solve_run : exists L U x, lu_decomp A = Ok (L, U) /\ solve_lu L U b = Ok x /\ lu_solve A b = Ok x /\ zlen x = n /\ Forall double x /\
  ((forall j k, (0 <= k < j)%Z -> (j < n)%Z -> finite (dense_mat L j k)) -> (forall j k, (0 <= j <= k)%Z -> (k < n)%Z -> finite (dense_mat U j k)) -> (forall j, (0 <= j < n)%Z -> finite (vec_of (S := SFs) x j)) ->
   forall i, (0 <= i < n)%Z -> nearly_solves_lu n (real_dense L) (triu (real_dense U)) (real_dense A) (real_vec b) (real_vec x) i).
Proof.
  destruct (lu_run n A HA DA) as (L & U & EL & St). destruct (lu_state_doubles n A n L U St) as (DL & DU). pose proof St as (HL & HU & _ & _ & S3 & S4 & _).
  destruct (forward_run n L b HL Hb DL Db) as (y & Ey & Hy & Dy & Ry). destruct (back_run n U y HU Hy DU Dy) as (x & Ex & Hx & Dx & Rx).
  exists L, U, x. split; [exact EL|]. assert (E : solve_lu L U b = Ok x) by (unfold solve_lu; rewrite Ey; exact Ex). split; [exact E|]. split; [unfold lu_solve; rewrite EL; exact E|]. split; [exact Hx|]. split; [exact Dx|].
  intros FL FU Fx i Hi. assert (Hn : (0 <= n)%Z) by lia.
  assert (Fy : forall j, (0 <= j < n)%Z -> finite (vget y j) /\ nearly_solves_row n (triu (real_dense U)) (real_vec y) (real_vec x) j).
  { intros j Hj. destruct (back_row n U y DU Dy x j Hj Dx (Rx j Hj) (FU j j ltac:(lia) ltac:(lia)) (Fx j Hj)) as (Q1 & _ & Q2). now split. }
  assert (F1 : finite (at_ L i i)) by (rewrite S3 by lia; reflexivity).
  destruct (forward_row n L b DL Db y i Hi Dy (Ry i Hi) F1 (proj1 (Fy i Hi))) as (_ & _ & N1).
  assert (TL : forall a c, (0 <= a < n)%Z -> (0 <= c < n)%Z -> tril (real_dense L) a c = real_dense L a c).
  { intros a c Ha Hc. unfold tril. destruct (Z.leb_spec c a); [reflexivity|]. unfold real_dense. rewrite S4 by lia. reflexivity. }
  unfold nearly_solves_row in N1. rewrite (mat_vec_ext (tril (real_dense L)) (real_dense L)) in N1 by (intros; apply TL; lia).
  rewrite (mat_vec_ext (abs_of (tril (real_dense L))) (abs_of (real_dense L))) in N1 by (intros; unfold abs_of; now rewrite TL by lia).
  rewrite TL in N1 by lia. replace (real_dense L i i) with 1 in N1 by (unfold real_dense; rewrite S3 by lia; now rewrite rv_one). rewrite Rabs_R1 in N1.
  unfold nearly_solves_lu, gamma. fold (growth (3 * n)). change (3 * n)%Z with (Z.of_nat 3 * n)%Z. change (2 * n)%Z with (Z.of_nat 2 * n)%Z. rewrite !growth_mult by exact Hn.
  assert (HG : 1 <= growth n) by (apply pow_ge).
  apply (stages n (real_dense L) (triu (real_dense U)) (real_dense A) (real_vec b) (real_vec y) (real_vec x) i (growth n) underflow (IZR n)); [exact HG|pose proof eta_pos; lra|apply IZR_le; lia|exact N1| |].
  - intros j Hj. exact (proj2 (Fy j Hj)).
  - intros j Hj. destruct (Z.le_gt_cases i j).
    + apply (lu_upper n A DA L U i j St); [lia|lia|]. apply FU; lia.
    + apply (lu_lower n A DA L U i j St); [lia|lia|apply FL; lia|apply FU; lia].
Qed.
End Solve.

(* ---------------------------------------------------------------- the exact solution of a nearby system *)

(** A residual that is small beside H |x| is the effect of a change of at most c H in the matrix, up to t *)
Lemma nearby n (H : Z -> R) (x : Z -> R) r c t : (forall j, (0 <= j < n)%Z -> 0 <= H j) -> 0 <= c -> 0 <= t -> Rabs r <= c * rsum 0 n (fun j => H j * Rabs (x j)) + t ->
  exists (E : Z -> R) f, (forall j, (0 <= j < n)%Z -> Rabs (E j) <= c * H j) /\ Rabs f <= t /\ r = rsum 0 n (fun j => E j * x j) + f.
Proof.
  intros HH Hc Ht Hr. set (S := rsum 0 n (fun j => H j * Rabs (x j)) : R) in *. assert (S0 : 0 <= S) by (apply rsum_nonneg; intros j Hj; apply Rmult_le_pos; [now apply HH|apply Rabs_pos]).
  assert (Sf : exists s : Z -> R, forall j, Rabs (s j) <= 1 /\ s j * x j = Rabs (x j)).
  { exists (fun j => if Rle_dec 0 (x j) then 1 else -1). intros j. destruct (Rle_dec 0 (x j)); [rewrite Rabs_R1, Rabs_pos_eq by assumption; lra|rewrite (Rabs_left (-1)), (Rabs_left (x j)) by lra; lra]. }
  destruct Sf as (s & Hs).
  (* a fraction a of c with |r - a S| <= t *)
  assert (Fr : exists a, Rabs a <= c /\ Rabs (r - a * S) <= t).
  { destruct (Rle_dec (Rabs r) t) as [|N]; [exists 0; rewrite Rabs_R0; split; [exact Hc|]; now replace (r - 0 * S) with r by ring|]. apply Rnot_le_lt in N.
    assert (SP : 0 < S) by (destruct S0 as [|Z]; [assumption|rewrite <- Z in Hr; lra]).
    destruct (Rle_dec 0 r) as [P|P].
    - rewrite Rabs_pos_eq in * by assumption. exists ((r - t) / S). split.
      + rewrite Rabs_pos_eq by (apply Rmult_le_pos; [lra|left; now apply Rinv_0_lt_compat]). apply Rmult_le_reg_r with S; [exact SP|]. replace ((r - t) / S * S) with (r - t) by (field; lra). lra.
      + replace (r - (r - t) / S * S) with t by (field; lra). rewrite Rabs_pos_eq by exact Ht. apply Rle_refl.
    - apply Rnot_le_lt in P. rewrite Rabs_left in * by assumption. exists ((r + t) / S). split.
      + rewrite <- Rabs_Ropp. replace (- ((r + t) / S)) with ((- r - t) / S) by (field; lra). rewrite Rabs_pos_eq by (apply Rmult_le_pos; [lra|left; now apply Rinv_0_lt_compat]). apply Rmult_le_reg_r with S; [exact SP|]. replace ((- r - t) / S * S) with (- r - t) by (field; lra). lra.
      + replace (r - (r + t) / S * S) with (- t) by (field; lra). rewrite Rabs_Ropp, Rabs_pos_eq by exact Ht. apply Rle_refl. }
  destruct Fr as (a & Ha & Hf). exists (fun j => a * (H j * s j)), (r - a * S). split; [|split].
  - intros j Hj. rewrite !Rabs_mult. rewrite (Rabs_pos_eq (H j)) by now apply HH. destruct (Hs j) as (Hs1 & _). pose proof (HH j Hj) as H0. apply Rmult_le_compat; [apply Rabs_pos|apply Rmult_le_pos; [exact H0|apply Rabs_pos]|exact Ha|]. rewrite <- (Rmult_1_r (H j)) at 2. now apply Rmult_le_compat_l.
  - exact Hf.
  - rewrite (rsum_ext 0 n _ (fun j => a * (H j * Rabs (x j)))). 2:{ intros j _. destruct (Hs j) as (_ & <-). ring. }
    rewrite rsum_scale. fold S. rring.
Qed.

Lemma factors n (A : dense SFs) : is_dense n n A -> Forall double (d_data A) ->
  exists L U, lu_decomp A = Ok (L, U) /\ is_dense n n L /\ is_dense n n U /\ Forall double (d_data L) /\ Forall double (d_data U) /\
    (forall i, (0 <= i < n)%Z -> real_dense L i i = 1) /\ (forall i j, (0 <= i < j)%Z -> (j < n)%Z -> real_dense L i j = 0) /\
    (forall j, (0 <= j < n)%Z -> (0 < n)%Z -> dense_mat U 0%Z j = dense_mat A 0%Z j) /\
    forall i j, (0 <= i < n)%Z -> (0 <= j < n)%Z -> ((i <= j)%Z -> finite (dense_mat U i j)) -> ((j < i)%Z -> finite (dense_mat L i j) /\ finite (dense_mat U j j)) ->
      nearly_product_at n (real_dense L) (triu (real_dense U)) (real_dense A) i j.
Proof.
  intros HA DA. destruct (lu_run n A HA DA) as (L & U & EL & St). destruct (lu_state_doubles n A n L U St) as (DL & DU). pose proof St as (HL & HU & S1 & _ & S3 & S4 & _).
  exists L, U. split; [exact EL|]. split; [exact HL|]. split; [exact HU|]. split; [exact DL|]. split; [exact DU|]. split; [|split; [|split]].
  - intros i Hi. unfold real_dense. rewrite S3 by lia. exact rv_one.
  - intros i j Hi Hj. unfold real_dense. rewrite S4 by lia. reflexivity.
  - intros j Hj Hn. pose proof (S1 0%Z j ltac:(lia) Hj ltac:(lia)) as E. replace (Z.min n 0) with 0%Z in E by lia. exact E.
  - intros i j Hi Hj F1 F2. destruct (Z.le_gt_cases i j) as [K|K].
    + apply (lu_upper n A DA L U i j St); [lia|lia|now apply F1].
    + destruct (F2 ltac:(lia)). apply (lu_lower n A DA L U i j St); [lia|lia|assumption|assumption].
Qed.

Lemma finite_choice {X} (d : X) (P : Z -> X -> Prop) n : (forall i, (0 <= i < n)%Z -> exists x, P i x) -> exists g, forall i, (0 <= i < n)%Z -> P i (g i).
Proof.
  intros H. destruct (Z_lt_le_dec n 0) as [|Hn]; [exists (fun _ => d); intros; lia|]. revert H. pattern n. apply natlike_ind; [| |exact Hn].
  - intros _. exists (fun _ => d). intros; lia.
  - intros m Hm IH H. destruct IH as (g & Hg); [intros i Hi; apply H; lia|]. destruct (H m ltac:(lia)) as (x & Hx). exists (fun i => if (i =? m)%Z then x else g i). intros i Hi.
    destruct (Z.eqb_spec i m) as [->|]; [exact Hx|]. apply Hg. lia.
Qed.

Lemma nearby_system n (A : dense SFs) (b : list spec_float) : is_dense n n A -> zlen b = n -> Forall double (d_data A) -> Forall double b ->
  exists L U x, lu_decomp A = Ok (L, U) /\ lu_solve A b = Ok x /\
    ((forall j k, (0 <= k < j)%Z -> (j < n)%Z -> finite (dense_mat L j k)) -> (forall j k, (0 <= j <= k)%Z -> (k < n)%Z -> finite (dense_mat U j k)) -> (forall j, (0 <= j < n)%Z -> finite (vec_of (S := SFs) x j)) ->
     exists (E : mat Rs) (f : vect Rs),
       (forall i j, (0 <= i < n)%Z -> (0 <= j < n)%Z -> Rabs (E i j) <= gamma (3 * n) * mat_mul (abs_of (real_dense L)) (abs_of (triu (real_dense U))) n i j) /\
       (forall i, (0 <= i < n)%Z -> Rabs (f i) <= growth (2 * n) * ((IZR n + 1 + @sum_range Rs 0 n (fun j => (IZR n + Rabs (triu (real_dense U) j j)) * (Rabs (real_dense L i j) + Rabs (real_vec x j)))) * underflow)) /\
       forall i, (0 <= i < n)%Z -> mat_vec (S := Rs) (fun i j => real_dense A i j + E i j) n (real_vec x) i = real_vec b i - f i).
Proof.
  intros HA Hb DA Db. destruct (solve_run n A b HA Hb DA Db) as (L & U & x & E1 & _ & E2 & _ & _ & Res). exists L, U, x. split; [exact E1|]. split; [exact E2|].
  intros F1 F2 F3. specialize (Res F1 F2 F3). set (t := fun i : Z => growth (2 * n) * ((IZR n + 1 + @sum_range Rs 0 n (fun j => (IZR n + Rabs (triu (real_dense U) j j)) * (Rabs (real_dense L i j) + Rabs (real_vec x j)))) * underflow)).
  set (H := mat_mul (abs_of (real_dense L)) (abs_of (triu (real_dense U))) n).
  assert (H0 : forall i j, 0 <= H i j) by (intros i j; apply rsum_nonneg; intros; apply Rmult_le_pos; apply Rabs_pos).
  destruct (finite_choice (fun _ : Z => 0, 0) (fun i (Ef : (Z -> R) * R) => (forall j, (0 <= j < n)%Z -> Rabs (fst Ef j) <= gamma (3 * n) * H i j) /\ Rabs (snd Ef) <= t i /\ real_vec b i - mat_vec (real_dense A) n (real_vec x) i = rsum 0 n (fun j => fst Ef j * real_vec x j) + snd Ef) n) as (G & HG).
  { intros i Hi. destruct (nearby n (fun j => H i j) (fun j => real_vec x j) (real_vec b i - mat_vec (real_dense A) n (real_vec x) i) (gamma (3 * n)) (t i)) as (E & f & Q1 & Q2 & Q3).
    - intros j _. apply H0.
    - unfold gamma. pose proof (pow_ge (Z.to_nat (3 * n))). lra.
    - unfold t. apply Rmult_le_pos; [unfold growth; pose proof (pow_ge (Z.to_nat (2 * n))); lra|]. apply Rmult_le_pos; [|pose proof eta_pos; lra].
      assert (0 <= IZR n) by (apply IZR_le; lia). apply Rplus_le_le_0_compat; [lra|]. apply rsum_nonneg. intros j _. apply Rmult_le_pos; [pose proof (Rabs_pos (triu (real_dense U) j j)); lra|]. apply Rplus_le_le_0_compat; apply Rabs_pos.
    - exact (Res i Hi).
    - exists (E, f). split; [exact Q1|]. split; [exact Q2|exact Q3]. }
  exists (fun i j => fst (G i) j), (fun i => snd (G i)). split; [|split].
  - intros i j Hi Hj. exact (proj1 (HG i Hi) j Hj).
  - intros i Hi. exact (proj1 (proj2 (HG i Hi))).
  - intros i Hi. destruct (HG i Hi) as (_ & _ & Q). unfold mat_vec in *. change (@sum_range Rs 0 n (fun j => smul (real_dense A i j) (real_vec x j))) with (rsum 0 n (fun j => real_dense A i j * real_vec x j)) in Q.
    rewrite (rsum_ext 0 n _ (fun j => real_dense A i j * real_vec x j + fst (G i) j * real_vec x j)) by (intros; apply Rmult_plus_distr_r). rewrite rsum_plus. match goal with |- @eq _ ?a ?b => change (@eq R a b) end. lra.
Qed.
