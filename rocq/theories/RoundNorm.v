(** The rounding error of L2Norm. *)

From Coq Require Import ZArith Reals List Bool Lia Lra Floats.SpecFloat.
From Flocq Require Import Core BinarySingleNaN Relative.
From Verif Require Import Base Scalar ScalarR Spec Double RoundSpec RoundNormSpec RoundFacts RoundProofs Vec VecSpec VecProofs.
Import ListNotations.
Open Scope R_scope.

Local Instance prec53' : FLX.Prec_gt_0 53 := eq_refl _.
Local Instance emax1024' : Prec_lt_emax 53 1024 := eq_refl _.

Lemma sqrt_equiv (x : binary_float 53 1024) : SFsqrt 53 1024 (B2SF x) = B2SF (Bsqrt mode_NE x).
Proof.
  destruct x as [s|[]| |[] m e B]; try reflexivity. simpl. rewrite B2SF_SF2B. destruct (SFsqrt_core_binary 53 1024 (Z.pos m) e) as [[mz ez] lz]. apply round_aux_equiv.
Qed.

Lemma sqrt_double x : double x -> double (SFsqrt 53 1024 x).
Proof. intros Hx. destruct (double_B x Hx) as (b & ->). rewrite sqrt_equiv. apply B_double. Qed.

Lemma sqrt_value x : double x -> finite (SFsqrt 53 1024 x) -> finite x /\ 0 <= rv x /\ rv (SFsqrt 53 1024 x) = rnd (sqrt (rv x)).
Proof.
  intros Hx F. destruct (double_B x Hx) as (b & ->). rewrite sqrt_equiv in *. unfold finite in *. rewrite finite_B in *. unfold rv. rewrite !SF2R_B2SF.
  destruct (Bsqrt_correct 53 1024 prec53' emax1024' mode_NE b) as (C1 & C2 & _). rewrite F in C2. change (SpecFloat.fexp 53 1024) with (FLT_exp (-1074) 53) in C1. cbn [round_mode] in C1.
  split; [|split; [|exact C1]].
  - destruct b as [s|s| |[] m e B]; auto; discriminate.
  - destruct b as [s|s| |[] m e B]; try discriminate; [apply Rle_refl|]. cbn. apply F2R_ge_0. cbn. lia.
Qed.

Lemma sqrt_in_range x : double x -> finite x -> 0 <= rv x -> finite (SFsqrt 53 1024 x).
Proof.
  intros Hx F P. destruct (double_B x Hx) as (b & ->). rewrite sqrt_equiv in *. unfold finite in *. rewrite finite_B in *. unfold rv in P. rewrite SF2R_B2SF in P.
  destruct (Bsqrt_correct 53 1024 prec53' emax1024' mode_NE b) as (_ & C2 & _). rewrite C2.
  destruct b as [s|s| |[] m e B]; try reflexivity; try discriminate. exfalso. cbn in P. assert (F2R (Float radix2 (Z.neg m) e) < 0) by (apply F2R_lt_0; cbn; lia). lra.
Qed.

Lemma rnd_sqrt x : format x -> 0 <= x -> exists d, Rabs d <= unit_roundoff /\ rnd (sqrt x) = sqrt x * (1 + d).
Proof.
  intros Fx Px. pose proof u_pos as U. destruct (Req_dec x 0) as [->|N].
  - exists 0. rewrite sqrt_0, round_0 by apply valid_rnd_N. rewrite Rabs_R0. split; lra.
  - destruct (relative_error_N_FLT_ex radix2 (-1074) 53 eq_refl (fun x => negb (Z.even x)) (sqrt x)) as (d & Hd & E).
    + rewrite Rabs_pos_eq by apply sqrt_pos. assert (L : bpow radix2 (-1074) <= x).
      { assert (M : Rabs x >= bpow radix2 (-1074)); [|rewrite Rabs_pos_eq in M by exact Px; lra].
        apply Rle_ge. apply generic_format_ge_bpow with (fexp := FLT_exp (-1074) 53); [|rewrite Rabs_pos_eq by exact Px; lra|apply generic_format_abs; exact Fx].
        intros e. unfold FLT_exp. lia. }
      apply Rle_trans with (sqrt (bpow radix2 (-1074))); [|now apply sqrt_le_1_alt].
      replace (bpow radix2 (-1074)) with (bpow radix2 (-537) * bpow radix2 (-537)) by (rewrite <- bpow_plus; reflexivity). rewrite sqrt_square by apply bpow_ge_0. apply bpow_le. lia.
    + exists d. split; [|exact E]. replace unit_roundoff with (/ 2 * bpow radix2 (-53 + 1)); [exact Hd|]. unfold unit_roundoff. rewrite (bpow_plus radix2 (-53) 1). simpl (bpow radix2 1). lra.
Qed.

(** A finite sum of squares is not negative. *)
Definition notneg (v : spec_float) : Prop := double v /\ (finite v -> 0 <= rv v).

Lemma rnd_ge_0 z : 0 <= z -> 0 <= rnd z.
Proof. intros H. rewrite <- (round_0 radix2 (FLT_exp (-1074) 53) ZnearestE). apply round_le; [apply FLT_exp_valid; reflexivity|apply valid_rnd_N|exact H]. Qed.

Lemma squares_notneg (x : vect SFs) l v : (forall k, In k l -> double (x k)) -> notneg v ->
  notneg (fold_left (fun (s : car SFs) k => sadd s (smul (s := SFs) (x k) (x k))) l v).
Proof.
  revert v. induction l as [|k l IH]; intros v D (Hv & Pv); [now split|]. cbn [fold_left]. apply IH; [intros; apply D; now right|].
  pose proof (D k (or_introl eq_refl)) as Dk. pose proof (mul_double _ _ Dk Dk) as DM. split; [exact (add_double _ _ Hv DM)|].
  intros F. destruct (add_finite _ _ Hv DM F) as (F1 & F2 & E). destruct (mul_finite _ _ Dk Dk F2) as (_ & _ & E2).
  change (0 <= rv (SFadd 53 1024 v (SFmul 53 1024 (x k) (x k)))). rewrite E. apply rnd_ge_0. rewrite E2. specialize (Pv F1).
  pose proof (rnd_ge_0 (rv (x k) * rv (x k)) ltac:(nra)). lra.
Qed.

Lemma squares_abs n (x : vect SFs) : inner (S := Rs) n (absolutes x) (absolutes x) = inner (S := Rs) n (reals x) (reals x).
Proof.
  unfold inner, sum_range. f_equal. apply map_ext. intros k. unfold absolutes, reals. cbn. rewrite <- Rabs_mult. apply Rabs_pos_eq. nra.
Qed.

Lemma v_l2norm_rounds (h : heap SFs) (x : view) : view_ok h x -> (forall k, (0 <= k < v_len x)%Z -> double (vat h x k)) ->
  exists y, v_l2norm (S := SFs) (SFsqrt 53 1024) h x = Ok y /\ accurate_norm (v_len x) (vat h x) y.
Proof.
  intros Hx D. unfold v_l2norm. rewrite (v_inner_ok h x x Hx Hx eq_refl). cbn [bind].
  pose proof (range_computed (v_len x) (vat h x) (vat h x) (fun k Hk => conj (D k Hk) (D k Hk))) as C.
  assert (NN : notneg (fold_left (fun (s : car SFs) k => sadd s (smul (s := SFs) (vat h x k) (vat h x k))) (zrange 0 (v_len x)) s0)).
  { apply squares_notneg; [intros k Hk; apply D; now apply In_zrange|]. split; [reflexivity|]. intros _. apply Rle_refl. }
  set (p := fold_left _ _ _) in *. exists (SFsqrt 53 1024 p). split; [reflexivity|]. unfold accurate_sum in C. rewrite squares_abs in C.
  destruct C as [C1 C2 C3 _]. pose proof u_pos as U. split.
  - now apply sqrt_double.
  - intros F s. destruct (sqrt_value p C1 F) as (Fp & P & E). specialize (C2 Fp). fold s in C2. set (b := bound (Z.to_nat (v_len x)) s) in *.
    destruct (rnd_sqrt (rv p) (rv_format p C1) P) as (d & Hd & E2). rewrite E, E2. apply Rabs_le_inv in C2. apply Rabs_le_inv in Hd.
    assert (U1 : unit_roundoff < 1) by (unfold unit_roundoff; change 1 with (bpow radix2 0); apply bpow_lt; lia).
    pose proof (sqrt_le_1_alt (s - b) (rv p) ltac:(lra)) as L1. pose proof (sqrt_le_1_alt (rv p) (s + b) ltac:(lra)) as L2.
    pose proof (sqrt_pos (rv p)) as S0. pose proof (sqrt_pos (s - b)). split; nra.
  - intros HF HN. apply sqrt_in_range; [exact C1| |].
    + apply C3; [intros k Hk; split; now apply HF|exact HN].
    + apply NN. apply C3; [intros k Hk; split; now apply HF|exact HN].
Qed.
