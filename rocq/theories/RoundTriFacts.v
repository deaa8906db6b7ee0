(** Differences and quotients of doubles, and chains of subtracted products. *)

From Coq Require Import ZArith Reals List Bool Lia Lra Floats.SpecFloat.
From Flocq Require Import Core BinarySingleNaN Plus_error Relative.
From Verif Require Import Base Scalar ScalarR Spec Double RoundSpec RoundFacts.
Import ListNotations.
Open Scope R_scope.

Local Instance prec53 : FLX.Prec_gt_0 53 := eq_refl _.
Local Instance emax1024 : Prec_lt_emax 53 1024 := eq_refl _.

Lemma cond_negb s m : cond_Zopp (negb s) m = (- cond_Zopp s m)%Z.
Proof. destruct s; cbn; [now rewrite Z.opp_involutive|reflexivity]. Qed.

Lemma sub_equiv (x y : binary_float 53 1024) : SFsub 53 1024 (B2SF x) (B2SF y) = B2SF (Bminus mode_NE x y).
Proof.
  destruct x as [sx|sx| |sx mx ex Bx], y as [sy|sy| |sy my ey By]; try reflexivity; try (simpl; now destruct (Bool.eqb _ _)).
  cbn [SFsub B2SF Bminus]. cbv zeta. rewrite <- normalize_equiv. f_equal. unfold Fplus_naive. rewrite cond_negb. reflexivity.
Qed.

Lemma div_equiv (x y : binary_float 53 1024) : SFdiv 53 1024 (B2SF x) (B2SF y) = B2SF (Bdiv mode_NE x y).
Proof.
  destruct x as [sx|sx| |sx mx ex Bx], y as [sy|sy| |sy my ey By]; try reflexivity. cbn [SFdiv B2SF Bdiv]. rewrite B2SF_SF2B.
  destruct (SFdiv_core_binary 53 1024 (Zpos mx) ex (Zpos my) ey) as [[mz ez] lz]. apply round_aux_equiv.
Qed.

Lemma sub_double x y : double x -> double y -> double (SFsub 53 1024 x y).
Proof. intros Hx Hy. destruct (double_B x Hx) as (bx & ->), (double_B y Hy) as (b & ->). rewrite sub_equiv. apply B_double. Qed.
Lemma div_double x y : double x -> double y -> double (SFdiv 53 1024 x y).
Proof. intros Hx Hy. destruct (double_B x Hx) as (bx & ->), (double_B y Hy) as (b & ->). rewrite div_equiv. apply B_double. Qed.

Lemma sub_finite x y : double x -> double y -> finite (SFsub 53 1024 x y) -> finite x /\ finite y /\ rv (SFsub 53 1024 x y) = rnd (rv x - rv y).
Proof.
  intros Hx Hy F. destruct (double_B x Hx) as (bx & ->), (double_B y Hy) as (b & ->).
  assert (FF : finite (B2SF bx) /\ finite (B2SF b)).
  { clear Hx Hy. unfold finite in *. destruct bx as [sx|sx| |sx mx ex Bx], b as [sy|sy| |sy my ey By]; try (split; reflexivity); simpl in F; try discriminate; destruct sx, sy; discriminate. }
  destruct FF as (Fx & Fy). split; [exact Fx|]. split; [exact Fy|]. rewrite sub_equiv in *. unfold finite in *. rewrite !finite_B in *. unfold rv. rewrite !SF2R_B2SF.
  pose proof (Bminus_correct 53 1024 prec53 emax1024 mode_NE bx b Fx Fy) as C. change (SpecFloat.fexp 53 1024) with (FLT_exp (-1074) 53) in C. cbn [round_mode] in C.
  destruct (Rlt_bool _ _); [tauto|]. destruct C as (C & _). rewrite <- finite_B, C in F. discriminate F.
Qed.

(** A finite quotient by a finite number: the numerator is finite and the denominator is not 0. *)
Lemma div_finite x y : double x -> double y -> finite y -> finite (SFdiv 53 1024 x y) -> finite x /\ rv y <> 0 /\ rv (SFdiv 53 1024 x y) = rnd (rv x / rv y).
Proof.
  intros Hx Hy Fy F. destruct (double_B x Hx) as (bx & ->), (double_B y Hy) as (b & ->).
  assert (N : rv (B2SF b) <> 0).
  { clear Hx Hy. unfold finite in *. unfold rv. rewrite SF2R_B2SF. destruct b as [sy|sy| |sy my ey By]; try discriminate Fy.
    - exfalso. destruct bx; discriminate F.
    - cbn. apply F2R_neq_0. destruct sy; discriminate. }
  assert (Fx : finite (B2SF bx)).
  { clear Hx Hy. unfold finite in *. destruct bx as [sx|sx| |sx mx ex Bx], b as [sy|sy| |sy my ey By]; try reflexivity; discriminate. }
  split; [exact Fx|]. split; [exact N|]. rewrite div_equiv in *. unfold finite in *. rewrite !finite_B in *. unfold rv in *. rewrite !SF2R_B2SF in *.
  pose proof (Bdiv_correct 53 1024 prec53 emax1024 mode_NE bx b N) as C. change (SpecFloat.fexp 53 1024) with (FLT_exp (-1074) 53) in C. cbn [round_mode] in C.
  destruct (Rlt_bool _ _); [tauto|]. rewrite <- finite_B, C in F. discriminate F.
Qed.

(** The error of one operation, relative to its result *)
Lemma rnd_sub_back x y : format x -> format y -> Rabs (rnd (x - y) - (x - y)) <= unit_roundoff * Rabs (rnd (x - y)).
Proof.
  intros Fx Fy. destruct (FLT_plus_error_N_round_ex radix2 (-1074) 53 (fun x => negb (Z.even x)) x (- y) Fx (generic_format_opp _ _ _ Fy)) as (e & He & E).
  change (x + - y) with (x - y) in E. set (r := rnd (x - y)) in *. replace (r - (x - y)) with (- (e * r)) by (unfold Rminus at 2; lra). rewrite Rabs_Ropp, Rabs_mult. apply Rmult_le_compat_r; [apply Rabs_pos|].
  eapply Rle_trans; [exact He|]. unfold u_ro. apply Req_le. unfold unit_roundoff. change (Z.opp 53 + 1)%Z with (-53 + 1)%Z. rewrite (bpow_plus radix2 (-53) 1). simpl (bpow radix2 1). lra.
Qed.

Lemma rnd_back z : Rabs (rnd z - z) <= unit_roundoff * Rabs (rnd z) + underflow.
Proof.
  pose proof (error_le_half_ulp_round radix2 (FLT_exp (-1074) 53) (fun x => negb (Z.even x)) z) as E. set (r := rnd z) in *. change (round radix2 (FLT_exp (-1074) 53) (Znearest (fun x : Z => negb (Z.even x))) z) with r in E.
  pose proof (Rmult_le_pos _ _ (Rlt_le _ _ u_pos) (Rabs_pos r)) as P. pose proof eta_pos as Q.
  destruct (Rle_or_lt (bpow radix2 (-1074 + 53 - 1)) (Rabs r)) as [H|H].
  - pose proof (ulp_FLT_le radix2 (-1074) 53 r H) as U. change (1 - 53)%Z with (-53 + 1)%Z in U. rewrite (bpow_plus radix2 (-53) 1) in U. simpl (bpow radix2 1) in U. fold unit_roundoff in U. lra.
  - assert (H' : Rabs r < bpow radix2 (-1074 + 53)) by (eapply Rlt_trans; [exact H|apply bpow_lt; lia]).
    pose proof (ulp_FLT_small radix2 (-1074) 53 r H') as U. unfold underflow in *. change (-1074)%Z with (-1075 + 1)%Z in U at 2. rewrite (bpow_plus radix2 (-1075) 1) in U. simpl (bpow radix2 1) in U. lra.
Qed.

(* ---------------------------------------------------------------- chains *)

(** a - p1 - p2 - ..., the way a loop computes it *)
Definition chain_step (v : spec_float) (p : pair) : spec_float := SFsub 53 1024 v (SFmul 53 1024 (fst p) (snd p)).
Definition chain (a : spec_float) (l : list pair) : spec_float := fold_left chain_step l a.

Lemma chain_double l : doubles l -> forall a, double a -> double (chain a l).
Proof. intros H. induction H as [|p l (H1 & H2) _ IH]; intros a Ha; [exact Ha|]. apply IH. apply sub_double; [exact Ha|now apply mul_double]. Qed.

Lemma Rabs_triang3 a b c : Rabs (a + b + c) <= Rabs a + Rabs b + Rabs c.
Proof. eapply Rle_trans; [apply Rabs_triang|]. pose proof (Rabs_triang a b). lra. Qed.

Lemma chain_error l : doubles l -> forall a, double a -> finite (chain a l) ->
  finite a /\ all_finite l /\
  Rabs (rv a - exact_sum l - rv (chain a l)) <= (q ^ length l - 1) * Rabs (rv (chain a l)) + (q ^ (length l + 1) - 1) * abs_sum l + q ^ length l * (INR (length l) * underflow).
Proof.
  intros H. induction H as [|p l (H1 & H2) Hl IH]; intros a Ha F.
  - split; [exact F|]. split; [constructor|]. unfold chain, exact_sum, abs_sum. cbn [fold_left fold_right length]. replace (rv a - 0 - rv a) with 0 by ring. rewrite Rabs_R0. cbn. pose proof (Rabs_pos (rv a)). lra.
  - change (chain a (p :: l)) with (chain (chain_step a p) l) in *. assert (Hm : double (SFmul 53 1024 (fst p) (snd p))) by now apply mul_double.
    destruct (IH (chain_step a p)) as (F1 & Fl & E); [now apply sub_double|exact F|]. clear IH. unfold chain_step in F1. destruct (sub_finite _ _ Ha Hm F1) as (Fa & Fm & Es). destruct (mul_finite _ _ H1 H2 Fm) as (Fp1 & Fp2 & Em).
    split; [exact Fa|]. split; [constructor; [split; assumption|exact Fl]|].
    set (s := rv (chain (chain_step a p) l)) in *. fold (chain_step a p) in Es. set (a' := rv (chain_step a p)) in *. set (m := rv (SFmul 53 1024 (fst p) (snd p))) in *. set (z := rv (fst p) * rv (snd p)) in *.
    pose proof (rnd_sub_back (rv a) m (rv_format _ Ha) (rv_format _ Hm)) as E1. rewrite <- Es in E1.
    destruct (rnd_mul z) as (d & h & Hd & Hh & E2). rewrite <- Em in E2.
    change (exact_sum (p :: l)) with (z + exact_sum l). change (abs_sum (p :: l)) with (Rabs (rv (fst p)) * Rabs (rv (snd p)) + abs_sum l). rewrite <- Rabs_mult. fold z.
    cbn [length]. rewrite S_INR. replace (S (length l) + 1)%nat with (S (length l + 1)) by lia. rewrite <- !tech_pow_Rmult. replace (length l + 1)%nat with (S (length l)) in * by lia. rewrite <- !tech_pow_Rmult in *.
    set (g := q ^ length l) in *. set (x := exact_sum l) in *. set (ab := abs_sum l) in *. set (k := INR (length l)) in *.
    assert (G1 : 1 <= g) by apply pow_ge. assert (K : 0 <= k) by apply pos_INR. assert (AB : 0 <= ab) by apply abs_sum_pos. assert (XA : Rabs x <= ab) by apply exact_le_abs.
    pose proof u_pos as U. pose proof eta_pos as Et. pose proof (Rabs_pos s) as S0. pose proof (Rabs_pos z) as Z0.
    assert (A' : Rabs a' <= g * Rabs s + q * g * ab + g * (k * underflow)).
    { replace a' with ((a' - x - s) + x + s) by ring. eapply Rle_trans; [apply Rabs_triang3|]. lra. }
    assert (D : Rabs (m - z) <= unit_roundoff * Rabs z + underflow).
    { rewrite E2. replace (z * (1 + d) + h - z) with (d * z + h) by ring. eapply Rle_trans; [apply Rabs_triang|]. rewrite Rabs_mult. pose proof (Rmult_le_compat_r _ _ _ Z0 Hd). lra. }
    replace (rv a - (z + x) - s) with ((a' - x - s) + (- (a' - (rv a - m))) + (m - z)) by ring. eapply Rle_trans; [apply Rabs_triang3|]. rewrite Rabs_Ropp.
    pose proof (Rmult_le_compat_l unit_roundoff _ _ ltac:(lra) A') as A2.
    assert (P1 : 0 <= (q * g - 1) * Rabs z) by (apply Rmult_le_pos; [|exact Z0]; pose proof (Rmult_le_compat_l unit_roundoff 1 g ltac:(lra) G1); lra).
    assert (P2 : 0 <= unit_roundoff * (q * g) * Rabs z - 0) by (rewrite Rminus_0_r; apply Rmult_le_pos; [apply Rmult_le_pos; [lra|apply Rmult_le_pos; lra]|exact Z0]).
    assert (P3 : 0 <= (q * g - 1) * underflow) by (apply Rmult_le_pos; [|lra]; pose proof (Rmult_le_compat_l unit_roundoff 1 g ltac:(lra) G1); lra).
    assert (P4 : unit_roundoff * Rabs z <= unit_roundoff * (q * g) * Rabs z).
    { apply Rmult_le_compat_r; [exact Z0|]. rewrite <- (Rmult_1_r unit_roundoff) at 1. apply Rmult_le_compat_l; [lra|]. pose proof (Rmult_le_compat_l unit_roundoff 1 g ltac:(lra) G1). lra. }
    nra.
Qed.
