(** The arithmetic of SpecFloat on doubles is the exact one, rounded once. *)

From Coq Require Import ZArith Reals List Bool Lia Lra Floats.SpecFloat.
From Flocq Require Import Core BinarySingleNaN Plus_error Relative.
From Verif Require Import Base Scalar ScalarR Spec Double RoundSpec.
Import ListNotations.
Open Scope R_scope.

Local Instance prec53 : FLX.Prec_gt_0 53 := eq_refl _.
Local Instance emax1024 : Prec_lt_emax 53 1024 := eq_refl _.

Notation rnd := (round radix2 (FLT_exp (-1074) 53) ZnearestE).
Notation format := (generic_format radix2 (FLT_exp (-1074) 53)).

Lemma nearest_even_equiv s m l : round_nearest_even m l = choice_mode mode_NE s m l.
Proof. destruct l as [|[]]; try reflexivity. simpl. unfold Round.cond_incr. now destruct (Z.even m). Qed.

Lemma round_aux_equiv sx mx ex lx : SpecFloat.binary_round_aux 53 1024 sx mx ex lx = binary_round_aux 53 1024 mode_NE sx mx ex lx.
Proof.
  unfold SpecFloat.binary_round_aux, binary_round_aux. destruct (shr_fexp 53 1024 mx ex lx) as [mrs' e']. cbv zeta. now rewrite (nearest_even_equiv sx).
Qed.

Lemma round_equiv s m e : SpecFloat.binary_round 53 1024 s m e = binary_round 53 1024 mode_NE s m e.
Proof.
  unfold SpecFloat.binary_round, binary_round, shl_align_fexp. destruct (shl_align _ _ _) as [mz ez]. apply round_aux_equiv.
Qed.

Lemma normalize_equiv m e szero : SpecFloat.binary_normalize 53 1024 m e szero = B2SF (binary_normalize 53 1024 prec53 emax1024 mode_NE m e szero).
Proof. destruct m as [|p|p]; [reflexivity| |]; simpl; rewrite B2SF_SF2B; apply round_equiv. Qed.

Lemma mul_equiv (x y : binary_float 53 1024) : SFmul 53 1024 (B2SF x) (B2SF y) = B2SF (Bmult mode_NE x y).
Proof. destruct x as [sx|sx| |sx mx ex Bx], y as [sy|sy| |sy my ey By]; try reflexivity. simpl. rewrite B2SF_SF2B. apply round_aux_equiv. Qed.

Lemma add_equiv (x y : binary_float 53 1024) : SFadd 53 1024 (B2SF x) (B2SF y) = B2SF (Bplus mode_NE x y).
Proof. destruct x as [sx|sx| |sx mx ex Bx], y as [sy|sy| |sy my ey By]; try reflexivity; try (simpl; now destruct (Bool.eqb _ _)). apply normalize_equiv. Qed.

Lemma double_B x : double x -> exists b : binary_float 53 1024, x = B2SF b.
Proof. intros H. exists (SF2B x H). symmetry. apply B2SF_SF2B. Qed.

Lemma B_double (b : binary_float 53 1024) : double (B2SF b).
Proof. apply valid_binary_B2SF. Qed.

Lemma mul_double x y : double x -> double y -> double (SFmul 53 1024 x y).
Proof. intros Hx Hy. destruct (double_B x Hx) as (bx & ->), (double_B y Hy) as (b & ->). rewrite mul_equiv. apply B_double. Qed.

Lemma add_double x y : double x -> double y -> double (SFadd 53 1024 x y).
Proof. intros Hx Hy. destruct (double_B x Hx) as (bx & ->), (double_B y Hy) as (b & ->). rewrite add_equiv. apply B_double. Qed.

Lemma rv_format x : double x -> format (rv x).
Proof. intros Hx. destruct (double_B x Hx) as (b & ->). unfold rv. rewrite SF2R_B2SF. apply generic_format_B2R. Qed.

Lemma finite_B (b : binary_float 53 1024) : is_finite_SF (B2SF b) = is_finite b.
Proof. now destruct b. Qed.

Lemma overflow_infinite s : is_finite_SF (binary_overflow 53 1024 mode_NE s) = false.
Proof. reflexivity. Qed.

(** A product that is finite has finite factors and is the rounded product. *)
Lemma mul_finite x y : double x -> double y -> finite (SFmul 53 1024 x y) -> finite x /\ finite y /\ rv (SFmul 53 1024 x y) = rnd (rv x * rv y).
Proof.
  intros Hx Hy F. destruct (double_B x Hx) as (bx & ->), (double_B y Hy) as (b & ->). rewrite mul_equiv in *. unfold finite in *. rewrite !finite_B in *. unfold rv. rewrite !SF2R_B2SF.
  pose proof (Bmult_correct 53 1024 prec53 emax1024 mode_NE bx b) as C. change (SpecFloat.fexp 53 1024) with (FLT_exp (-1074) 53) in C. cbn [round_mode] in C.
  destruct (Rlt_bool _ _).
  - destruct C as (C1 & C2 & _). rewrite F in C2. symmetry in C2. apply andb_prop in C2. tauto.
  - rewrite <- finite_B, C in F. discriminate F.
Qed.

Lemma mul_in_range x y : double x -> double y -> finite x -> finite y -> Rabs (rnd (rv x * rv y)) < bpow radix2 1024 -> finite (SFmul 53 1024 x y).
Proof.
  intros Hx Hy Fx Fy B. destruct (double_B x Hx) as (bx & ->), (double_B y Hy) as (b & ->). rewrite mul_equiv in *. unfold finite in *. rewrite !finite_B in *. unfold rv in B. rewrite !SF2R_B2SF in B.
  pose proof (Bmult_correct 53 1024 prec53 emax1024 mode_NE bx b) as C. change (SpecFloat.fexp 53 1024) with (FLT_exp (-1074) 53) in C. cbn [round_mode] in C.
  rewrite Rlt_bool_true in C by exact B. destruct C as (_ & C2 & _). now rewrite C2, Fx, Fy.
Qed.

Lemma add_finite x y : double x -> double y -> finite (SFadd 53 1024 x y) -> finite x /\ finite y /\ rv (SFadd 53 1024 x y) = rnd (rv x + rv y).
Proof.
  intros Hx Hy F. destruct (double_B x Hx) as (bx & ->), (double_B y Hy) as (b & ->).
  assert (FF : finite (B2SF bx) /\ finite (B2SF b)).
  { clear Hx Hy. unfold finite in *. destruct bx as [sx|sx| |sx mx ex Bx], b as [sy|sy| |sy my ey By]; try (split; reflexivity); simpl in F; try discriminate; destruct sx, sy; discriminate. }
  destruct FF as (Fx & Fy). split; [exact Fx|]. split; [exact Fy|]. rewrite add_equiv in *. unfold finite in *. rewrite !finite_B in *. unfold rv. rewrite !SF2R_B2SF.
  pose proof (Bplus_correct 53 1024 prec53 emax1024 mode_NE bx b Fx Fy) as C. change (SpecFloat.fexp 53 1024) with (FLT_exp (-1074) 53) in C. cbn [round_mode] in C.
  destruct (Rlt_bool _ _); [tauto|]. destruct C as (C & _). rewrite <- finite_B, C in F. discriminate F.
Qed.

Lemma add_in_range x y : double x -> double y -> finite x -> finite y -> Rabs (rnd (rv x + rv y)) < bpow radix2 1024 -> finite (SFadd 53 1024 x y).
Proof.
  intros Hx Hy Fx Fy B. destruct (double_B x Hx) as (bx & ->), (double_B y Hy) as (b & ->). rewrite add_equiv in *. unfold finite in *. rewrite !finite_B in *. unfold rv in B. rewrite !SF2R_B2SF in B.
  pose proof (Bplus_correct 53 1024 prec53 emax1024 mode_NE bx b Fx Fy) as C. change (SpecFloat.fexp 53 1024) with (FLT_exp (-1074) 53) in C. cbn [round_mode] in C.
  rewrite Rlt_bool_true in C by exact B. tauto.
Qed.

(** The error of one operation *)
Lemma rnd_mul z : exists d h, Rabs d <= unit_roundoff /\ Rabs h <= underflow /\ rnd z = z * (1 + d) + h.
Proof.
  destruct (error_N_FLT radix2 (-1074) 53 eq_refl (fun x => negb (Z.even x)) z) as (d & h & Hd & Hh & _ & E). exists d, h. split; [|split; [|exact E]].
  - unfold unit_roundoff. replace (bpow radix2 (-53)) with (/ 2 * bpow radix2 (-53 + 1)); [exact Hd|]. rewrite bpow_plus. simpl (bpow radix2 1). lra.
  - unfold underflow. replace (bpow radix2 (-1075)) with (/ 2 * bpow radix2 (-1074)); [exact Hh|]. change (-1074)%Z with (-1075 + 1)%Z. rewrite bpow_plus. simpl (bpow radix2 1). lra.
Qed.

Lemma u_pos : 0 < unit_roundoff.
Proof. apply bpow_gt_0. Qed.

Lemma eta_pos : 0 < underflow.
Proof. apply bpow_gt_0. Qed.

Lemma rnd_add x y : format x -> format y -> exists e, Rabs e <= unit_roundoff /\ rnd (x + y) = (x + y) * (1 + e).
Proof.
  intros Fx Fy. destruct (FLT_plus_error_N_ex radix2 (-1074) 53 (fun x => negb (Z.even x)) x y Fx Fy) as (e & He & E). exists e. split; [|exact E].
  eapply Rle_trans; [exact He|]. unfold u_ro. change (Z.opp 53 + 1)%Z with (-53 + 1)%Z. replace (/ 2 * bpow radix2 (-53 + 1)) with unit_roundoff by (unfold unit_roundoff; rewrite (bpow_plus radix2 (-53) 1); simpl (bpow radix2 1); lra).
  pose proof u_pos. assert (I : / (1 + unit_roundoff) <= / 1) by (apply Rinv_le; lra). rewrite Rinv_1 in I. unfold Rdiv. pose proof (Rmult_le_compat_l unit_roundoff _ _ ltac:(lra) I). lra.
Qed.

Lemma rnd_format x : format x -> rnd x = x.
Proof. intros F. now apply round_generic; [apply valid_rnd_N|]. Qed.

(* ---------------------------------------------------------------- sums of products *)

Notation pair := (spec_float * spec_float)%type.
Definition step (v : spec_float) (p : pair) : spec_float := SFadd 53 1024 v (SFmul 53 1024 (fst p) (snd p)).
Definition exact_sum (l : list pair) : R := fold_right (fun p s => rv (fst p) * rv (snd p) + s) 0 l.
Definition abs_sum (l : list pair) : R := fold_right (fun p s => Rabs (rv (fst p)) * Rabs (rv (snd p)) + s) 0 l.
Definition doubles (l : list pair) : Prop := Forall (fun p => double (fst p) /\ double (snd p)) l.

Notation q := (1 + unit_roundoff).

Lemma pow_ge k : 1 <= q ^ k.
Proof. apply pow_R1_Rle. pose proof u_pos. lra. Qed.

Lemma abs_sum_pos l : 0 <= abs_sum l.
Proof.
  induction l as [|p l IH]; unfold abs_sum in *; cbn [fold_right]; [lra|]. pose proof (Rmult_le_pos _ _ (Rabs_pos (rv (fst p))) (Rabs_pos (rv (snd p)))). lra.
Qed.

Lemma rv_zero : rv (S754_zero false) = 0.
Proof. reflexivity. Qed.

Lemma bound_0 a : bound 0 a = 0.
Proof. unfold bound. simpl. ring. Qed.

(** One step of the sum: error so far e, sum so far s with absolute values a, next product z *)
Lemma error_step k v s a z d h e : (1 <= k)%nat -> Rabs s <= a -> Rabs (v - s) <= bound k a ->
  Rabs d <= unit_roundoff -> Rabs h <= underflow -> Rabs e <= unit_roundoff ->
  Rabs ((v + (z * (1 + d) + h)) * (1 + e) - (s + z)) <= bound (S k) (a + Rabs z).
Proof.
  intros Hk Hs Hv Hd Hh He. pose proof u_pos as U. pose proof eta_pos as T.
  replace ((v + (z * (1 + d) + h)) * (1 + e) - (s + z)) with ((v - s + z * d + h) * (1 + e) + (s + z) * e) by ring.
  assert (E1 : Rabs (1 + e) <= q). { eapply Rle_trans; [apply Rabs_triang|]. rewrite Rabs_R1. lra. }
  assert (A0 : 0 <= a) by (pose proof (Rabs_pos s); lra). pose proof (Rabs_pos z) as Z0.
  assert (B1 : Rabs (v - s + z * d + h) <= bound k a + Rabs z * unit_roundoff + underflow).
  { eapply Rle_trans; [apply Rabs_triang|]. apply Rplus_le_compat; [|exact Hh]. eapply Rle_trans; [apply Rabs_triang|]. apply Rplus_le_compat; [exact Hv|]. rewrite Rabs_mult. now apply Rmult_le_compat_l. }
  assert (B2 : Rabs ((s + z) * e) <= (a + Rabs z) * unit_roundoff).
  { rewrite Rabs_mult. apply Rmult_le_compat; try apply Rabs_pos; [|exact He]. eapply Rle_trans; [apply Rabs_triang|]. lra. }
  eapply Rle_trans; [apply Rabs_triang|]. rewrite (Rabs_mult _ (1 + e)).
  assert (B3 : Rabs (v - s + z * d + h) * Rabs (1 + e) <= (bound k a + Rabs z * unit_roundoff + underflow) * q) by (apply Rmult_le_compat; try apply Rabs_pos; assumption).
  eapply Rle_trans; [apply Rplus_le_compat; [exact B3|exact B2]|]. unfold bound. rewrite S_INR. simpl (q ^ S k).
  pose proof (pow_ge k) as P1. assert (P2 : q <= q ^ k). { destruct k as [|k]; [lia|]. simpl. pose proof (pow_ge k). assert (Q : 0 < q) by lra. pose proof (Rmult_le_compat_l q _ _ ltac:(lra) H). lra. }
  set (Q := q ^ k) in *. set (uu := unit_roundoff) in *. set (N := INR k). assert (N0 : 0 <= N) by apply pos_INR.
  assert (G1 : Rabs z * (uu * (1 + uu) + uu) <= Rabs z * ((1 + uu) * Q - 1)). { apply Rmult_le_compat_l; [exact Z0|]. pose proof (Rmult_le_compat_l (1 + uu) (1 + uu) Q ltac:(lra) P2). lra. }
  assert (G2 : (1 + uu) * underflow <= (1 + uu) * Q * underflow). { rewrite <- (Rmult_1_r (1 + uu)) at 1. apply Rmult_le_compat_r; [lra|]. apply Rmult_le_compat_l; lra. }
  nra.
Qed.

Lemma abs_step v z d h e k a : (1 <= k)%nat -> 0 <= a -> Rabs v <= q ^ k * (a + INR k * underflow) -> Rabs d <= unit_roundoff -> Rabs h <= underflow -> Rabs e <= unit_roundoff ->
  Rabs ((v + (z * (1 + d) + h)) * (1 + e)) <= q ^ S k * (a + Rabs z + INR (S k) * underflow).
Proof.
  intros Hk A0 Hv Hd Hh He. pose proof u_pos as U. pose proof eta_pos as T. pose proof (Rabs_pos z) as Z0.
  assert (E1 : Rabs (1 + e) <= q) by (eapply Rle_trans; [apply Rabs_triang|]; rewrite Rabs_R1; lra).
  assert (D1 : Rabs (1 + d) <= q) by (eapply Rle_trans; [apply Rabs_triang|]; rewrite Rabs_R1; lra).
  assert (B : Rabs (v + (z * (1 + d) + h)) <= q ^ k * (a + INR k * underflow) + (Rabs z * q + underflow)).
  { eapply Rle_trans; [apply Rabs_triang|]. apply Rplus_le_compat; [exact Hv|]. eapply Rle_trans; [apply Rabs_triang|]. apply Rplus_le_compat; [|exact Hh]. rewrite Rabs_mult. now apply Rmult_le_compat_l. }
  rewrite Rabs_mult. eapply Rle_trans; [apply Rmult_le_compat; [apply Rabs_pos|apply Rabs_pos|exact B|exact E1]|]. rewrite S_INR. simpl (q ^ S k).
  assert (P2 : q <= q ^ k). { destruct k as [|k]; [lia|]. simpl. pose proof (pow_ge k) as P. pose proof (Rmult_le_compat_l q _ _ ltac:(lra) P). lra. }
  pose proof (pow_ge k) as P1. set (Q := q ^ k) in *. set (uu := unit_roundoff) in *. set (N := INR k). assert (N0 : 0 <= N) by apply pos_INR.
  assert (G1 : Rabs z * (1 + uu) <= Rabs z * Q) by now apply Rmult_le_compat_l.
  assert (G2 : underflow <= Q * underflow) by (rewrite <- (Rmult_1_l underflow) at 1; apply Rmult_le_compat_r; lra).
  replace ((1 + uu) * Q * (a + Rabs z + (N + 1) * underflow)) with ((Q * (a + N * underflow) + (Rabs z * Q + Q * underflow)) * (1 + uu)) by ring.
  apply Rmult_le_compat_r; lra.
Qed.

Lemma step_double v p : double v -> double (fst p) -> double (snd p) -> double (step v p).
Proof. intros. unfold step. apply add_double; [assumption|]. now apply mul_double. Qed.

Lemma fold_double l : doubles l -> forall v, double v -> double (fold_left step l v).
Proof.
  induction l as [|p l IH]; intros D v V; [exact V|]. inversion_clear D as [|? ? (D1 & D2) D']. cbn [fold_left]. apply IH; [exact D'|]. now apply step_double.
Qed.

Lemma fold_finite_start l : doubles l -> forall v, double v -> finite (fold_left step l v) -> finite v.
Proof.
  induction l as [|p l IH]; intros D v V F; [exact F|]. inversion_clear D as [|? ? (D1 & D2) D']. cbn [fold_left] in F.
  apply IH in F; [|exact D'|now apply step_double]. unfold step in F. apply add_finite in F; [tauto|exact V|now apply mul_double].
Qed.

(** The value after one step *)
Lemma step_value v p : double v -> double (fst p) -> double (snd p) -> finite (step v p) ->
  finite v /\ exists m, double m /\ rv m = rnd (rv (fst p) * rv (snd p)) /\ rv (step v p) = rnd (rv v + rv m).
Proof.
  intros V D1 D2 F. unfold step in *. pose proof (mul_double _ _ D1 D2) as M. destruct (add_finite _ _ V M F) as (Fv & Fm & E). split; [exact Fv|].
  exists (SFmul 53 1024 (fst p) (snd p)). split; [exact M|]. split; [|exact E]. now apply mul_finite.
Qed.

Lemma exact_le_abs l : Rabs (exact_sum l) <= abs_sum l.
Proof.
  induction l as [|p l IH]; unfold exact_sum, abs_sum in *; cbn [fold_right]; [rewrite Rabs_R0; lra|]. eapply Rle_trans; [apply Rabs_triang|]. rewrite Rabs_mult. lra.
Qed.

Lemma fold_error l : doubles l -> forall k v s a, double v -> Rabs s <= a -> (finite v -> Rabs (rv v - s) <= bound k a) ->
  (k = 0%nat -> v = S754_zero false /\ s = 0 /\ a = 0) -> finite (fold_left step l v) ->
  Rabs (rv (fold_left step l v) - (s + exact_sum l)) <= bound (k + length l) (a + abs_sum l).
Proof.
  induction l as [|p l IH]; intros D k v s a V Hs Hv Hk F.
  - cbn [fold_left length] in *. unfold exact_sum, abs_sum. cbn [fold_right]. rewrite Nat.add_0_r, !Rplus_0_r. now apply Hv.
  - inversion_clear D as [|? ? (D1 & D2) D']. cbn [fold_left length] in *. set (z := rv (fst p) * rv (snd p)).
    assert (Ez : Rabs z = Rabs (rv (fst p)) * Rabs (rv (snd p))) by apply Rabs_mult.
    replace (s + exact_sum (p :: l)) with (s + z + exact_sum l) by (unfold exact_sum; cbn [fold_right]; fold z; ring).
    replace (a + abs_sum (p :: l)) with (a + Rabs z + abs_sum l) by (unfold abs_sum; cbn [fold_right]; rewrite Ez; ring).
    replace (k + S (length l))%nat with (S k + length l)%nat by lia. apply IH; [exact D'|now apply step_double| | |lia|exact F].
    + eapply Rle_trans; [apply Rabs_triang|]. lra.
    + intros Fp. destruct (step_value v p V D1 D2 Fp) as (Fv & m & M & Em & Es). destruct (rnd_mul z) as (d & h & Hd & Hh & E). fold z in Em. rewrite E in Em. rewrite Es.
      destruct k as [|k].
      * destruct (Hk eq_refl) as (-> & -> & ->). rewrite rv_zero, Rplus_0_l, rnd_format by now apply rv_format. rewrite Em.
        replace (z * (1 + d) + h - (0 + z)) with (z * d + h) by ring. unfold bound. simpl (INR 1). simpl (q ^ 1). pose proof u_pos. pose proof eta_pos. pose proof (Rabs_pos z).
        eapply Rle_trans; [apply Rabs_triang|]. rewrite Rabs_mult. pose proof (Rmult_le_compat_l (Rabs z) _ _ (Rabs_pos z) Hd). pose proof (Rmult_lt_0_compat _ _ H H0). lra.
      * destruct (rnd_add (rv v) (rv m)) as (e & He & E2); [now apply rv_format|now apply rv_format|]. rewrite E2, Em. apply error_step; auto; lia.
Qed.

Lemma mono_range n a b : a <= b -> q ^ n * (a + INR n * underflow) <= q ^ n * (b + INR n * underflow).
Proof. intros H. apply Rmult_le_compat_l; [pose proof (pow_ge n); lra|lra]. Qed.

Lemma grow_range j n a : (j <= n)%nat -> 0 <= a -> q ^ j * (a + INR j * underflow) <= q ^ n * (a + INR n * underflow).
Proof.
  intros H A. pose proof u_pos. pose proof eta_pos. apply Rmult_le_compat.
  - pose proof (pow_ge j). lra.
  - pose proof (pos_INR j). pose proof (Rmult_le_pos (INR j) underflow H2 ltac:(lra)). lra.
  - apply Rle_pow; [lra|exact H].
  - apply Rplus_le_compat_l. apply Rmult_le_compat_r; [lra|]. now apply le_INR.
Qed.

Definition all_finite (l : list pair) : Prop := Forall (fun p => finite (fst p) /\ finite (snd p)) l.

Lemma fold_in_range l : doubles l -> all_finite l -> forall k v a, double v -> finite v -> 0 <= a -> Rabs (rv v) <= q ^ k * (a + INR k * underflow) ->
  (k = 0%nat -> v = S754_zero false /\ a = 0) -> no_overflow (k + length l) (a + abs_sum l) -> finite (fold_left step l v).
Proof.
  induction l as [|p l IH]; intros D AF k v a V Fv A0 Hv Hk IR; [exact Fv|].
  inversion_clear D as [|? ? (D1 & D2) D']. inversion_clear AF as [|? ? (F1 & F2) F']. cbn [fold_left length] in *. set (z := rv (fst p) * rv (snd p)).
  assert (Ez : Rabs z = Rabs (rv (fst p)) * Rabs (rv (snd p))) by apply Rabs_mult. pose proof (Rabs_pos z) as Z0. pose proof u_pos as U. pose proof eta_pos as T.
  replace (a + abs_sum (p :: l)) with (a + Rabs z + abs_sum l) in IR by (unfold abs_sum; cbn [fold_right]; rewrite Ez; ring).
  replace (k + S (length l))%nat with (S k + length l)%nat in IR by lia. pose proof (abs_sum_pos l) as P0.
  destruct (rnd_mul z) as (d & h & Hd & Hh & E).
  assert (R1 : q ^ S k * (a + Rabs z + INR (S k) * underflow) < bpow radix2 1024).
  { eapply Rle_lt_trans; [|exact IR]. eapply Rle_trans; [apply (grow_range (S k) (S k + length l)); [lia|lra]|]. apply mono_range. lra. }
  assert (R0 : Rabs (rnd z) < bpow radix2 1024).
  { eapply Rle_lt_trans; [|exact R1]. rewrite E. eapply Rle_trans; [apply Rabs_triang|]. rewrite Rabs_mult.
    assert (D3 : Rabs (1 + d) <= q) by (eapply Rle_trans; [apply Rabs_triang|]; rewrite Rabs_R1; lra).
    eapply Rle_trans; [apply Rplus_le_compat; [apply Rmult_le_compat_l; [exact Z0|exact D3]|exact Hh]|].
    eapply Rle_trans; [|apply (grow_range 1 (S k)); [lia|lra]]. simpl (INR 1). simpl (q ^ 1). nra. }
  pose proof (mul_in_range _ _ D1 D2 F1 F2 R0) as Fm. pose proof (mul_double _ _ D1 D2) as M. destruct (mul_finite _ _ D1 D2 Fm) as (_ & _ & Em). fold z in Em. rewrite E in Em.
  assert (B : Rabs (rnd (rv v + rv (SFmul 53 1024 (fst p) (snd p)))) <= q ^ S k * (a + Rabs z + INR (S k) * underflow)).
  { destruct k as [|k].
    - destruct (Hk eq_refl) as (-> & ->). rewrite rv_zero, Rplus_0_l, rnd_format by now apply rv_format. rewrite Em. simpl (INR 1). simpl (q ^ 1).
      eapply Rle_trans; [apply Rabs_triang|]. rewrite Rabs_mult.
      assert (D3 : Rabs (1 + d) <= q) by (eapply Rle_trans; [apply Rabs_triang|]; rewrite Rabs_R1; lra).
      eapply Rle_trans; [apply Rplus_le_compat; [apply Rmult_le_compat_l; [exact Z0|exact D3]|exact Hh]|]. nra.
    - destruct (rnd_add (rv v) (rv (SFmul 53 1024 (fst p) (snd p)))) as (e & He & E2); [now apply rv_format|now apply rv_format|]. rewrite E2, Em. apply abs_step; auto; lia. }
  assert (Fs : finite (step v p)) by (apply add_in_range; auto; eapply Rle_lt_trans; [exact B|exact R1]).
  apply (IH D' F' (S k) (step v p) (a + Rabs z)); auto; [now apply step_double|lra| |lia].
  destruct (add_finite v (SFmul 53 1024 (fst p) (snd p)) V M Fs) as (_ & _ & Es). unfold step. rewrite Es. exact B.
Qed.

(* ---------------------------------------------------------------- integers *)

Lemma int_format (z : Z) : (Z.abs z <= 9007199254740992)%Z -> format (IZR z).
Proof.
  intros H. destruct (Z.eq_dec (Z.abs z) 9007199254740992) as [E|E].
  - assert (G : format (bpow radix2 53)) by (apply generic_format_bpow; vm_compute; discriminate).
    assert (B : bpow radix2 53 = IZR 9007199254740992) by reflexivity. destruct (Z.abs_eq_or_opp z) as [A|A].
    + replace z with 9007199254740992%Z by lia. now rewrite <- B.
    + replace z with (Z.opp 9007199254740992)%Z by lia. change (format (- bpow radix2 53)). now apply generic_format_opp.
  - apply generic_format_FLT. exists (Float radix2 z 0); [|simpl; lia|simpl; lia]. unfold F2R. simpl. ring.
Qed.

Definition all_integral (l : list pair) : Prop := Forall (fun p => integral (fst p) /\ integral (snd p)) l.

Lemma bpow1024_big : 9007199254740992 < bpow radix2 1024.
Proof. change 9007199254740992 with (bpow radix2 53). apply bpow_lt. lia. Qed.

Lemma fold_integral l : doubles l -> all_integral l -> forall v (s : Z) a, double v -> finite v -> rv v = IZR s -> Rabs (IZR s) <= a -> a + abs_sum l <= 9007199254740992 ->
  finite (fold_left step l v) /\ rv (fold_left step l v) = IZR s + exact_sum l.
Proof.
  induction l as [|p l IH]; intros D I v s a V Fv Ev Hs B.
  - cbn [fold_left]. unfold exact_sum. cbn [fold_right]. split; [exact Fv|]. rewrite Ev. ring.
  - inversion_clear D as [|? ? (D1 & D2) D']. apply Forall_cons_iff in I as (((F1 & z1 & E1) & F2 & z2 & E2) & I'). cbn [fold_left].
    pose proof (abs_sum_pos l) as P0. unfold abs_sum in B. cbn [fold_right] in B. fold (abs_sum l) in B. rewrite E1, E2, <- Rabs_mult, <- mult_IZR in B.
    assert (BB : forall y : Z, Rabs (IZR y) <= 9007199254740992 -> (Z.abs y <= 9007199254740992)%Z) by (intros y Hy; apply le_IZR; now rewrite abs_IZR).
    pose proof (Rabs_pos (IZR s)) as S0. pose proof (Rabs_pos (IZR (z1 * z2))) as Z0.
    assert (Em : rnd (rv (fst p) * rv (snd p)) = IZR (z1 * z2)) by (rewrite E1, E2, <- mult_IZR; apply rnd_format, int_format, BB; lra).
    assert (Fm : finite (SFmul 53 1024 (fst p) (snd p))). { apply mul_in_range; auto. rewrite Em. pose proof bpow1024_big. lra. }
    pose proof (mul_double _ _ D1 D2) as M. destruct (mul_finite _ _ D1 D2 Fm) as (_ & _ & Rm). rewrite Em in Rm.
    assert (Bs : Rabs (IZR (s + z1 * z2)) <= a + Rabs (IZR (z1 * z2))) by (rewrite plus_IZR; eapply Rle_trans; [apply Rabs_triang|]; lra).
    assert (Es : rnd (rv v + rv (SFmul 53 1024 (fst p) (snd p))) = IZR (s + z1 * z2)) by (rewrite Ev, Rm, <- plus_IZR; apply rnd_format, int_format, BB; lra).
    assert (Fs : finite (step v p)). { apply add_in_range; auto. rewrite Es. pose proof bpow1024_big. lra. }
    destruct (add_finite v _ V M Fs) as (_ & _ & Rs). rewrite Es in Rs.
    destruct (IH D' I' (step v p) (s + z1 * z2)%Z (a + Rabs (IZR (z1 * z2)))) as (G1 & G2); [now apply step_double|exact Fs|exact Rs|exact Bs|lra|].
    split; [exact G1|]. rewrite G2. unfold exact_sum. cbn [fold_right]. rewrite plus_IZR, mult_IZR, E1, E2. ring.
Qed.

Lemma fold_computed l : doubles l -> computed (length l) (exact_sum l) (abs_sum l) (all_finite l) (all_integral l) (fold_left step l (S754_zero false)).
Proof.
  intros D. assert (Z : double (S754_zero false)) by reflexivity. split.
  - now apply fold_double.
  - intros F. pose proof (fold_error l D 0 (S754_zero false) 0 0 Z) as E. rewrite !Rplus_0_l in E. apply E; auto.
    + rewrite Rabs_R0. lra.
    + intros _. rewrite rv_zero, bound_0, Rminus_0_r, Rabs_R0. lra.
  - intros AF IR. apply (fold_in_range l D AF 0 (S754_zero false) 0 Z); [reflexivity|lra|rewrite rv_zero, Rabs_R0; simpl; lra|now split|]. now rewrite Rplus_0_l.
  - intros AI B. destruct (fold_integral l D AI (S754_zero false) 0%Z 0 Z) as (G1 & G2); [reflexivity|reflexivity|rewrite Rabs_R0; lra|lra|].
    split; [exact G1|]. rewrite G2. ring.
Qed.
