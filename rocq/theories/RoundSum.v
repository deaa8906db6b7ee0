(** Rounding errors of sums of doubles. *)

From Coq Require Import ZArith Reals List Bool Lia Lra Floats.SpecFloat.
From Flocq Require Import Core.
From Verif Require Import Base Scalar ScalarR Spec Double RoundSpec RoundSumSpec RoundFacts RoundProofs Dense Vec VecSpec VecProofs.
Import ListNotations.
Open Scope R_scope.

Notation plus := (SFadd 53 1024).
Notation u := unit_roundoff.
Definition total (l : list spec_float) : R := fold_right (fun x s => rv x + s) 0 l.
Definition total_abs (l : list spec_float) : R := fold_right (fun x s => Rabs (rv x) + s) 0 l.

Lemma total_abs_pos l : 0 <= total_abs l.
Proof. induction l as [|x l IH]; cbn; [lra|]. pose proof (Rabs_pos (rv x)). fold (total_abs l). lra. Qed.

Lemma adds_double l : Forall double l -> forall v, double v -> double (fold_left plus l v).
Proof. induction l as [|x l IH]; intros D v V; [exact V|]. apply Forall_cons_iff in D as (D1 & D). cbn. apply IH; [exact D|]. now apply add_double. Qed.

Lemma adds_finite_start l : Forall double l -> forall v, double v -> finite (fold_left plus l v) -> finite v.
Proof.
  induction l as [|x l IH]; intros D v V F; [exact F|]. apply Forall_cons_iff in D as (D1 & D). cbn in F.
  apply IH in F; [|exact D|now apply add_double]. now apply add_finite in F.
Qed.

Lemma adds_error l : Forall double l -> forall k v s a, double v -> Rabs s <= a -> Rabs (rv v - s) <= ((1 + u) ^ k - 1) * a ->
  finite (fold_left plus l v) ->
  Rabs (rv (fold_left plus l v) - (s + total l)) <= ((1 + u) ^ (k + length l) - 1) * (a + total_abs l).
Proof.
  pose proof u_pos as U. induction l as [|x l IH]; intros D k v s a V Hs Hv F.
  - cbn. rewrite Nat.add_0_r, !Rplus_0_r. exact Hv.
  - apply Forall_cons_iff in D as (D1 & D). cbn [fold_left] in *. pose proof (add_double _ _ V D1) as V'.
    pose proof (adds_finite_start l D _ V' F) as F'. destruct (add_finite _ _ V D1 F') as (_ & _ & E).
    destruct (rnd_add _ _ (rv_format _ V) (rv_format _ D1)) as (e & He & Ee).
    pose proof (pow_ge k) as Q. pose proof (Rabs_pos (rv x)) as X0. pose proof (Rabs_pos s) as S0.
    cbn [total total_abs fold_right length]. fold (total l). fold (total_abs l).
    replace (s + (rv x + total l)) with (s + rv x + total l) by ring. replace (a + (Rabs (rv x) + total_abs l)) with (a + Rabs (rv x) + total_abs l) by ring.
    rewrite Nat.add_succ_r, <- Nat.add_succ_l.
    apply IH; [exact D|exact V'|eapply Rle_trans; [apply Rabs_triang|lra]| |exact F].
    rewrite E, Ee. replace ((rv v + rv x) * (1 + e) - (s + rv x)) with ((rv v - s) * (1 + e) + (s + rv x) * e) by ring.
    assert (E1 : Rabs (1 + e) <= 1 + u) by (eapply Rle_trans; [apply Rabs_triang|]; rewrite Rabs_R1; lra).
    eapply Rle_trans; [apply Rabs_triang|]. rewrite !Rabs_mult.
    assert (A1 : Rabs (rv v - s) * Rabs (1 + e) <= (((1 + u) ^ k - 1) * a) * (1 + u)) by (apply Rmult_le_compat; auto using Rabs_pos).
    assert (A2 : Rabs (s + rv x) * Rabs e <= (a + Rabs (rv x)) * u) by (apply Rmult_le_compat; auto using Rabs_pos; eapply Rle_trans; [apply Rabs_triang|lra]).
    cbn [pow]. assert (u * Rabs (rv x) <= ((1 + u) * (1 + u) ^ k - 1) * Rabs (rv x)) by (apply Rmult_le_compat_r; [exact X0|nra]). nra.
Qed.

Lemma adds_in_range l : Forall double l -> Forall finite l -> forall k v a, double v -> finite v -> 0 <= a -> Rabs (rv v) <= (1 + u) ^ k * a ->
  (1 + u) ^ (k + length l) * (a + total_abs l) < bpow radix2 1024 -> finite (fold_left plus l v).
Proof.
  pose proof u_pos as U. induction l as [|x l IH]; intros D AF k v a V Fv A0 Hv B; [exact Fv|].
  apply Forall_cons_iff in D as (D1 & D). apply Forall_cons_iff in AF as (F1 & AF). cbn [fold_left].
  cbn [total_abs fold_right length] in B. fold (total_abs l) in B. rewrite Nat.add_succ_r, <- Nat.add_succ_l in B.
  replace (a + (Rabs (rv x) + total_abs l)) with (a + Rabs (rv x) + total_abs l) in B by ring.
  destruct (rnd_add _ _ (rv_format _ V) (rv_format _ D1)) as (e & He & Ee).
  pose proof (pow_ge k) as Q. pose proof (Rabs_pos (rv x)) as X0. pose proof (total_abs_pos l) as T0.
  assert (E1 : Rabs (1 + e) <= 1 + u) by (eapply Rle_trans; [apply Rabs_triang|]; rewrite Rabs_R1; lra).
  assert (R1 : Rabs (rnd (rv v + rv x)) <= (1 + u) ^ S k * (a + Rabs (rv x))).
  { rewrite Ee, Rabs_mult. cbn [pow]. eapply Rle_trans; [apply Rmult_le_compat; [apply Rabs_pos|apply Rabs_pos|apply Rabs_triang|exact E1]|].
    assert (Rabs (rv x) <= (1 + u) ^ k * Rabs (rv x)) by (rewrite <- (Rmult_1_l (Rabs (rv x))) at 1; apply Rmult_le_compat_r; lra). nra. }
  assert (Fs : finite (plus v x)).
  { apply add_in_range; auto. eapply Rle_lt_trans; [exact R1|]. eapply Rle_lt_trans; [|exact B].
    assert (G : (1 + u) ^ S k <= (1 + u) ^ (S k + length l)) by (apply Rle_pow; [lra|lia]). pose proof (pow_ge (S k)).
    apply Rmult_le_compat; lra. }
  destruct (add_finite _ _ V D1 Fs) as (_ & _ & E).
  apply (IH D AF (S k) _ (a + Rabs (rv x))); [now apply add_double|exact Fs|lra|now rewrite E|exact B].
Qed.

Lemma adds_integral l : Forall double l -> Forall integral l -> forall v (s : Z) a, double v -> finite v -> rv v = IZR s -> Rabs (IZR s) <= a ->
  a + total_abs l <= 9007199254740992 -> finite (fold_left plus l v) /\ rv (fold_left plus l v) = IZR s + total l.
Proof.
  induction l as [|x l IH]; intros D I v s a V Fv Ev Hs B.
  - cbn. split; [exact Fv|]. rewrite Ev. ring.
  - apply Forall_cons_iff in D as (D1 & D). apply Forall_cons_iff in I as ((F1 & z & I1) & I). cbn [fold_left].
    cbn [total_abs fold_right] in B. fold (total_abs l) in B. pose proof (total_abs_pos l) as T0. rewrite I1 in B.
    assert (Bs : Rabs (IZR (s + z)) <= a + Rabs (IZR z)) by (rewrite plus_IZR; eapply Rle_trans; [apply Rabs_triang|]; lra).
    assert (Es : rnd (rv v + rv x) = IZR (s + z)).
    { rewrite Ev, I1, <- plus_IZR. apply rnd_format, int_format. apply le_IZR. rewrite abs_IZR. lra. }
    assert (Fs : finite (plus v x)). { apply add_in_range; auto. rewrite Es. pose proof bpow1024_big. lra. }
    destruct (add_finite _ _ V D1 Fs) as (_ & _ & E). rewrite Es in E.
    destruct (IH D I (plus v x) (s + z)%Z (a + Rabs (IZR z))) as (G1 & G2); [now apply add_double|exact Fs|exact E|exact Bs|lra|].
    split; [exact G1|]. rewrite G2. cbn [total fold_right]. fold (total l). rewrite plus_IZR, I1. ring.
Qed.

Lemma total_range (x : vect SFs) n : total (map x (zrange 0 n)) = sum_range (S := Rs) 0 n (reals x).
Proof. unfold sum_range, sum_list, total, reals. induction (zrange 0 n) as [|i l IH]; [reflexivity|]. exact (f_equal (Rplus (rv (x i))) IH). Qed.
Lemma total_abs_range (x : vect SFs) n : total_abs (map x (zrange 0 n)) = sum_range (S := Rs) 0 n (absolutes x).
Proof. unfold sum_range, sum_list, total_abs, absolutes. induction (zrange 0 n) as [|i l IH]; [reflexivity|]. exact (f_equal (Rplus (Rabs (rv (x i)))) IH). Qed.

Lemma plus_zero x : double x -> finite x -> finite (plus (S754_zero false) x) /\ rv (plus (S754_zero false) x) = rv x.
Proof.
  intros D F. assert (Z : double (S754_zero false)) by reflexivity. assert (E : rnd (rv (S754_zero false) + rv x) = rv x).
  { rewrite rv_zero, Rplus_0_l. apply rnd_format. now apply rv_format. }
  assert (G : finite (plus (S754_zero false) x)).
  { apply add_in_range; auto. rewrite E. destruct (double_B x D) as (b & ->). unfold rv. rewrite BinarySingleNaN.SF2R_B2SF.
    apply BinarySingleNaN.abs_B2R_lt_emax. }
  split; [exact G|]. destruct (add_finite _ _ Z D G) as (_ & _ & R). now rewrite R.
Qed.

Lemma Forall_range {A} (P : A -> Prop) (x : Z -> A) n : (forall k, (0 <= k < n)%Z -> P (x k)) -> Forall P (map x (zrange 0 n)).
Proof. intros H. rewrite Forall_map, Forall_forall. intros k Hk. apply H. now apply In_zrange. Qed.

Lemma range_total (x : vect SFs) n : (forall k, (0 <= k < n)%Z -> double (x k)) ->
  accurate_total n x (fold_left plus (map x (zrange 0 n)) (S754_zero false)).
Proof.
  intros D. pose proof (total_range x n) as T. pose proof (total_abs_range x n) as TA. pose proof (Forall_range _ _ _ D) as DL.
  assert (L : length (map x (zrange 0 n)) = Z.to_nat n) by (rewrite map_length; unfold zrange; rewrite map_length, seq_length; lia).
  split; rewrite <- ?T, <- ?TA, <- ?L.
  - apply adds_double; [exact DL|reflexivity].
  - intros F. destruct (map x (zrange 0 n)) as [|a l]; [cbn; rewrite Rminus_0_r, Rabs_R0; lra|].
    apply Forall_cons_iff in DL as (D1 & DL). cbn [fold_left] in *.
    pose proof (add_double (S754_zero false) a eq_refl D1) as V. pose proof (adds_finite_start l DL _ V F) as Fs.
    destruct (add_finite (S754_zero false) a eq_refl D1 Fs) as (_ & Fa & _). destruct (plus_zero a D1 Fa) as (_ & E).
    cbn [length]. replace (S (length l) - 1)%nat with (0 + length l)%nat by lia. cbn [total total_abs fold_right]. fold (total l). fold (total_abs l).
    apply adds_error; auto; [lra|]. rewrite E. rewrite (Rminus_eq_0 (rv a)), Rabs_R0. cbn. lra.
  - intros AF0 B. assert (AF : Forall finite (map x (zrange 0 n))) by (apply Forall_range; exact AF0). clear AF0. revert AF. destruct (map x (zrange 0 n)) as [|a l]; [reflexivity|]. intros AF.
    apply Forall_cons_iff in DL as (D1 & DL). apply Forall_cons_iff in AF as (Fa & AF). cbn [fold_left].
    destruct (plus_zero a D1 Fa) as (Fs & E). cbn [length] in B. replace (S (length l) - 1)%nat with (0 + length l)%nat in B by lia.
    apply (adds_in_range l DL AF 0 _ (Rabs (rv a))); [now apply add_double|exact Fs|apply Rabs_pos|rewrite E; cbn; lra|exact B].
  - intros I0 B. assert (I : Forall integral (map x (zrange 0 n))) by (apply Forall_range; exact I0).
    destruct (adds_integral _ DL I (S754_zero false) 0%Z 0) as (G1 & G2); [reflexivity|reflexivity|reflexivity|rewrite Rabs_R0; lra|lra|].
    split; [exact G1|]. rewrite G2. lra.
Qed.

Lemma v_sum_rounds (h : heap SFs) v : view_ok h v -> (forall k, (0 <= k < v_len v)%Z -> double (vat h v k)) ->
  exists p, v_sum h v = Ok p /\ accurate_total (v_len v) (vat h v) p.
Proof.
  intros Hv D. eexists. split; [unfold v_sum; rewrite v_list_ok by exact Hv; reflexivity|]. now apply range_total.
Qed.

Lemma d_sum_rounds (A : dense SFs) : (0 < zlen (d_data A))%Z -> Forall double (d_data A) ->
  exists p, d_sum A = Ok p /\ accurate_total (zlen (d_data A)) (vec_of (S := SFs) (d_data A)) p.
Proof.
  intros N D. eexists. split; [unfold d_sum; destruct (Z.eqb_spec (zlen (d_data A)) 0); [lia|reflexivity]|].
  pose proof (map_zn_zrange (@s0 SFs) (d_data A)) as E. rewrite <- E at 3. apply range_total. intros k Hk. apply Forall_zn; [exact D|reflexivity].
Qed.
