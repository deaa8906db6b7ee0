(** Doubles as text and as bytes: which ones keep their value. *)

From Coq Require Import ZArith List Bool Lia String Floats.SpecFloat.
From Verif Require Import Base Scalar Text Parser ParserSpec TextProofs ParserProofs ParserBinary Double DoubleSpec DoubleProofs DoubleText.
Import ListNotations.
Open Scope Z_scope.

Opaque Z.pow.

(* ---------------------------------------------------------------- the doubles of SpecFloat *)

Lemma digits2_spec m : 2 ^ (Z.pos (digits2_pos m) - 1) <= Z.pos m < 2 ^ Z.pos (digits2_pos m).
Proof.
  induction m as [m IH|m IH|].
  - cbn [digits2_pos]. rewrite Pos2Z.inj_succ. replace (Z.succ (Z.pos (digits2_pos m)) - 1) with (Z.succ (Z.pos (digits2_pos m) - 1)) by lia.
    rewrite !Z.pow_succ_r by lia. rewrite (Pos2Z.inj_xI m). lia.
  - cbn [digits2_pos]. rewrite Pos2Z.inj_succ. replace (Z.succ (Z.pos (digits2_pos m)) - 1) with (Z.succ (Z.pos (digits2_pos m) - 1)) by lia.
    rewrite !Z.pow_succ_r by lia. rewrite (Pos2Z.inj_xO m). lia.
  - vm_compute. split; [discriminate|reflexivity].
Qed.

Lemma valid_double s m e : valid_binary 53 1024 (S754_finite s m e) = true <-> double_ok (Z.pos m) e.
Proof.
  cbn [valid_binary]. unfold bounded, canonical_mantissa, fexp, emin, double_ok. rewrite andb_true_iff, Z.leb_le, <- Zeq_is_eq_bool.
  change (3 - 1024 - 53) with (-1074). change (1024 - 53) with 971. pose proof (digits2_spec m) as (H1 & H2). set (d := Z.pos (digits2_pos m)) in *.
  assert (Hd : 1 <= d) by (unfold d; lia). split.
  - intros (E & He). split; [|split].
    + split; [lia|]. assert (2 ^ d <= 2 ^ 53) by (apply Z.pow_le_mono_r; lia). lia.
    + lia.
    + destruct (Z.eq_dec e (-1074)); [left; assumption|right]. assert (d = 53) by lia. replace 52 with (d - 1) by lia. lia.
  - intros ((_ & Hm) & He & Hc). assert (d <= 53). { destruct (Z_le_gt_dec d 53); [assumption|]. assert (2 ^ 53 <= 2 ^ (d - 1)) by (apply Z.pow_le_mono_r; lia). lia. }
    split; [|lia]. destruct Hc as [->|Hc]; [lia|]. assert (53 <= d). { destruct (Z_le_gt_dec 53 d); [assumption|]. assert (2 ^ d <= 2 ^ 52) by (apply Z.pow_le_mono_r; lia). lia. } lia.
Qed.

Lemma finite_keeps p x : 17 <= p <= 40 -> valid_binary 53 1024 x = true -> finite x -> survives double_codec p x.
Proof.
  intros Hp Hv Hf. destruct x as [s|s| |s m e]; try contradiction; [apply zero_survives|].
  apply valid_double in Hv. apply finite_survives; [lia|exact Hv|]. destruct (seventeen _ _ Hv) as (H1 & H2).
  destruct (exp10_spec _ _ Hv) as (HX & _). unfold enough_digits in *. cbv zeta in *. set (X := exp10 (Z.pos m) e) in *.
  assert (M : 10 ^ (X - p + 1 + 400) <= 10 ^ (X - 17 + 1 + 400)) by (apply Z.pow_le_mono_r; lia).
  assert (M' : 10 ^ (X - p + 1 + 400) * 2 ^ 1074 <= 10 ^ (X - 17 + 1 + 400) * 2 ^ 1074) by (apply Z.mul_le_mono_nonneg_r; [pose proof (pow_pos2 1074 ltac:(lia)); lia|exact M]).
  split; [lia|]. intros Em Ee. specialize (H2 Em Ee). lia.
Qed.

(* ---------------------------------------------------------------- short decimals *)

Lemma short_survives p x : 1 <= p <= 40 -> valid_binary 53 1024 x = true -> short_decimal p x -> survives double_codec p x.
Proof.
  intros Hp Hv Hs. destruct x as [s|s| |s m e]; try contradiction; [apply zero_survives|]. destruct Hs as (D0 & k & HD0 & Hk & Ex).
  apply valid_double in Hv. rename Hv into Hok. destruct (exp10_spec _ _ Hok) as (HX & Hlo & Hhi). set (X := exp10 (Z.pos m) e) in *.
  pose proof (pow_pos2 1074 ltac:(lia)) as P1. pose proof (pow_pos10 400 ltac:(lia)) as P2.
  assert (He : 0 <= e + 1074) by (destruct Hok as (_ & He & _); lia). pose proof (pow_pos2 (e + 1074) He) as Pk.
  set (a := Z.pos m * 2 ^ (e + 1074)) in *. set (b := 2 ^ 1074) in *. set (U := 10 ^ 400) in *.
  assert (Hab : b <= a * U). { assert (1 * 10 ^ 400 <= a * U) by (apply Z.mul_le_mono_nonneg_r; nia). destruct U_large. unfold U, b in *. lia. }
  pose proof (dec_digits_spec p a b Hp P1 Hab HX) as Hd. cbv zeta in Hd. fold X in Hd. unfold exp10 in X. fold a b in X. fold X in Hd.
  destruct (dec_digits p a b) as [D X'] eqn:ED. destruct Hd as (HD & HX' & Hc). fold U in Hc.
  destruct (fmt_reads p a b D X' ltac:(lia) ED HD ltac:(lia)) as (num & den & Pd & En & Hh & Hr).
  unfold survives, double_codec. cbn [tc_scan tc_fmt fmt_double]. fold a b. split; [apply Hh|]. intros rest Hrest. rewrite (Hr s rest Hrest).
  assert (Hkx : X - p + 1 <= k).
  { assert (10 ^ (X + 400) < 10 ^ (p + k + 400)); [|destruct (Z_le_gt_dec (X - p + 1) k); [assumption|exfalso; assert (10 ^ (p + k + 400) <= 10 ^ (X + 400)) by (apply Z.pow_le_mono_r; lia); lia]].
    apply (Z.mul_lt_mono_pos_l b); [exact P1|]. apply Z.le_lt_trans with (a * U); [lia|]. rewrite Ex. replace (p + k + 400) with (p + (k + 400)) by lia. rewrite (Z.pow_add_r 10 p (k + 400)) by lia.
    rewrite (Z.mul_comm b). apply Z.mul_lt_mono_pos_r; [exact P1|]. apply Z.mul_lt_mono_pos_r; [apply pow_pos10; lia|lia]. }
  pose proof (pow_pos10 (X - p + 1 + 400) ltac:(lia)) as PG. set (G := 10 ^ (X - p + 1 + 400)) in *.
  assert (E1 : exists u, D * 10 ^ (X' - p + 1 + 400) = u * G).
  { exists (D * 10 ^ (X' - X)). unfold G. rewrite <- Z.mul_assoc, <- (Z.pow_add_r 10 (X' - X)) by lia. do 2 f_equal. lia. }
  assert (E2 : exists u, D0 * 10 ^ (k + 400) = u * G).
  { exists (D0 * 10 ^ (k - (X - p + 1))). unfold G. rewrite <- Z.mul_assoc, <- (Z.pow_add_r 10 (k - (X - p + 1))) by lia. do 2 f_equal. lia. }
  destruct E1 as (u1 & E1), E2 as (u2 & E2). rewrite E1 in *. rewrite E2 in Ex. rewrite Ex in Hc.
  assert (u1 = u2).
  { replace (2 * (u1 * G * b - u2 * G * b)) with (2 * (u1 - u2) * (G * b)) in Hc by ring. assert (PGb : 0 < G * b) by (apply Z.mul_pos_pos; assumption).
    destruct (Z.eq_dec u1 u2) as [|Hne]; [assumption|exfalso]. rewrite Z.abs_mul, (Z.abs_eq (G * b)) in Hc by lia.
    assert (2 * (G * b) <= Z.abs (2 * (u1 - u2)) * (G * b)) by (apply Z.mul_le_mono_nonneg_r; lia). lia. }
  subst u2. assert (Ez : num * b - a * den = 0).
  { apply (Z.mul_reg_r _ _ U); [lia|]. fold U in En. rewrite Z.mul_sub_distr_r. replace (num * b * U) with (num * U * b) by ring. rewrite En.
    replace (a * den * U) with (a * U * den) by ring. rewrite Ex. ring. }
  assert (Pkd : 0 < 2 ^ (e + 1074) * den) by (apply Z.mul_pos_pos; assumption).
  rewrite (round_near s m e num den Hok Pd).
  - reflexivity.
  - fold b a. rewrite Ez. cbn. exact Pkd.
  - intros _ _. fold b a. rewrite Ez. cbn. exact Pkd.
Qed.

(** An integer of at most p digits is short. *)
Lemma integer_short p x n : valid_binary 53 1024 x = true -> magnitude x n -> n < 10 ^ p -> short_decimal p x.
Proof.
  destruct x as [s|s| |s m e]; cbn [magnitude short_decimal]; try tauto. intros Hv E Hn. exists n, 0. pose proof (pow_pos2 1074 ltac:(lia)) as P.
  apply valid_double in Hv. destruct Hv as (_ & He & _). pose proof (pow_pos2 (e + 1074) ltac:(lia)) as Pe.
  assert (0 < n) by nia. split; [lia|]. split; [lia|]. rewrite E. change (0 + 400) with 400. ring.
Qed.

(** Values are numbers, and adding them to zero changes nothing but a negative zero. *)
Lemma finite_number x : valid_binary 53 1024 x = true -> finite x -> SFeqb x x = true.
Proof.
  destruct x as [s|s| |s m e]; intros _ Hf; [reflexivity|destruct Hf|destruct Hf|].
  unfold SFeqb, SFcompare. destruct s; rewrite Z.compare_refl, Pos.compare_cont_refl; reflexivity.
Qed.
Lemma zero_plus x : finite x -> x <> S754_zero true -> SFadd 53 1024 (S754_zero false) x = x.
Proof. destruct x as [s|s| |s m e]; intros Hf Hz; [|destruct Hf|destruct Hf|reflexivity]. destruct s; [congruence|reflexivity]. Qed.

(* ---------------------------------------------------------------- bytes *)

Lemma bits_range x : valid_binary 53 1024 x = true -> 0 <= bits_of_double x < 2 ^ 64.
Proof.
  intros Hv. assert (2 ^ 64 = 2 * 2 ^ 63) by reflexivity. assert (2 ^ 63 = 2048 * 2 ^ 52) by reflexivity. assert (0 < 2 ^ 52) by reflexivity. assert (2 ^ 52 = 2 * 2 ^ 51) by reflexivity.
  destruct x as [s|s| |s m e]; cbn [bits_of_double]; try (destruct s); try lia; apply valid_double in Hv; destruct Hv as (Hm & He & Hc); change (2 ^ 53) with (2 * 2 ^ 52) in Hm;
    destruct (Z.ltb_spec (Z.pos m) (2 ^ 52)); nia.
Qed.

Lemma double_bits x : valid_binary 53 1024 x = true -> double_of_bits (bits_of_double x) = x.
Proof.
  intros Hv. destruct x as [s|s| |s m e]; [destruct s; vm_compute; reflexivity|destruct s; vm_compute; reflexivity|vm_compute; reflexivity|].
  apply valid_double in Hv. destruct Hv as (Hm & He & Hc). unfold bits_of_double. change (2 ^ 53) with (2 * 2 ^ 52) in Hm.
  assert (E63 : 2 ^ 63 = 2048 * 2 ^ 52) by reflexivity. assert (P : 0 < 2 ^ 52) by reflexivity.
  set (low := if Z.pos m <? 2 ^ 52 then Z.pos m else (e + 1075) * 2 ^ 52 + (Z.pos m - 2 ^ 52)).
  assert (Hlow : 0 <= low < 2 ^ 63) by (unfold low; destruct (Z.ltb_spec (Z.pos m) (2 ^ 52)); nia).
  assert (Es : (2 ^ 63 <=? (if s then 2 ^ 63 else 0) + low) = s) by (destruct s; [apply Z.leb_le|apply Z.leb_gt]; lia).
  assert (Em : ((if s then 2 ^ 63 else 0) + low) mod 2 ^ 63 = low).
  { destruct s; [|apply Z.mod_small; lia]. rewrite <- (Z.mul_1_l (2 ^ 63)) at 1. rewrite Z.add_comm, Z.mod_add by lia. apply Z.mod_small. lia. }
  unfold double_of_bits. cbv zeta. rewrite Es, Em. unfold low. destruct (Z.ltb_spec (Z.pos m) (2 ^ 52)) as [Hs|Hs].
  - rewrite Z.div_small, Z.mod_small by lia. cbn. f_equal. destruct Hc; lia.
  - rewrite (Z.add_comm ((e + 1075) * 2 ^ 52)). rewrite Z.div_add, Z.mod_add by lia. rewrite Z.div_small, Z.mod_small by lia. rewrite Z.add_0_l.
    destruct (Z.eqb_spec (e + 1075) 0); [lia|]. destruct (Z.eqb_spec (e + 1075) 2047); [lia|].
    replace (Z.pos m - 2 ^ 52 + 2 ^ 52) with (Z.pos m) by ring. f_equal. lia.
Qed.

Lemma double_kept x : valid_binary 53 1024 x = true -> kept double_layout x.
Proof.
  intros Hv. unfold kept, double_layout. cbn [lo_dec lo_enc]. rewrite le_value_bytes; [apply double_bits, Hv|]. change (256 ^ Z.of_nat 8) with (2 ^ 64). apply bits_range, Hv.
Qed.
Lemma double_layout_ok : layout_ok double_layout.
Proof. split; [cbn; lia|]. split; [apply double_kept; reflexivity|]. intros v. apply le_bytes_length. Qed.

(* ---------------------------------------------------------------- int *)

(** operator<< and operator>> of int, and its bytes. *)
Definition int_codec : codec Zs := @Codec Zs (fun _ => fmt_int) scan_int.
Definition int_layout : layout Zs := @Layout Zs 4 enc_int dec_int.

Lemma int_survives p n : fits_int n -> survives int_codec p n.
Proof. intros H. exact (int_reads n H). Qed.
Lemma int_kept n : fits_int n -> kept int_layout n.
Proof. apply int_round. Qed.
Lemma int_layout_ok : layout_ok int_layout.
Proof. split; [cbn; lia|]. split; [apply int_kept; split; vm_compute; discriminate|]. apply int_length. Qed.
