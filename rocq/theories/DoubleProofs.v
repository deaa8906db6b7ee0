(** Doubles written with enough digits are read back. *)

From Coq Require Import ZArith List Bool Lia String Floats.SpecFloat.
From Verif Require Import Base Scalar Text Parser ParserSpec TextProofs ParserProofs Double.
Import ListNotations.
Open Scope Z_scope.

Opaque Z.pow.

Lemma nearest_close a b : 0 < b -> Z.abs (2 * (nearest a b * b - a)) <= b.
Proof.
  intros Hb. unfold nearest. pose proof (Z.div_mod a b ltac:(lia)) as E. pose proof (Z.mod_pos_bound a b Hb) as Hr.
  set (q := a / b) in *. set (r := a mod b) in *. clearbody q r. subst a.
  destruct (Z.ltb_spec (2 * r) b); [nia|]. destruct (Z.ltb_spec b (2 * r)); [nia|]. destruct (Z.even q); nia.
Qed.
Lemma nearest_unique a b m : 0 < b -> Z.abs (2 * (a - m * b)) < b -> nearest a b = m.
Proof.
  intros Hb H. pose proof (nearest_close a b Hb) as Hc. set (q := nearest a b) in *. clearbody q.
  assert (Z.abs (2 * ((q - m) * b)) < 2 * b) by (replace (2 * ((q - m) * b)) with (2 * (q * b - a) + 2 * (a - m * b)) by ring; lia).
  assert (-1 < q - m < 1) by nia. lia.
Qed.

(** A finite double: 53 bits, the smallest exponent or a full mantissa. *)
Definition double_ok (m e : Z) : Prop := 0 < m < 2 ^ 53 /\ -1074 <= e <= 971 /\ (e = -1074 \/ 2 ^ 52 <= m).

Lemma pow_pos2 k : 0 <= k -> 0 < 2 ^ k. Proof. intros. apply Z.pow_pos_nonneg; lia. Qed.
Lemma pow_pos10 k : 0 <= k -> 0 < 10 ^ k. Proof. intros. apply Z.pow_pos_nonneg; lia. Qed.

Lemma P53 : 2 ^ 53 = 2 * 2 ^ 52. Proof. reflexivity. Qed.

(** The nearest double of a number that is closer to m * 2^e than half the distance to the next
    double (a quarter where the spacing changes). *)
Lemma round_near s m e a b : double_ok (Z.pos m) e -> 0 < b ->
  Z.abs (2 * (a * 2 ^ 1074 - Z.pos m * 2 ^ (e + 1074) * b)) < 2 ^ (e + 1074) * b ->
  (Z.pos m = 2 ^ 52 -> e <> -1074 -> Z.abs (4 * (a * 2 ^ 1074 - Z.pos m * 2 ^ (e + 1074) * b)) < 2 ^ (e + 1074) * b) ->
  round_double s a b = (S754_finite s m e, true).
Proof.
  intros (Hm & He & Hc) Hb H H'. unfold round_double. set (n := a * 2 ^ 1074) in *. set (k := e + 1074) in *.
  assert (Hk : 0 <= k) by lia. pose proof (pow_pos2 k Hk) as Pk. assert (P52 : 0 < 2 ^ 52) by reflexivity. pose proof P53.
  assert (Hfin : forall q k0, (if q =? 2 ^ 53 then (2 ^ 52, k0 + 1) else (q, k0)) = (Z.pos m, k) ->
     (let (q, k) := if q =? 2 ^ 53 then (2 ^ 52, k0 + 1) else (q, k0) in
      match q with Zpos m => if k <=? 2045 then (S754_finite s m (k - 1074), true) else (S754_finite s (2 ^ 53 - 1) 971, false) | _ => (S754_zero s, true) end)
      = (S754_finite s m e, true)).
  { intros q k0 ->. destruct (Z.leb_spec k 2045); [|lia]. do 2 f_equal. lia. }
  apply Hfin. clear Hfin.
  set (w := n / b).
  assert (Hw : w * b <= n < (w + 1) * b). { unfold w. pose proof (Z.div_mod n b ltac:(lia)). pose proof (Z.mod_pos_bound n b Hb). lia. }
  assert (Ek : forall k', 0 <= k' -> nearest n (b * 2 ^ k') = nearest n (2 ^ k' * b)) by (intros; now rewrite (Z.mul_comm b)).
  destruct (Z_le_gt_dec (Z.pos m * 2 ^ k * b) n) as [Hle|Hgt]; [|destruct (Z.eq_dec (Z.pos m) (2 ^ 52)) as [Em|Em]; [destruct (Z.eq_dec k 0) as [Ek0|Ek0]|]].
  - (* not below *)
    assert (Hkk : Z.max (Z.log2 w - 52) 0 = k).
    { assert (Z.pos m * 2 ^ k <= w) by nia. assert (w < (Z.pos m + 1) * 2 ^ k) by nia.
      destruct Hc as [Hc|Hc].
      - assert (k = 0) by lia. rewrite H3 in *. change (2 ^ 0) with 1 in *. assert (Z.log2 w < 53) by (apply Z.log2_lt_pow2; lia). lia.
      - assert (El : Z.log2 w = 52 + k) by (apply Z.log2_unique; [lia|]; rewrite Z.pow_succ_r, Z.pow_add_r by lia; nia). lia. }
    rewrite Hkk. rewrite (nearest_unique n (b * 2 ^ k) (Z.pos m)); [|nia|].
    + destruct (Z.eqb_spec (Z.pos m) (2 ^ 53)); [lia|reflexivity].
    + replace (2 * (n - Z.pos m * (b * 2 ^ k))) with (2 * (n - Z.pos m * 2 ^ k * b)) by ring. lia.
  - (* smallest exponent *)
    assert (Hkk : Z.max (Z.log2 w - 52) 0 = k).
    { rewrite Ek0 in *. change (2 ^ 0) with 1 in *. assert (w < 2 ^ 53) by nia. destruct (Z_le_gt_dec w 0); [rewrite Z.log2_nonpos by lia; lia|].
      assert (Z.log2 w < 53) by (apply Z.log2_lt_pow2; lia). lia. }
    rewrite Hkk. rewrite (nearest_unique n (b * 2 ^ k) (Z.pos m)); [|nia|].
    + destruct (Z.eqb_spec (Z.pos m) (2 ^ 53)); [lia|reflexivity].
    + replace (2 * (n - Z.pos m * (b * 2 ^ k))) with (2 * (n - Z.pos m * 2 ^ k * b)) by ring. lia.
  - (* below a power of two *)
    specialize (H' Em ltac:(lia)). set (h := 2 ^ (k - 1)). assert (Eh : 2 ^ k = 2 * h) by (unfold h; rewrite <- Z.pow_succ_r by lia; f_equal; lia).
    assert (Ph : 0 < h) by (apply pow_pos2; lia).
    assert (Hkk : Z.max (Z.log2 w - 52) 0 = k - 1).
    { rewrite Eh in *. rewrite Em in *. assert (w < 2 ^ 53 * h) by nia. assert ((2 ^ 53 - 1) * h <= w) by nia.
      assert (El : Z.log2 w = 52 + (k - 1)) by (apply Z.log2_unique; [lia|]; rewrite Z.pow_succ_r, Z.pow_add_r by lia; fold h; nia). lia. }
    rewrite Hkk. fold h. rewrite (nearest_unique n (b * h) (2 ^ 53)); [|nia|].
    + rewrite Z.eqb_refl, <- Em. f_equal. lia.
    + rewrite Em, Eh in H'. replace (4 * (n - 2 ^ 52 * (2 * h) * b)) with (2 * (2 * (n - 2 ^ 53 * (b * h)))) in H' by (rewrite P53; ring). lia.
  - (* below, but not at a power of two *)
    assert (Hkk : Z.max (Z.log2 w - 52) 0 = k).
    { assert ((Z.pos m - 1) * 2 ^ k <= w) by nia. assert (w < Z.pos m * 2 ^ k) by nia.
      destruct Hc as [Hc|Hc].
      - assert (k = 0) by lia. rewrite H3 in *. change (2 ^ 0) with 1 in *. destruct (Z_le_gt_dec w 0); [rewrite Z.log2_nonpos by lia; lia|].
        assert (Z.log2 w < 53) by (apply Z.log2_lt_pow2; lia). lia.
      - assert (El : Z.log2 w = 52 + k) by (apply Z.log2_unique; [lia|]; rewrite Z.pow_succ_r, Z.pow_add_r by lia; nia). lia. }
    rewrite Hkk. rewrite (nearest_unique n (b * 2 ^ k) (Z.pos m)); [|nia|].
    + destruct (Z.eqb_spec (Z.pos m) (2 ^ 53)); [lia|reflexivity].
    + replace (2 * (n - Z.pos m * (b * 2 ^ k))) with (2 * (n - Z.pos m * 2 ^ k * b)) by ring. lia.
Qed.

(* ---------------------------------------------------------------- decimal digits *)

Lemma dec_go_length fuel : forall n acc, (0 < fuel)%nat -> 0 < n < 2 ^ Z.of_nat fuel ->
  exists d, dec_go fuel n acc = d ++ acc /\ 0 < zlen d /\ 10 ^ (zlen d - 1) <= n < 10 ^ zlen d.
Proof.
  induction fuel as [|fuel IH]; intros n acc Hf Hn; [lia|]. cbn [dec_go]. destruct (Z.ltb_spec n 10).
  - exists [48 + n mod 10]. split; [reflexivity|]. change (zlen [48 + n mod 10]) with 1. change (10 ^ (1 - 1)) with 1. change (10 ^ 1) with 10. lia.
  - rewrite Nat2Z.inj_succ, Z.pow_succ_r in Hn by lia.
    assert (Hd : 0 < n / 10 < 2 ^ Z.of_nat fuel).
    { split; [apply Z.div_str_pos; lia|]. apply Z.div_lt_upper_bound; lia. }
    assert (Hf' : (0 < fuel)%nat). { destruct fuel; [|lia]. change (2 ^ Z.of_nat 0) with 1 in Hd. lia. }
    destruct (IH (n / 10) ((48 + n mod 10) :: acc) Hf' Hd) as (d & E & Hl & Hb). exists (d ++ [48 + n mod 10]).
    split; [rewrite E, <- app_assoc; reflexivity|]. rewrite zlen_app. change (zlen [48 + n mod 10]) with 1. split; [lia|].
    pose proof (Z.div_mod n 10 ltac:(lia)). pose proof (Z.mod_pos_bound n 10 ltac:(lia)).
    rewrite Z.pow_add_r by lia. change (10 ^ 1) with 10. replace (zlen d + 1 - 1) with (Z.succ (zlen d - 1)) by lia. rewrite Z.pow_succ_r by lia. lia.
Qed.
Lemma dec_length n : 0 < n -> 0 < zlen (dec n) /\ 10 ^ (zlen (dec n) - 1) <= n < 10 ^ zlen (dec n).
Proof.
  intros Hn. unfold dec. destruct (dec_go_length (Datatypes.S (Z.to_nat (Z.log2 n))) n []) as (d & -> & H); [lia| |rewrite app_nil_r; exact H].
  pose proof (Z.log2_nonneg n). rewrite Nat2Z.inj_succ, Z2Nat.id by lia. split; [lia|]. apply Z.log2_spec. exact Hn.
Qed.
Lemma dec_length_unique n p : 10 ^ (p - 1) <= n < 10 ^ p -> 1 <= p -> zlen (dec n) = p.
Proof.
  intros H Hp. assert (Hn : 0 < n) by (pose proof (pow_pos10 (p - 1) ltac:(lia)); lia). destruct (dec_length n Hn) as (Hl & Hb).
  destruct (Z.lt_trichotomy (zlen (dec n)) p) as [L|[L|L]]; [exfalso|exact L|exfalso].
  - assert (10 ^ zlen (dec n) <= 10 ^ (p - 1)) by (apply Z.pow_le_mono_r; lia). lia.
  - assert (10 ^ p <= 10 ^ (zlen (dec n) - 1)) by (apply Z.pow_le_mono_r; lia). lia.
Qed.

Lemma dec_exp_spec a b : 0 < b -> b <= a * 10 ^ 400 -> let X := dec_exp a b in
  -400 <= X /\ b * 10 ^ (X + 400) <= a * 10 ^ 400 < b * 10 ^ (X + 401).
Proof.
  intros Hb. unfold dec_exp. generalize (10 ^ 400). intros U Ha. set (w := a * U / b).
  assert (Hw : w * b <= a * U < (w + 1) * b). { unfold w. pose proof (Z.div_mod (a * U) b ltac:(lia)). pose proof (Z.mod_pos_bound (a * U) b Hb). lia. }
  assert (Hpos : 0 < w) by nia. destruct (dec_length w Hpos) as (Hl & Hlo & Hhi). clearbody w.
  replace (zlen (dec w) - 401 + 400) with (zlen (dec w) - 1) by lia. replace (zlen (dec w) - 401 + 401) with (zlen (dec w)) by lia. split; [lia|]. nia.
Qed.

Lemma dec_digits_spec p a b : 1 <= p <= 40 -> 0 < b -> b <= a * 10 ^ 400 -> -360 <= dec_exp a b ->
  let X := dec_exp a b in let (D, X') := dec_digits p a b in
  10 ^ (p - 1) <= D < 10 ^ p /\ (X' = X \/ X' = X + 1) /\
  Z.abs (2 * (D * 10 ^ (X' - p + 1 + 400) * b - a * 10 ^ 400)) <= 10 ^ (X - p + 1 + 400) * b.
Proof.
  intros Hp Hb Ha HX X. destruct (dec_exp_spec a b Hb Ha) as (_ & Hlo & Hhi). fold X in Hlo, Hhi, HX. unfold dec_digits. fold X. clearbody X.
  set (T := 10 ^ Z.max (p - 1 - X) 0). set (B := 10 ^ Z.max (X - p + 1) 0). remember (10 ^ 400) as U eqn:EU. set (G := 10 ^ (X - p + 1 + 400)).
  assert (PT : 0 < T) by (apply pow_pos10; lia). assert (PB : 0 < B) by (apply pow_pos10; lia). assert (PG : 0 < G) by (apply pow_pos10; lia).
  assert (PU : 0 < U) by (rewrite EU; apply pow_pos10; lia).
  assert (ETG : T * G = B * U).
  { unfold T, G, B. rewrite EU, <- !Z.pow_add_r by lia. f_equal. lia. }
  clear EU.
  assert (E1 : 10 ^ (X + 400) = 10 ^ (p - 1) * G) by (unfold G; rewrite <- Z.pow_add_r by lia; f_equal; lia).
  assert (E2 : 10 ^ (X + 401) = 10 ^ p * G) by (unfold G; rewrite <- Z.pow_add_r by lia; f_equal; lia).
  rewrite E1 in Hlo. rewrite E2 in Hhi. set (D := nearest (a * T) (b * B)).
  pose proof (nearest_close (a * T) (b * B) ltac:(nia)) as Hc. fold D in Hc.
  assert (Hc' : Z.abs (2 * (D * G * b - a * U)) <= G * b).
  { assert (Z.abs (2 * (D * (b * B) - a * T)) * G <= b * B * G) by (apply Z.mul_le_mono_nonneg_r; lia).
    assert (E : 2 * (D * (b * B) - a * T) * G = B * (2 * (D * G * b - a * U))).
    { transitivity (2 * (D * b * B * G - a * (T * G))); [ring|]. rewrite ETG. ring. }
    assert (Z.abs (2 * (D * (b * B) - a * T)) * G = B * Z.abs (2 * (D * G * b - a * U))).
    { rewrite <- (Z.abs_eq G) at 1 by lia. rewrite <- Z.abs_mul, E, Z.abs_mul. rewrite (Z.abs_eq B) by lia. reflexivity. }
    apply (Z.mul_le_mono_pos_l _ _ B PB). rewrite <- H0. replace (B * (G * b)) with (b * B * G) by ring. exact H. }
  assert (HD1 : 10 ^ (p - 1) <= D).
  { destruct (Z_le_gt_dec (10 ^ (p - 1)) D); [assumption|exfalso]. assert (PGb : 0 < G * b) by (apply Z.mul_pos_pos; assumption).
    assert (D * (G * b) <= (10 ^ (p - 1) - 1) * (G * b)) by (apply Z.mul_le_mono_nonneg_r; lia). lia. }
  assert (HD2 : D <= 10 ^ p).
  { destruct (Z_le_gt_dec D (10 ^ p)); [assumption|exfalso]. assert (PGb : 0 < G * b) by (apply Z.mul_pos_pos; assumption).
    assert ((10 ^ p + 1) * (G * b) <= D * (G * b)) by (apply Z.mul_le_mono_nonneg_r; lia). lia. }
  destruct (Z.eqb_spec D (10 ^ p)) as [E|E].
  - split; [|split; [right; reflexivity|]].
    + split; [lia|]. apply Z.pow_lt_mono_r; lia.
    + replace (10 ^ (p - 1) * 10 ^ (X + 1 - p + 1 + 400)) with (D * G); [exact Hc'|]. rewrite E. unfold G. rewrite <- !Z.pow_add_r by lia. f_equal. lia.
  - split; [lia|]. split; [left; reflexivity|]. exact Hc'.
Qed.
