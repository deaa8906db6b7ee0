(** The text of a double is read as the number it shows. *)

From Coq Require Import ZArith List Bool Lia String Floats.SpecFloat.
From Verif Require Import Base Scalar Text Parser ParserSpec TextProofs ParserProofs Double DoubleProofs.
Import ListNotations.
Open Scope Z_scope.

Opaque Z.pow.

(* ---------------------------------------------------------------- reading the text *)

Lemma strip_zeros l : exists t, l = strip l ++ repeat 48 t.
Proof.
  induction l as [|b l (t & IH)]; [exists 0%nat; reflexivity|]. cbn [strip]. destruct (strip l) as [|c r] eqn:E.
  - cbn [app] in IH. destruct (Z.eqb_spec b 48) as [->|Hb].
    + exists (Datatypes.S t). cbn [repeat app]. now rewrite <- IH.
    + exists t. cbn [app]. now rewrite <- IH.
  - exists t. cbn [app] in *. now rewrite <- IH.
Qed.
Lemma dec_value_zeros n : dec_value (repeat 48 n) = 0.
Proof.
  unfold dec_value. assert (G : forall a, a = 0 -> fold_left (fun a d => 10 * a + (d - 48)) (repeat 48 n) a = 0).
  { induction n as [|n IH]; intros a Ha; cbn [repeat fold_left]; [exact Ha|]. apply IH. lia. }
  apply G. reflexivity.
Qed.
Lemma Forall_strip (P : byte -> Prop) l : Forall P l -> Forall P (strip l).
Proof. intros H. destruct (strip_zeros l) as (t & E). rewrite E in H. apply Forall_app in H. apply H. Qed.

Definition digits (l : list byte) : Prop := Forall (fun b => is_digit b = true) l.

(** ip.fp stands for dec_value (ip ++ fp) * 10^-|fp|. *)
Lemma scan_mantissa (neg : bool) ip fp rest : digits ip -> ip <> [] -> digits fp ->
  match rest with [] => True | b :: _ => is_digit b = false /\ b <> DOT /\ b <> EE /\ b <> 69 end ->
  scan_double ((if neg then [MINUS] else []) ++ mantissa ip fp ++ rest) =
    (let E := - zlen (strip fp) in
     let (x, fits) := round_double neg (dec_value (ip ++ strip fp) * 10 ^ Z.max E 0) (10 ^ Z.max (- E) 0) in (x, fits, rest)).
Proof.
  intros Hi Hne Hf Hr. unfold mantissa, scan_double. rewrite <- app_assoc. rewrite (scan_signed_digits neg ip) by assumption.
  assert (Hs : digits (strip fp)) by (apply Forall_strip, Hf). destruct (strip fp) as [|c f] eqn:Es.
  - cbn [app]. rewrite span_all by (try exact Hi; destruct rest; tauto). rewrite app_nil_r.
    destruct rest as [|b rest]; [|destruct Hr as (R1 & R2 & R3 & R4); apply Z.eqb_neq in R2, R3, R4; rewrite R2];
      (destruct ip as [|i ip]; [congruence|]); cbn [app]; rewrite ?R3, ?R4; cbn [orb]; change (zlen (@nil byte)) with 0; rewrite ?app_nil_r; reflexivity.
  - cbn [app]. rewrite span_all by (try exact Hi; reflexivity). cbn [Z.eqb]. rewrite Z.eqb_refl.
    change (c :: f ++ rest) with ((c :: f) ++ rest). rewrite span_all by (try exact Hs; destruct rest; tauto).
    destruct ip as [|i ip]; [congruence|]. cbn [app].
    destruct rest as [|b rest]; [|destruct Hr as (R1 & R2 & R3 & R4); apply Z.eqb_neq in R2, R3, R4; rewrite R3, R4]; cbn [orb]; reflexivity.
Qed.

Lemma exponent_form X : exists es, exponent X = EE :: (if X <? 0 then MINUS else PLUS) :: es /\ digits es /\ es <> [] /\ dec_value es = Z.abs X.
Proof.
  destruct (dec_spec (Z.abs X) ltac:(lia)) as (D1 & D2 & D3). eexists. split; [reflexivity|]. split; [|split].
  - apply Forall_app; split; [destruct (Z.abs X <? 10); repeat constructor|exact D1].
  - intros E; apply app_eq_nil in E; tauto.
  - rewrite dec_value_app, D3. destruct (Z.abs X <? 10); [change (dec_value [48]) with 0|change (dec_value []) with 0]; lia.
Qed.
Lemma scan_scientific (neg : bool) ip fp X rest : digits ip -> ip <> [] -> digits fp -> ends rest ->
  scan_double ((if neg then [MINUS] else []) ++ (mantissa ip fp ++ exponent X) ++ rest) =
    (let E := X - zlen (strip fp) in
     let (x, fits) := round_double neg (dec_value (ip ++ strip fp) * 10 ^ Z.max E 0) (10 ^ Z.max (- E) 0) in (x, fits, rest)).
Proof.
  intros Hi Hne Hf Hr. destruct (exponent_form X) as (es & -> & Hes & Hen & Hev). unfold scan_double.
  cbn [app]. unfold mantissa. rewrite <- !app_assoc. rewrite (scan_signed_digits neg ip) by assumption.
  assert (Htail : scan_sign ((if X <? 0 then MINUS else PLUS) :: es ++ rest) = (X <? 0, es ++ rest)) by (destruct (X <? 0); reflexivity).
  assert (Hspan : span is_digit (es ++ rest) = (es, rest)) by (apply span_all; [exact Hes|apply ends_no_digit, Hr]).
  assert (Hx : (if X <? 0 then - dec_value es else dec_value es) = X) by (rewrite Hev; destruct (Z.ltb_spec X 0); lia).
  assert (Hs : digits (strip fp)) by (apply Forall_strip, Hf). destruct (strip fp) as [|c f] eqn:Es.
  - cbn [app]. rewrite span_all by (try exact Hi; reflexivity). change (EE =? DOT) with false. cbn iota beta. rewrite ?app_nil_r.
    destruct ip as [|i ip]; [congruence|]. cbn [app]. change ((EE =? EE) || (EE =? 69)) with true. cbn iota beta. rewrite Htail, Hspan.
    destruct es as [|e0 es]; [congruence|]. rewrite Hx, ?app_nil_r. reflexivity.
  - cbn [app]. rewrite span_all by (try exact Hi; reflexivity). change (DOT =? DOT) with true. cbn iota beta.
    change (c :: f ++ EE :: (if X <? 0 then MINUS else PLUS) :: es ++ rest) with ((c :: f) ++ EE :: (if X <? 0 then MINUS else PLUS) :: es ++ rest).
    rewrite span_all by (try exact Hs; reflexivity). destruct ip as [|i ip]; [congruence|]. cbn [app].
    change ((EE =? EE) || (EE =? 69)) with true. cbn iota beta. rewrite Htail, Hspan. destruct es as [|e0 es]; [congruence|]. rewrite Hx, ?app_nil_r. reflexivity.
Qed.

(** The number read from ip.fp e X. *)
Lemma shown_number ip fp ex p X D : digits fp -> dec_value (ip ++ fp) = D -> ex - zlen fp = X - p + 1 -> 0 <= X - p + 1 + 400 ->
  let E := ex - zlen (strip fp) in
  dec_value (ip ++ strip fp) * 10 ^ Z.max E 0 * 10 ^ 400 = D * 10 ^ (X - p + 1 + 400) * 10 ^ Z.max (- E) 0.
Proof.
  intros Hf HD Hx Hr E. destruct (strip_zeros fp) as (t & Et). rewrite Et in HD, Hx. rewrite app_assoc, dec_value_app, dec_value_zeros in HD.
  assert (Ez : @zlen byte (repeat 48 t) = Z.of_nat t) by (unfold zlen; now rewrite repeat_length). unfold byte in *. rewrite zlen_app in Hx. rewrite Ez in *. subst D.
  rewrite Z.add_0_r, <- !Z.mul_assoc. rewrite <- !Z.pow_add_r by lia. f_equal. f_equal. unfold E. lia.
Qed.

Lemma digits_firstn n l : digits l -> digits (firstn n l).
Proof. intros H. rewrite <- (firstn_skipn n l) in H. apply Forall_app in H. apply H. Qed.
Lemma digits_skipn n l : digits l -> digits (skipn n l).
Proof. intros H. rewrite <- (firstn_skipn n l) in H. apply Forall_app in H. apply H. Qed.

Lemma ends_after rest : ends rest -> match rest with [] => True | b :: _ => is_digit b = false /\ b <> DOT /\ b <> EE /\ b <> 69 end.
Proof.
  destruct rest as [|b rest]; [trivial|]. intros H. cbn in H. split; [apply space_not_digit, H|]. repeat split; intros ->; discriminate.
Qed.

Lemma fmt_reads p a b D X : 1 <= p -> dec_digits p a b = (D, X) -> 10 ^ (p - 1) <= D < 10 ^ p -> 0 <= X - p + 1 + 400 ->
  exists num den, 0 < den /\ num * 10 ^ 400 = D * 10 ^ (X - p + 1 + 400) * den /\
    (forall neg : bool, match (if neg then [MINUS] else []) ++ fmt_pos p a b with [] => False | c :: _ => is_space c = false end) /\
    (forall (neg : bool) rest, ends rest -> scan_double (((if neg then [MINUS] else []) ++ fmt_pos p a b) ++ rest) =
       (let (x, fits) := round_double neg num den in (x, fits, rest))).
Proof.
  intros Hp E HD HX. unfold fmt_pos. rewrite E. assert (Hpos : 0 < D) by (pose proof (pow_pos10 (p - 1) ltac:(lia)); lia).
  destruct (dec_spec D ltac:(lia)) as (D1 & D2 & D3). pose proof (dec_length_unique D p HD Hp) as Hl.
  assert (Head : forall ip fp tl, digits ip -> ip <> [] -> forall neg : bool, match (if neg then [MINUS] else []) ++ mantissa ip fp ++ tl with [] => False | c :: _ => is_space c = false end).
  { intros ip fp tl H1 H2 [|]; [reflexivity|]. destruct ip as [|c ip]; [congruence|]. cbn. apply digit_not_space. exact (Forall_inv H1). }
  destruct ((-4 <=? X) && (X <? p)) eqn:Ec; [destruct (Z.leb_spec 0 X)|].
  - apply andb_true_iff in Ec. destruct Ec as (_ & Ec). apply Z.ltb_lt in Ec.
    set (ip := firstn (Z.to_nat (X + 1)) (dec D)). set (fp := skipn (Z.to_nat (X + 1)) (dec D)).
    assert (Hip : digits ip) by (apply digits_firstn, D1). assert (Hfp : digits fp) by (apply digits_skipn, D1).
    assert (Hne : ip <> []). { unfold ip. intros E0. apply (f_equal (@List.length byte)) in E0. rewrite firstn_length in E0. change (List.length (@nil byte)) with 0%nat in E0. unfold zlen in Hl. unfold byte in *. lia. }
    eexists. eexists. split; [|split; [|split]].
    3: { intros neg. rewrite <- (app_nil_r (mantissa ip fp)). apply Head; assumption. }
    3: { intros neg rest Hr. rewrite <- app_assoc. rewrite (scan_mantissa neg ip fp rest Hip Hne Hfp (ends_after rest Hr)). reflexivity. }
    + apply pow_pos10. lia.
    + replace (- zlen (strip fp)) with (0 - zlen (strip fp)) by lia. apply (shown_number ip fp 0 p X D Hfp).
      * unfold ip, fp. rewrite firstn_skipn. exact D3.
      * unfold fp, zlen. rewrite skipn_length. unfold zlen in Hl. unfold byte in *. lia.
      * exact HX.
  - apply andb_true_iff in Ec. destruct Ec as (Ec & _). apply Z.leb_le in Ec.
    set (fp := repeat 48 (Z.to_nat (- X - 1)) ++ dec D).
    assert (Hfp : digits fp). { apply Forall_app. split; [|exact D1]. apply Forall_forall. intros c Hc. apply repeat_spec in Hc. subst c. reflexivity. }
    assert (Hip : digits [48]) by (repeat constructor). assert (Hne : [48] <> []) by discriminate.
    eexists. eexists. split; [|split; [|split]].
    3: { intros neg. rewrite <- (app_nil_r (mantissa [48] fp)). apply Head; assumption. }
    3: { intros neg rest Hr. rewrite <- app_assoc. rewrite (scan_mantissa neg [48] fp rest Hip Hne Hfp (ends_after rest Hr)). reflexivity. }
    + apply pow_pos10. lia.
    + replace (- zlen (strip fp)) with (0 - zlen (strip fp)) by lia. apply (shown_number [48] fp 0 p X D Hfp).
      * rewrite dec_value_app. change (dec_value [48]) with 0. unfold fp. rewrite dec_value_app, dec_value_zeros. lia.
      * unfold fp. rewrite zlen_app. assert (Ez : zlen (repeat 48 (Z.to_nat (- X - 1))) = - X - 1) by (unfold zlen; rewrite repeat_length; lia). unfold byte in *. lia.
      * exact HX.
  - set (ip := firstn 1 (dec D)). set (fp := skipn 1 (dec D)).
    assert (Hip : digits ip) by (apply digits_firstn, D1). assert (Hfp : digits fp) by (apply digits_skipn, D1).
    assert (Hne : ip <> []) by (unfold ip; destruct (dec D); [congruence|discriminate]).
    eexists. eexists. split; [|split; [|split]].
    3: { intros neg. apply Head; assumption. }
    3: { intros neg rest Hr. rewrite <- app_assoc. rewrite (scan_scientific neg ip fp X rest Hip Hne Hfp Hr). reflexivity. }
    + apply pow_pos10. lia.
    + apply (shown_number ip fp X p X D Hfp).
      * unfold ip, fp. rewrite firstn_skipn. exact D3.
      * unfold fp, zlen. rewrite skipn_length. unfold zlen in Hl. unfold byte in *. lia.
      * exact HX.
Qed.

(* ---------------------------------------------------------------- survival *)

Lemma U_large : 2 ^ 1074 <= 10 ^ 400 /\ 2 ^ 1074 * 10 ^ 76 <= 10 ^ 400.
Proof. split; vm_compute; discriminate. Qed.

(** The decimal exponent of m * 2^e. *)
Definition exp10 (m e : Z) : Z := dec_exp (m * 2 ^ (e + 1074)) (2 ^ 1074).

Lemma exp10_spec m e : double_ok m e -> let X := exp10 m e in
  -360 <= X /\ 2 ^ 1074 * 10 ^ (X + 400) <= m * 2 ^ (e + 1074) * 10 ^ 400 < 2 ^ 1074 * 10 ^ (X + 401).
Proof.
  intros ((Hm & _) & He & _) X. destruct U_large as (U1 & U2). pose proof (pow_pos2 (e + 1074) ltac:(lia)) as Pk. pose proof (pow_pos2 1074 ltac:(lia)) as P1.
  pose proof (pow_pos10 400 ltac:(lia)) as P2. assert (Ha : 1 * 10 ^ 400 <= m * 2 ^ (e + 1074) * 10 ^ 400) by (apply Z.mul_le_mono_nonneg_r; lia).
  destruct (dec_exp_spec (m * 2 ^ (e + 1074)) (2 ^ 1074) P1 ltac:(lia)) as (H1 & H2 & H3). fold (exp10 m e) in *. fold X in H1, H2, H3.
  split; [|lia]. destruct (Z_le_gt_dec (-360) X); [assumption|exfalso].
  assert (10 ^ (X + 401) <= 10 ^ 76) by (apply Z.pow_le_mono_r; lia). assert (2 ^ 1074 * 10 ^ (X + 401) <= 2 ^ 1074 * 10 ^ 76) by (apply Z.mul_le_mono_nonneg_l; lia). lia.
Qed.

(** The spacing of p-digit decimals at x is less than the spacing of doubles (half of it where
    that changes). *)
Definition enough_digits (p m e : Z) : Prop :=
  let X := exp10 m e in
  10 ^ (X - p + 1 + 400) * 2 ^ 1074 < 2 ^ (e + 1074) * 10 ^ 400 /\
  (m = 2 ^ 52 -> e <> -1074 -> 2 * 10 ^ (X - p + 1 + 400) * 2 ^ 1074 < 2 ^ (e + 1074) * 10 ^ 400).

(** The numbers 2^1074 and 10^400 are kept abstract here. *)
Lemma scaled_large a b U : 0 < a -> 0 < U -> b <= U -> b <= a * U.
Proof. nia. Qed.
Lemma spacing W G U a b num den k c : 0 < U -> 0 < den -> 0 < c -> num * U = W * den -> Z.abs (2 * (W * b - a * U)) <= G * b -> c * G * b < k * U ->
  Z.abs (2 * c * (num * b - a * den)) < k * den.
Proof.
  intros P2 Pd Pc En Hc Hcc. apply (Z.mul_lt_mono_pos_r U _ _ P2).
  replace (Z.abs (2 * c * (num * b - a * den)) * U) with (c * den * Z.abs (2 * (W * b - a * U))).
  - assert (c * den * Z.abs (2 * (W * b - a * U)) <= c * den * (G * b)) by (apply Z.mul_le_mono_nonneg_l; [nia|exact Hc]).
    assert (den * (c * G * b) < den * (k * U)) by (apply Z.mul_lt_mono_pos_l; assumption). lia.
  - rewrite <- (Z.abs_eq (c * den)) at 1 by nia. rewrite <- (Z.abs_eq U) at 2 by lia. rewrite <- !Z.abs_mul. f_equal.
    transitivity (2 * c * (W * den * b - a * den * U)); [ring|]. rewrite <- En. ring.
Qed.

Lemma digits_shown p m e : 1 <= p <= 40 -> double_ok (Z.pos m) e -> let a := Z.pos m * 2 ^ (e + 1074) in let X := exp10 (Z.pos m) e in
  exists D X' num den, (X' = X \/ X' = X + 1) /\ 0 < den /\ num * 10 ^ 400 = D * 10 ^ (X' - p + 1 + 400) * den /\
  Z.abs (2 * (D * 10 ^ (X' - p + 1 + 400) * 2 ^ 1074 - a * 10 ^ 400)) <= 10 ^ (X - p + 1 + 400) * 2 ^ 1074 /\
  forall s, let t := fmt_double p (S754_finite s m e) in
    match t with [] => False | c :: _ => is_space c = false end /\
    forall rest, ends rest -> scan_double (t ++ rest) = let (x, fits) := round_double s num den in (x, fits, rest).
Proof.
  intros Hp Hok a X. destruct (exp10_spec _ _ Hok) as (HX & _). change (-360 <= X) in HX.
  assert (He : 0 <= e + 1074) by (destruct Hok as (_ & He & _); clear - He; lia). pose proof (pow_pos2 (e + 1074) He) as Pk.
  assert (Pa : 0 < a) by (apply Z.mul_pos_pos; [reflexivity|exact Pk]).
  pose proof (scaled_large a (2 ^ 1074) (10 ^ 400) Pa (pow_pos10 400 ltac:(discriminate)) (proj1 U_large)) as Hab.
  pose proof (dec_digits_spec p a (2 ^ 1074) Hp (pow_pos2 1074 ltac:(discriminate)) Hab HX) as Hd. cbv zeta in Hd.
  change (dec_exp a (2 ^ 1074)) with X in Hd. clear Hab. assert (Ef : forall s, fmt_double p (S754_finite s m e) = (if s then [MINUS] else []) ++ fmt_pos p a (2 ^ 1074)) by reflexivity.
  clearbody X a. revert Hd Ef. generalize (2 ^ 1074) as b. intros b. destruct (dec_digits p a b) as [D X'] eqn:ED. intros (HD & HX' & Hc) Ef.
  destruct (fmt_reads p a b D X' ltac:(clear - Hp; lia) ED HD ltac:(clear - Hp HX HX'; lia)) as (num & den & Pd & En & Hh & Hs).
  exists D, X', num, den. split; [exact HX'|]. split; [exact Pd|]. split; [exact En|]. split; [exact Hc|]. intros s t. unfold t. rewrite Ef. split; [apply Hh|]. apply Hs.
Qed.

Lemma finite_survives p s m e : 1 <= p <= 40 -> double_ok (Z.pos m) e -> enough_digits p (Z.pos m) e ->
  survives double_codec p (S754_finite s m e).
Proof.
  intros Hp Hok (H1 & H2). destruct (digits_shown p m e Hp Hok) as (D & X' & num & den & _ & Pd & En & Hc & Hs). destruct (Hs s) as (Hs1 & Hs2). clear Hs.
  unfold survives, double_codec. cbn [tc_scan tc_fmt]. split; [exact Hs1|]. intros rest Hr. rewrite (Hs2 rest Hr). clear Hs1 Hs2.
  rewrite (round_near s m e num den Hok Pd); [reflexivity| |].
  - rewrite <- (Z.mul_1_r 2) at 1. apply (spacing _ _ _ _ _ _ _ _ 1 (pow_pos10 400 ltac:(discriminate)) Pd eq_refl En Hc). rewrite Z.mul_1_l. exact H1.
  - intros Em Ee. exact (spacing _ _ _ _ _ _ _ _ 2 (pow_pos10 400 ltac:(discriminate)) Pd eq_refl En Hc (H2 Em Ee)).
Qed.

Lemma zero_survives p s : survives double_codec p (S754_zero s).
Proof.
  unfold survives, double_codec. cbn [tc_scan tc_fmt fmt_double]. split; [destruct s; reflexivity|]. intros rest Hr.
  pose proof (scan_mantissa s [48] [] rest ltac:(repeat constructor) ltac:(discriminate) ltac:(constructor) (ends_after rest Hr)) as H.
  unfold mantissa in H. cbn [strip app] in H. rewrite <- app_assoc. cbn [app]. rewrite H. destruct s; reflexivity.
Qed.

(** 17 digits are enough for every finite double. *)
Lemma seventeen m e : double_ok m e -> enough_digits 17 m e.
Proof.
  intros Hok. destruct (exp10_spec _ _ Hok) as (HX & Hlo & Hhi). unfold enough_digits. set (X := exp10 m e) in *.
  destruct Hok as (Hm & He & Hc). pose proof (pow_pos2 (e + 1074) ltac:(lia)) as Pk. pose proof (pow_pos10 400 ltac:(lia)) as P2.
  pose proof (pow_pos10 (X - 17 + 1 + 400) ltac:(lia)) as PG. set (G := 10 ^ (X - 17 + 1 + 400)) in *.
  assert (EG : 10 ^ (X + 400) = 10 ^ 16 * G) by (unfold G; rewrite <- Z.pow_add_r by lia; f_equal; lia). rewrite EG in Hlo.
  set (K := 2 ^ (e + 1074) * 10 ^ 400) in *. replace (m * 2 ^ (e + 1074) * 10 ^ 400) with (m * K) in Hlo by (unfold K; ring).
  assert (PK : 0 < K) by (apply Z.mul_pos_pos; assumption).
  set (V := G * 2 ^ 1074). replace (2 * G * 2 ^ 1074) with (2 * V) by (unfold V; ring). replace (2 ^ 1074 * (10 ^ 16 * G)) with (10 ^ 16 * V) in Hlo by (unfold V; ring).
  change (10 ^ 16) with 10000000000000000 in Hlo. change (2 ^ 53) with 9007199254740992 in Hm. change (2 ^ 52) with 4503599627370496.
  assert (m * K <= 9007199254740992 * K) by (apply Z.mul_le_mono_nonneg_r; lia). split; [lia|]. intros -> _. lia.
Qed.
