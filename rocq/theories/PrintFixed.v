(** Proofs about printed numbers and dense matrices. *)

From Coq Require Import ZArith List Bool Lia String SpecFloat.
From Verif Require Import Base Scalar Spec LoopFacts Text ParserSpec TextProofs Parser Double DoubleSpec DoubleProofs DoubleText DoubleMore Dense DenseFacts Print PrintSpec PrintProofs.
Import ListNotations.
Open Scope list_scope.
Open Scope Z_scope.

Notation digits l := (Forall (fun b => is_digit b = true) l).

(** ** Words *)

Lemma digits_plain l : digits l -> Forall (fun b => is_space b = false) l.
Proof. apply Forall_impl. intros b. apply digit_not_space. Qed.

Lemma int_word n : word (fmt_int n).
Proof.
  destruct (fmt_int_form n) as (neg & ds & -> & H & Hn & _). split; [destruct neg; [discriminate|exact Hn]|].
  apply Forall_app. split; [destruct neg; repeat constructor|now apply digits_plain].
Qed.

Lemma word_app t u : word t -> Forall (fun b => is_space b = false) u -> word (t ++ u).
Proof. intros (H1 & H2) H. split; [destruct t; [congruence|discriminate]|]. apply Forall_app. now split. Qed.

Lemma dec_word n : 0 <= n -> word (dec n).
Proof. intros H. destruct (dec_spec n H) as (H1 & H2 & _). split; [exact H2|now apply digits_plain]. Qed.

Lemma firstn_plain (P : byte -> Prop) k l : Forall P l -> Forall P (firstn k l).
Proof. revert l. induction k; intros [|a l] H; cbn; constructor; [now apply Forall_inv in H|]. apply IHk. now apply Forall_inv_tail in H. Qed.

Lemma skipn_plain (P : byte -> Prop) k l : Forall P l -> Forall P (skipn k l).
Proof. revert l. induction k; intros [|a l] H; cbn; auto. apply IHk. now apply Forall_inv_tail in H. Qed.

Lemma mantissa_word ip fp : word ip -> Forall (fun b => is_space b = false) fp -> word (mantissa ip fp).
Proof.
  intros Hi Hf. unfold mantissa. apply word_app; [exact Hi|]. pose proof (Forall_strip _ fp Hf) as Hs. destruct (strip fp); [constructor|]. constructor; [reflexivity|exact Hs].
Qed.

Lemma nearest_nonneg a b : 0 <= a -> 0 < b -> 0 <= nearest a b.
Proof. intros Ha Hb. unfold nearest. pose proof (Z.div_pos a b Ha Hb). destruct (_ <? _); [lia|]. destruct (_ <? _); [lia|]. destruct (Z.even _); lia. Qed.

Lemma fmt_pos_word p a b : 0 <= a -> 0 < b -> word (fmt_pos p a b).
Proof.
  intros Ha Hb. unfold fmt_pos. destruct (dec_digits p a b) as (D, X) eqn:E.
  assert (HD : 0 <= D).
  { unfold dec_digits in E. destruct (_ =? _); injection E as <- _; [apply Z.pow_nonneg; lia|].
    apply nearest_nonneg; [apply Z.mul_nonneg_nonneg; [lia|apply Z.pow_nonneg; lia]|]. apply Z.mul_pos_pos; [lia|]. apply Z.pow_pos_nonneg; lia. }
  destruct (dec_word D HD) as (Hn & Hw).
  assert (Hf : forall k, (0 < k)%nat -> word (firstn k (dec D))).
  { intros k Hk. split; [|now apply firstn_plain]. destruct k; [lia|]. destruct (dec D); [congruence|discriminate]. }
  destruct ((-4 <=? X) && (X <? p)) eqn:B.
  - destruct (Z.leb_spec 0 X).
    + apply mantissa_word; [apply Hf; lia|now apply skipn_plain].
    + apply mantissa_word; [split; [discriminate|repeat constructor]|]. apply Forall_app. split; [|exact Hw].
      apply Forall_forall. intros c Hc. apply repeat_spec in Hc. now subst.
  - apply word_app; [apply mantissa_word; [apply (Hf 1%nat); lia|now apply (skipn_plain _ 1)]|].
    unfold exponent. constructor; [reflexivity|]. constructor; [destruct (X <? 0); reflexivity|]. apply Forall_app. split; [destruct (Z.abs X <? 10); repeat constructor|].
    apply dec_word. lia.
Qed.

Lemma sign_word (s : bool) t : word t -> word ((if s then [MINUS] else []) ++ t).
Proof. intros (H1 & H2). destruct s; [|now split]. split; [discriminate|]. constructor; [reflexivity|exact H2]. Qed.

Lemma double_word p x : word (fmt_double p x).
Proof.
  destruct x as [s|s| |s m e]; cbn [fmt_double]; try (apply sign_word); try (split; [discriminate|repeat constructor]).
  apply fmt_pos_word; [|apply Z.pow_pos_nonneg; lia]. apply Z.mul_nonneg_nonneg; [lia|apply Z.pow_nonneg; lia].
Qed.

(** ** Fixed notation *)

Lemma dec_value_zeros k l : dec_value (repeat 48 k ++ l) = dec_value l.
Proof. rewrite dec_value_app. enough (E : dec_value (repeat 48 k) = 0) by (rewrite E; lia). unfold dec_value. induction k; [reflexivity|]. cbn [repeat fold_left]. exact IHk. Qed.

Lemma digits_zeros k : digits (repeat 48 k).
Proof. apply Forall_forall. intros b Hb. apply repeat_spec in Hb. now subst. Qed.

Lemma zlen_repeat' {X} (a : X) k : zlen (repeat a k) = Z.of_nat k.
Proof. unfold zlen. now rewrite repeat_length. Qed.

Lemma dec_short r p : 1 <= p -> 0 <= r < 10 ^ p -> 0 < zlen (dec r) <= p.
Proof.
  intros Hp Hr. destruct (Z.eq_dec r 0) as [->|Hn]; [change (zlen (dec 0)) with 1; lia|].
  destruct (dec_length r ltac:(lia)) as (H1 & H2 & _). split; [exact H1|].
  destruct (Z_le_gt_dec (zlen (dec r)) p); [assumption|exfalso]. assert (10 ^ p <= 10 ^ (zlen (dec r) - 1)) by (apply Z.pow_le_mono_r; lia). lia.
Qed.

Lemma fixed_form p n : 0 <= p -> 0 <= n -> exists ip fp, fixed_text p n = ip ++ (if p =? 0 then [] else [DOT]) ++ fp /\
  digits ip /\ ip <> [] /\ digits fp /\ zlen fp = p /\ dec_value ip * 10 ^ p + dec_value fp = n.
Proof.
  intros Hp Hn. pose proof (Z.pow_pos_nonneg 10 p ltac:(lia) Hp) as P. pose proof (Z.div_mod n (10 ^ p) ltac:(lia)) as E.
  pose proof (Z.mod_pos_bound n (10 ^ p) P) as B. pose proof (Z.div_pos n (10 ^ p) Hn P) as Q.
  destruct (dec_spec _ Q) as (H1 & H2 & H3). unfold fixed_text. exists (dec (n / 10 ^ p)).
  destruct (Z.eqb_spec p 0) as [->|Hp0].
  - exists []. rewrite H3. split; [reflexivity|]. do 2 (split; [assumption|]). split; [constructor|]. split; [reflexivity|]. change (10 ^ 0) with 1 in *. cbn [dec_value fold_left]. rewrite Z.mod_1_r in E. lia.
  - exists (repeat 48 (Z.to_nat (p - zlen (dec (n mod 10 ^ p)))) ++ dec (n mod 10 ^ p)).
    destruct (dec_spec (n mod 10 ^ p) ltac:(lia)) as (G1 & G2 & G3). pose proof (dec_short (n mod 10 ^ p) p ltac:(lia) B) as L.
    split; [reflexivity|]. do 2 (split; [assumption|]). split; [apply Forall_app; split; [apply digits_zeros|exact G1]|].
    split; [rewrite zlen_app, zlen_repeat'; lia|]. rewrite dec_value_zeros, G3, H3. lia.
Qed.

Lemma fixed_close p x u : 0 <= p -> units x = Some u -> exists z, fixed_decimal p (fmt_fixed p x) z /\ Z.abs (2 * (z * 2 ^ 1074 - u * 10 ^ p)) <= 2 ^ 1074.
Proof.
  intros Hp Hu.
  assert (G : forall (s : bool) n, 0 <= n -> fixed_decimal p ((if s then [MINUS] else []) ++ fixed_text p n) ((if s then -1 else 1) * n)).
  { intros s n Hn. destruct (fixed_form p n Hp Hn) as (ip & fp & -> & H1 & H2 & H3 & H4 & <-). exists s, ip, fp. repeat (split; [assumption || reflexivity|]). reflexivity. }
  destruct x as [s|s| |s m e]; try discriminate; cbn [units] in Hu; apply (f_equal (fun o => match o with Some a => a | None => 0 end)) in Hu; cbv beta iota in Hu; subst u; cbn [fmt_fixed].
  - eexists. split; [apply G; lia|]. rewrite Z.mul_0_r, Z.mul_0_l. apply Z.pow_nonneg. lia.
  - set (a := Z.pos m * 2 ^ (e + 1074)). set (b := 2 ^ 1074). assert (Pb : 0 < b) by (apply Z.pow_pos_nonneg; lia).
    assert (Pa : 0 <= a * 10 ^ p) by (apply Z.mul_nonneg_nonneg; [apply Z.mul_nonneg_nonneg; [lia|]|]; apply Z.pow_nonneg; lia).
    eexists. split; [apply G, nearest_nonneg; assumption|]. pose proof (nearest_close (a * 10 ^ p) b Pb) as N.
    destruct s; [|rewrite !Z.mul_1_l; exact N].
    replace (2 * (-1 * nearest (a * 10 ^ p) b * b - -1 * a * 10 ^ p)) with (- (2 * (nearest (a * 10 ^ p) b * b - a * 10 ^ p))) by ring. now rewrite Z.abs_opp.
Qed.

(** The text of a double in fixed notation ends where its form says. *)
Definition fixed_like (p : Z) (t : list byte) : Prop :=
  (exists z, fixed_decimal p t z) \/ exists s : bool, t = (if s then [MINUS] else []) ++ txt "inf" \/ t = txt "nan".

Lemma fmt_fixed_like p x : 0 <= p -> fixed_like p (fmt_fixed p x).
Proof.
  intros Hp. destruct x as [s|s| |s m e].
  - left. destruct (fixed_close p (S754_zero s) 0 Hp eq_refl) as (z & H & _). now exists z.
  - right. exists s. now left.
  - right. exists false. now right.
  - left. destruct (fixed_close p (S754_finite s m e) _ Hp eq_refl) as (z & H & _). now exists z.
Qed.

Lemma app_eq_length {X} (a b x y : list X) : zlen a = zlen b -> a ++ x = b ++ y -> a = b /\ x = y.
Proof.
  unfold zlen. revert b. induction a as [|c a IH]; intros [|d b] L E; cbn in *; try lia; [now split|]. injection E as -> E.
  destruct (IH b ltac:(lia) E) as (-> & ->). now split.
Qed.

Lemma digit_head l b r : digits l -> l <> [] -> is_digit b = false -> forall t, l ++ t <> b :: r.
Proof. intros H Hn Hb t E. destruct l as [|c l]; [congruence|]. cbn [app] in E. injection E as -> _. apply Forall_inv in H. congruence. Qed.

Lemma fixed_det p t u x y : 1 <= p -> fixed_like p t -> fixed_like p u -> t ++ x = u ++ y -> t = u /\ x = y.
Proof.
  intros Hp Ht Hu E.
  assert (F : forall t, fixed_like p t -> exists s : bool, (exists ip fp, t = (if s then [MINUS] else []) ++ ip ++ [DOT] ++ fp /\ digits ip /\ ip <> [] /\ zlen fp = p) \/
    t = (if s then [MINUS] else []) ++ txt "inf" \/ (t = txt "nan" /\ s = false)).
  { intros t' [(z & s & ip & fp & -> & H1 & H2 & H3 & H4 & _)|(s & [->| ->])].
    - exists s. left. exists ip, fp. destruct (Z.eqb_spec p 0); [lia|]. repeat (split; [assumption || reflexivity|]). assumption.
    - exists s. right. now left.
    - exists false. right. now right. }
  apply F in Ht, Hu. clear F. destruct Ht as (s & Ht), Hu as (s' & Hu).
  assert (Es : s = s').
  { assert (Hh : forall (s : bool) t x, (exists ip fp, t = (if s then [MINUS] else []) ++ ip ++ [DOT] ++ fp /\ digits ip /\ ip <> [] /\ zlen fp = p) \/
        t = (if s then [MINUS] else []) ++ txt "inf" \/ (t = txt "nan" /\ s = false) -> (hd 0 (t ++ x) =? MINUS) = s).
    { intros s0 t0 x0 [(ip & fp & -> & H1 & H2 & _)|[->|(-> & ->)]]; [|destruct s0; reflexivity|reflexivity].
      destruct s0; [reflexivity|]. destruct ip as [|c ip]; [congruence|]. cbn [app hd]. apply Forall_inv in H1. now apply digit_not_sign in H1. }
    rewrite <- (Hh s t x Ht), <- (Hh s' u y Hu), E. reflexivity. }
  subst s'.
  assert (I : forall l r t, digits l -> l <> [] -> l ++ t = txt "inf" ++ r -> False) by (intros l r t0 H1 H2; apply digit_head; auto).
  assert (N : forall l r t, digits l -> l <> [] -> l ++ t = txt "nan" ++ r -> False) by (intros l r t0 H1 H2; apply digit_head; auto).
  destruct Ht as [(ip & fp & -> & H1 & H2 & H3)|[->|(-> & ->)]], Hu as [(jp & gp & -> & G1 & G2 & G3)|[->|(-> & G)]]; try subst s; rewrite <- ?app_assoc in E; try apply app_inv_head in E.
  - apply (split_eq is_digit) in E; auto; try reflexivity. destruct E as (-> & E). apply (app_inv_head [DOT]) in E.
    apply app_eq_length in E; [|lia]. destruct E as (-> & ->). now split.
  - exfalso. eapply I; eassumption.
  - exfalso. eapply N; eassumption.
  - exfalso. symmetry in E. eapply I; eassumption.
  - apply (app_inv_head (txt "inf")) in E. now subst.
  - exfalso. discriminate E.
  - exfalso. symmetry in E. eapply N; eassumption.
  - exfalso. discriminate E.
  - now subst.
Qed.

(** ** Dense matrices *)

Lemma fixed_plain p t : fixed_like p t -> t <> [] /\ starts (Z.eqb SP) t /\ hd 0 t <> NL.
Proof.
  intros [(z & s & ip & fp & -> & H1 & H2 & _)|(s & [->| ->])]; [|destruct s; repeat split; discriminate|repeat split; discriminate].
  destruct s; [repeat split; discriminate|]. destruct ip as [|c ip]; [congruence|]. apply Forall_inv in H1. cbn [app starts hd].
  split; [discriminate|]. split; [destruct (Z.eqb_spec SP c) as [<-|]; [discriminate|reflexivity]|]. intros ->. discriminate.
Qed.

Lemma starts_app q t x : t <> [] -> starts q t -> starts q (t ++ x).
Proof. destruct t; [congruence|auto]. Qed.

Lemma pad_not_newline w (t x : list byte) : t <> [] -> hd 0 t <> NL -> forall y, pad w t ++ x <> NL :: y.
Proof.
  intros Hn Hh y E. unfold pad in E. remember (repeat SP (Z.to_nat (w - zlen t))) as sp eqn:Er. destruct sp as [|c l]; cbn [app] in E.
  - destruct t; [congruence|]. cbn [app hd] in *. idtac.
    injection E as -> _. congruence.
  - injection E as -> _. assert (In NL (repeat SP (Z.to_nat (w - zlen t)))) by (rewrite <- Er; now left). apply repeat_spec in H. discriminate.
Qed.

Section DensePrint.
Context (w p : Z) (Hp : 1 <= p).

Definition cell (x : spec_float) : list byte := pad w (fmt_fixed p x).

Lemma cells_det : forall r s x y, flat_map cell r ++ NL :: x = flat_map cell s ++ NL :: y -> map (fmt_fixed p) r = map (fmt_fixed p) s /\ x = y.
Proof.
  induction r as [|a r IH]; intros [|b s] x y E; cbn [flat_map app] in E.
  - split; [reflexivity|]. now injection E.
  - exfalso. destruct (fixed_plain p _ (fmt_fixed_like p b ltac:(lia))) as (H1 & _ & H3). rewrite <- app_assoc in E. symmetry in E. revert E. now apply pad_not_newline.
  - exfalso. destruct (fixed_plain p _ (fmt_fixed_like p a ltac:(lia))) as (H1 & _ & H3). rewrite <- app_assoc in E. revert E. now apply pad_not_newline.
  - rewrite <- !app_assoc in E. pose proof (fmt_fixed_like p a ltac:(lia)) as La. pose proof (fmt_fixed_like p b ltac:(lia)) as Lb.
    destruct (fixed_plain p _ La) as (H1 & H2 & _), (fixed_plain p _ Lb) as (G1 & G2 & _).
    unfold cell at 1 3 in E. unfold pad in E. rewrite <- !app_assoc in E. apply pads_split in E; [|now apply starts_app|now apply starts_app].
    apply (fixed_det p) in E; [|exact Hp|exact La|exact Lb]. destruct E as (E1 & E). destruct (IH s x y E) as (E2 & E3). split; [|exact E3]. cbn [map]. now rewrite E1, E2.
Qed.

Definition row_text (r : list spec_float) : list byte := flat_map cell r ++ [NL].

Lemma rows_det : forall R Q, flat_map row_text R ++ [NL] = flat_map row_text Q ++ [NL] -> map (map (fmt_fixed p)) R = map (map (fmt_fixed p)) Q.
Proof.
  assert (L : forall (a t : list byte), [NL] = ((a ++ [NL]) ++ t) ++ [NL] -> False).
  { intros a t E. apply (f_equal (@List.length byte)) in E. rewrite !app_length in E. cbn in E. lia. }
  induction R as [|r R IH]; intros [|s Q] E; cbn [flat_map app] in E.
  - reflexivity.
  - exfalso. eapply L. exact E.
  - exfalso. eapply L. symmetry. exact E.
  - unfold row_text at 1 3 in E. rewrite <- !app_assoc in E. cbn [app] in E. apply cells_det in E. destruct E as (E1 & E). cbn [map]. now rewrite E1, (IH Q E).
Qed.

End DensePrint.

Definition rows_of (D : dense SFs) : list (list spec_float) := map (fun i => map (fun j => dense_mat D i j) (zrange 0 (d_cols D))) (zrange 0 (d_rows D)).

Lemma d_print_rows label w p (D : dense SFs) : dense_ok D -> d_print label w p D = Ok (label ++ [NL] ++ flat_map (row_text w p) (rows_of D) ++ [NL]).
Proof.
  intros V. unfold d_print, for_. rewrite (foldM_ext _ (fun out i => Ok (out ++ row_text w p (map (fun j => dense_mat D i j) (zrange 0 (d_cols D)))))).
  - rewrite foldM_pure, fold_append. cbn [bind]. unfold rows_of. rewrite <- !app_assoc. do 3 f_equal.
    rewrite flat_map_concat_map, (flat_map_concat_map (row_text w p)), map_map. reflexivity.
  - intros out i Hi. apply In_zrange in Hi. rewrite (foldM_ext _ (fun out j => Ok (out ++ cell w p (dense_mat D i j)))).
    + rewrite foldM_pure, fold_append. cbn [bind]. unfold row_text. rewrite <- app_assoc. do 3 f_equal.
      rewrite flat_map_concat_map, (flat_map_concat_map (cell w p)), map_map. reflexivity.
    + intros o j Hj. apply In_zrange in Hj. rewrite d_get_ok by auto. reflexivity.
Qed.

Lemma d_print_det label w p (D E : dense SFs) : 1 <= p -> dense_ok D -> dense_ok E -> d_print label w p D = d_print label w p E ->
  d_rows D = d_rows E /\ (0 < d_rows D -> d_cols D = d_cols E) /\
  forall i j, 0 <= i < d_rows D -> 0 <= j < d_cols D -> fmt_fixed p (dense_mat D i j) = fmt_fixed p (dense_mat E i j).
Proof.
  intros Hp VD VE H. rewrite !d_print_rows in H by assumption. apply Ok_inj in H. apply (app_inv_head label) in H. apply (app_inv_head [NL]) in H.
  apply (rows_det w p Hp) in H. pose proof (proj1 VD) as D1. pose proof (proj1 (proj2 VD)) as D2. pose proof (proj1 VE) as E1. pose proof (proj1 (proj2 VE)) as E2.
  assert (Er : d_rows D = d_rows E).
  { apply (f_equal zlen) in H. unfold rows_of in H. rewrite !map_map, !zlen_map_zrange in H by lia. lia. }
  assert (R : forall i, 0 <= i < d_rows D -> map (fmt_fixed p) (map (fun j => dense_mat D i j) (zrange 0 (d_cols D))) = map (fmt_fixed p) (map (fun j => dense_mat E i j) (zrange 0 (d_cols E)))).
  { intros i Hi. apply (f_equal (fun l => zn [] l i)) in H. unfold rows_of in H. rewrite !map_map in H. rewrite !zn_map_zrange in H by lia. exact H. }
  assert (Ec : 0 < d_rows D -> d_cols D = d_cols E).
  { intros Hr. specialize (R 0 ltac:(lia)). apply (f_equal zlen) in R. rewrite !map_map, !zlen_map_zrange in R by lia. lia. }
  split; [exact Er|]. split; [exact Ec|]. intros i j Hi Hj. specialize (R i Hi). apply (f_equal (fun l => zn [] l j)) in R. rewrite !map_map in R.
  rewrite !zn_map_zrange in R by lia. exact R.
Qed.

Lemma fixed_decimal_inj p t y z : 1 <= p -> fixed_decimal p t y -> fixed_decimal p t z -> y = z.
Proof.
  intros Hp (s & ip & fp & -> & H1 & H2 & H3 & H4 & ->) (s' & jp & gp & E & G1 & G2 & G3 & G4 & ->).
  destruct (Z.eqb_spec p 0); [lia|].
  assert (Es : s = s').
  { apply (f_equal (fun l => hd 0 l =? MINUS)) in E. destruct ip as [|c ip]; [congruence|]. destruct jp as [|d jp]; [congruence|].
    apply Forall_inv in H1, G1. apply digit_not_sign in H1, G1. destruct H1 as (H1 & _), G1 as (G1 & _).
    destruct s, s'; try reflexivity; exfalso; [assert (X : true = (d =? MINUS)) by exact E|assert (X : (c =? MINUS) = true) by exact E]; congruence. }
  subst s'. apply app_inv_head in E. apply (split_eq is_digit) in E; auto; try reflexivity. destruct E as (-> & E). apply (app_inv_head [DOT]) in E. now subst.
Qed.

(** Equal texts: the values differ by at most one unit of the last decimal. *)
Lemma fixed_same p x y u v : 1 <= p -> units x = Some u -> units y = Some v -> fmt_fixed p x = fmt_fixed p y -> Z.abs (u - v) * 10 ^ p <= 2 ^ 1074.
Proof.
  intros Hp Hu Hv E. destruct (fixed_close p x u ltac:(lia) Hu) as (z & H1 & H2), (fixed_close p y v ltac:(lia) Hv) as (z' & G1 & G2).
  rewrite E in H1. rewrite (fixed_decimal_inj p _ z' z Hp G1 H1) in G2. set (b := 2 ^ 1074) in *. clearbody b.
  rewrite <- (Z.abs_eq (10 ^ p)) by (apply Z.pow_nonneg; lia). rewrite <- Z.abs_mul, Z.mul_sub_distr_r. lia.
Qed.
