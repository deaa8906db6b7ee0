(** Facts about texts and streams. *)

From Coq Require Import ZArith List Bool Lia String.
From Verif Require Import Base Scalar Spec Sparse Coo CooSpec Text Parser ParserSpec.
Import ListNotations.
Open Scope Z_scope.

(* ---------------------------------------------------------------- decimal numbers *)

Lemma dec_value_app a b : dec_value (a ++ b) = dec_value a * 10 ^ zlen b + dec_value b.
Proof.
  assert (G : forall (b : list byte) x y, fold_left (fun a d => 10 * a + (d - 48)) b (x + y) = x * 10 ^ zlen b + fold_left (fun a d => 10 * a + (d - 48)) b y).
  { clear a b. induction b as [|d b IH]; intros x y; cbn [fold_left].
    - change (zlen []) with 0. lia.
    - rewrite zlen_cons. rewrite Z.pow_add_r, Z.pow_1_r by (pose proof (zlen_nonneg b); lia).
      replace (10 * (x + y) + (d - 48)) with (10 * x + (10 * y + (d - 48))) by lia. rewrite IH. lia. }
  unfold dec_value. rewrite fold_left_app. set (x := fold_left _ a 0). replace x with (x + 0) at 1 by lia. apply G.
Qed.

Lemma dec_go_spec fuel : forall n acc, (0 < fuel)%nat -> 0 <= n < 2 ^ Z.of_nat fuel ->
  exists ds, dec_go fuel n acc = ds ++ acc /\ Forall (fun b => is_digit b = true) ds /\ ds <> [] /\ dec_value ds = n.
Proof.
  induction fuel as [|k IH]; intros n acc Hf Hn; [lia|]. cbn [dec_go].
  assert (Hd : is_digit (48 + n mod 10) = true).
  { unfold is_digit. pose proof (Z.mod_pos_bound n 10 ltac:(lia)). apply andb_true_intro. split; apply Z.leb_le; lia. }
  destruct (n <? 10) eqn:E.
  - apply Z.ltb_lt in E. exists [48 + n mod 10]. split; [reflexivity|]. split; [constructor; auto|]. split; [discriminate|].
    unfold dec_value. cbn [fold_left]. rewrite Z.mod_small by lia. lia.
  - apply Z.ltb_ge in E. destruct (IH (n / 10) ((48 + n mod 10) :: acc)) as (ds & E1 & E2 & E3 & E4).
    { destruct k; [|lia]. cbn in Hn. lia. }
    { split; [apply Z.div_pos; lia|]. apply Z.div_lt_upper_bound; [lia|].
      rewrite Nat2Z.inj_succ, Z.pow_succ_r in Hn by lia. lia. }
    exists (ds ++ [48 + n mod 10]). split; [rewrite E1, <- app_assoc; reflexivity|].
    split; [apply Forall_app; split; [exact E2|constructor; auto]|]. split; [destruct ds; discriminate|].
    rewrite dec_value_app, E4. change (zlen [48 + n mod 10]) with 1. unfold dec_value. cbn [fold_left].
    pose proof (Z.div_mod n 10 ltac:(lia)). lia.
Qed.
Lemma dec_spec n : 0 <= n -> Forall (fun b => is_digit b = true) (dec n) /\ dec n <> [] /\ dec_value (dec n) = n.
Proof.
  intros Hn. unfold dec. destruct (dec_go_spec (Datatypes.S (Z.to_nat (Z.log2 n))) n []) as (ds & E & H); [lia| |].
  - split; [lia|]. rewrite Nat2Z.inj_succ, Z2Nat.id by apply Z.log2_nonneg.
    destruct (Z.eq_dec n 0) as [->|]; [reflexivity|]. apply Z.log2_spec. lia.
  - rewrite E, app_nil_r. exact H.
Qed.

(* ---------------------------------------------------------------- span *)

Lemma span_all p a r : Forall (fun b => p b = true) a -> match r with [] => True | b :: _ => p b = false end -> span p (a ++ r) = (a, r).
Proof.
  induction a as [|b a IH]; intros Ha Hr; cbn [app span].
  - destruct r as [|b r]; [reflexivity|]. cbn [span]. rewrite Hr. reflexivity.
  - rewrite (Forall_inv Ha), IH; [reflexivity|exact (Forall_inv_tail Ha)|exact Hr].
Qed.
Lemma span_parts p l : forall a r, span p l = (a, r) -> l = a ++ r /\ Forall (fun b => p b = true) a /\ match r with [] => True | b :: _ => p b = false end.
Proof.
  induction l as [|b l IH]; cbn [span]; intros a r E.
  - injection E as <- <-. repeat split; constructor.
  - destruct (p b) eqn:Eb.
    + destruct (span p l) as [a' r'] eqn:E'. injection E as <- <-. destruct (IH a' r' eq_refl) as (-> & H2 & H3).
      split; [reflexivity|]. split; [constructor; assumption|exact H3].
    + injection E as <- <-. split; [reflexivity|]. split; [constructor|exact Eb].
Qed.
Lemma skip_ws_app w l : white w -> match l with [] => True | b :: _ => is_space b = false end -> skip_ws (w ++ l) = l.
Proof. intros Hw Hl. unfold skip_ws. rewrite span_all; auto. Qed.
Lemma skip_ws_white w : white w -> skip_ws w = [].
Proof. intros Hw. rewrite <- (app_nil_r w). apply skip_ws_app; [exact Hw|exact I]. Qed.

Lemma space_not_digit b : is_space b = true -> is_digit b = false.
Proof.
  unfold is_space, is_digit. rewrite orb_true_iff, andb_true_iff, Z.eqb_eq, !Z.leb_le. intros H.
  apply andb_false_iff. left. apply Z.leb_gt. lia.
Qed.
Lemma digit_not_space b : is_digit b = true -> is_space b = false.
Proof. intros H. destruct (is_space b) eqn:E; [|reflexivity]. apply space_not_digit in E. congruence. Qed.
Lemma digit_not_sign b : is_digit b = true -> (b =? MINUS) = false /\ (b =? PLUS) = false.
Proof. unfold is_digit. rewrite andb_true_iff, !Z.leb_le. intros H. split; apply Z.eqb_neq; unfold MINUS, PLUS; lia. Qed.
Lemma ends_no_digit rest : ends rest -> match rest with [] => True | b :: _ => is_digit b = false end.
Proof. destruct rest; [trivial|]. apply space_not_digit. Qed.

Lemma scan_sign_digits ds r : Forall (fun b => is_digit b = true) ds -> ds <> [] -> scan_sign (ds ++ r) = (false, ds ++ r).
Proof.
  destruct ds as [|d ds]; [congruence|]. intros H _. cbn [app scan_sign]. destruct (digit_not_sign d (Forall_inv H)) as [-> ->]. reflexivity.
Qed.
Lemma scan_sign_minus r : scan_sign (MINUS :: r) = (true, r).
Proof. reflexivity. Qed.
Lemma scan_signed_digits (neg : bool) ds r : Forall (fun b => is_digit b = true) ds -> ds <> [] ->
  scan_sign ((if neg then [MINUS] else []) ++ ds ++ r) = (neg, ds ++ r).
Proof. intros H1 H2. destruct neg; [reflexivity|]. exact (scan_sign_digits ds r H1 H2). Qed.

Lemma fmt_int_form n : exists (neg : bool) ds, fmt_int n = (if neg then [MINUS] else []) ++ ds /\ Forall (fun b => is_digit b = true) ds /\ ds <> [] /\
  (if neg then - dec_value ds else dec_value ds) = n.
Proof.
  unfold fmt_int. destruct (n <? 0) eqn:E.
  - apply Z.ltb_lt in E. destruct (dec_spec (- n)) as (H1 & H2 & H3); [lia|]. exists true, (dec (- n)). repeat split; auto. lia.
  - apply Z.ltb_ge in E. destruct (dec_spec n) as (H1 & H2 & H3); [lia|]. exists false, (dec n). repeat split; auto.
Qed.
Lemma fmt_int_head n : match fmt_int n with [] => False | b :: _ => is_space b = false end.
Proof.
  destruct (fmt_int_form n) as (neg & ds & -> & H1 & H2 & _). destruct neg; [reflexivity|].
  destruct ds as [|d ds]; [congruence|]. cbn [app]. apply digit_not_space, (Forall_inv H1).
Qed.
Lemma scan_int_fmt n rest : fits_int n -> ends rest -> scan_int (fmt_int n ++ rest) = (n, true, rest).
Proof.
  intros Hn Hr. destruct (fmt_int_form n) as (neg & ds & -> & H1 & H2 & H3). unfold scan_int.
  rewrite <- app_assoc, scan_signed_digits, span_all by (try assumption; apply ends_no_digit, Hr).
  destruct ds as [|d ds]; [congruence|]. rewrite H3. unfold fits_int in Hn.
  destruct (n <? int_min) eqn:E1; [apply Z.ltb_lt in E1; lia|]. destruct (int_max <? n) eqn:E2; [apply Z.ltb_lt in E2; lia|]. reflexivity.
Qed.
Lemma scan_size_fmt n rest : 0 <= n <= size_max -> ends rest -> scan_size (fmt_int n ++ rest) = (n, true, rest).
Proof.
  intros Hn Hr. unfold fmt_int. destruct (n <? 0) eqn:E; [apply Z.ltb_lt in E; lia|]. destruct (dec_spec n) as (H1 & H2 & H3); [lia|].
  unfold scan_size. rewrite scan_sign_digits, span_all by (try assumption; apply ends_no_digit, Hr).
  destruct (dec n) as [|d ds]; [congruence|]. rewrite H3.
  destruct (size_max <? n) eqn:E2; [apply Z.ltb_lt in E2; lia|]. reflexivity.
Qed.

Lemma int_reads n : fits_int n -> reads_as scan_int n (fmt_int n).
Proof. intros Hn. split; [apply fmt_int_head|]. intros rest Hr. apply scan_int_fmt; assumption. Qed.
Lemma int_text_reads n t : int_text n t -> reads_as scan_int n t.
Proof. intros [H ->]. apply int_reads, H. Qed.
Lemma size_reads n : 0 <= n <= size_max -> reads_as scan_size n (fmt_int n).
Proof. intros Hn. split; [apply fmt_int_head|]. intros rest Hr. apply scan_size_fmt; assumption. Qed.

(* ---------------------------------------------------------------- extraction *)

Section Extract.
Context {X : Type} (scan : list byte -> X * bool * list byte).

Lemma extract_reads v t w rest : reads_as scan v t -> white w -> ends rest ->
  extract scan (IS (w ++ t ++ rest) true) = (Some v, IS rest true).
Proof.
  intros [H1 H2] Hw Hr. unfold extract. cbn [i_ok i_rest]. destruct t as [|b t]; [contradiction|].
  rewrite (skip_ws_app w ((b :: t) ++ rest)) by (auto; exact H1). cbn [app].
  change (b :: t ++ rest) with ((b :: t) ++ rest). rewrite (H2 rest Hr). reflexivity.
Qed.
Lemma extract_white w : white w -> extract scan (IS w true) = (None, IS [] false).
Proof. intros Hw. unfold extract. cbn [i_ok i_rest]. rewrite (skip_ws_white w Hw). reflexivity. Qed.
Lemma extract_ok_reads v t w rest : reads_as scan v t -> white w -> ends rest ->
  extract_ok scan (IS (w ++ t ++ rest) true) = (Some v, IS rest true).
Proof. intros H1 H2 H3. unfold extract_ok. rewrite (extract_reads v t w rest) by assumption. reflexivity. Qed.
Lemma extract_ok_white w : white w -> extract_ok scan (IS w true) = (None, IS [] false).
Proof. intros Hw. unfold extract_ok. rewrite (extract_white w Hw). reflexivity. Qed.
End Extract.

Lemma separator_ends s l : separator s -> ends (s ++ l).
Proof. intros [H1 H2]. destruct s as [|b s]; [congruence|]. exact (Forall_inv H1). Qed.

(** A reader of records. *)
Definition reads_rec {X : Type} (rd : istream -> option X * istream) (text : X -> list byte -> Prop) : Prop :=
  (forall x t w rest, text x t -> white w -> ends rest -> rd (IS (w ++ t ++ rest) true) = (Some x, IS rest true)) /\
  (forall w, white w -> exists s, rd (IS w true) = (None, s)).

Lemma reads_rec1 {X} (scan : list byte -> X * bool * list byte) : reads_rec (extract_ok scan) (reads_as scan).
Proof.
  split.
  - intros x t w rest H Hw Hr. apply extract_ok_reads; assumption.
  - intros w Hw. eexists. apply extract_ok_white, Hw.
Qed.
Lemma reads_rec2 : reads_rec (extract2 scan_int scan_int) pair_text.
Proof.
  split.
  - intros [i j] t w rest (ti & s & tj & -> & Hi & Hs & Hj) Hw Hr. cbn [fst snd] in *. unfold extract2.
    rewrite <- !app_assoc. rewrite (extract_ok_reads _ i ti w) by (auto using int_text_reads, separator_ends).
    rewrite (extract_ok_reads _ j tj s) by (auto using int_text_reads; apply Hs). reflexivity.
  - intros w Hw. eexists. unfold extract2. rewrite (extract_ok_white _ w Hw). reflexivity.
Qed.
Lemma reads_rec3 {S : scalar} (C : codec S) : reads_rec (extract3 scan_int scan_int (tc_scan C)) (triple_text C).
Proof.
  destruct reads_rec2 as [R2 R2']. split.
  - intros [[i j] v] t w rest (tp & s & tv & -> & Hp & Hs & Hv) Hw Hr. cbn [fst snd] in *. unfold extract3.
    rewrite <- !app_assoc. rewrite (R2 (i, j) tp w) by (auto using separator_ends).
    rewrite (extract_ok_reads _ v tv s) by (auto; apply Hs). reflexivity.
  - intros w Hw. destruct (R2' w Hw) as [s E]. eexists. unfold extract3. rewrite E. reflexivity.
Qed.

Lemma while_read_file {X St : Type} (rd : istream -> option X * istream) text (body : X -> St -> res St) :
  reads_rec rd text -> forall xs file, file_of text xs file -> forall fuel st, (List.length xs < fuel)%nat ->
  while_read fuel rd body (IS file true) st = foldM (fun st x => body x st) xs st.
Proof.
  intros [R1 R2] xs file H. induction H as [w Hw|w x t rest xs Hw Ht Hr Hf IH]; intros fuel st Hfu.
  - destruct fuel; [cbn in Hfu; lia|]. cbn [while_read foldM]. destruct (R2 w Hw) as [s ->]. reflexivity.
  - destruct fuel as [|fuel]; [cbn in Hfu; lia|]. cbn [while_read foldM]. rewrite (R1 x t w rest Ht Hw Hr).
    destruct (body x st) as [st'|f]; [|reflexivity]. cbn [bind]. apply IH. cbn in Hfu. lia.
Qed.

(** A record is not empty, so a file has at least as many characters as records. *)
Lemma file_length {X} (text : X -> list byte -> Prop) : (forall x t, text x t -> t <> []) -> forall xs file, file_of text xs file ->
  (List.length xs <= List.length file)%nat.
Proof.
  intros Hne xs file H. induction H as [w Hw|w x t rest xs Hw Ht Hr Hf IH]; [cbn; lia|].
  cbn [List.length]. rewrite !app_length. specialize (Hne x t Ht). destruct t; [congruence|]. cbn [List.length]. lia.
Qed.
Lemma reads_as_nonempty {X} (scan : list byte -> X * bool * list byte) v t : reads_as scan v t -> t <> [].
Proof. intros [H _] ->. exact H. Qed.
Lemma pair_nonempty p t : pair_text p t -> t <> [].
Proof.
  intros (ti & s & tj & -> & Hi & _) E. destruct ti; [|discriminate]. apply int_text_reads, reads_as_nonempty in Hi. congruence.
Qed.
Lemma triple_nonempty {S : scalar} (C : codec S) e t : triple_text C e t -> t <> [].
Proof. intros (tp & s & tv & -> & Hp & _) E. apply pair_nonempty in Hp. destruct tp; [congruence|discriminate]. Qed.

(* ---------------------------------------------------------------- the fuel is enough *)

Definition consumes {X : Type} (rd : istream -> option X * istream) : Prop :=
  forall s x s', rd s = (Some x, s') -> (List.length (i_rest s') < List.length (i_rest s))%nat.

Lemma while_fuel {X St : Type} (rd : istream -> option X * istream) (body : X -> St -> res St) : consumes rd ->
  forall k1 k2 s st, (List.length (i_rest s) < k1)%nat -> (List.length (i_rest s) < k2)%nat ->
  while_read k1 rd body s st = while_read k2 rd body s st.
Proof.
  intros Hc. induction k1 as [|k1 IH]; intros k2 s st H1 H2; [lia|]. destruct k2 as [|k2]; [lia|]. cbn [while_read].
  destruct (rd s) as [[x|] s'] eqn:E; [|reflexivity]. specialize (Hc s x s' E).
  destruct (body x st) as [st'|f]; [|reflexivity]. cbn [bind]. apply IH; lia.
Qed.
(** Reading the whole file and the loop with enough fuel never ends for lack of fuel: the result is
    the same with any larger fuel. *)

(** A conversion never gives characters back, and takes at least one when it succeeds. *)
Definition scan_consumes {X : Type} (scan : list byte -> X * bool * list byte) : Prop :=
  forall l v ok r, scan l = (v, ok, r) -> (List.length r <= List.length l)%nat /\ (ok = true -> (List.length r < List.length l)%nat).

Lemma span_length p l a r : span p l = (a, r) -> (List.length l = List.length a + List.length r)%nat.
Proof. intros E. apply span_parts in E. destruct E as (-> & _). apply app_length. Qed.
Lemma scan_sign_length l neg r : scan_sign l = (neg, r) -> (List.length r <= List.length l)%nat.
Proof.
  destruct l as [|b l]; cbn [scan_sign]; [intros E; injection E as <- <-; lia|].
  destruct (b =? MINUS); [intros E; injection E as <- <-; cbn; lia|]. destruct (b =? PLUS); intros E; injection E as <- <-; cbn; lia.
Qed.
Lemma scan_int_consumes : scan_consumes scan_int.
Proof.
  intros l v ok r. unfold scan_int. destruct (scan_sign l) as [neg l1] eqn:E1. destruct (span is_digit l1) as [ds r1] eqn:E2.
  apply scan_sign_length in E1. apply span_length in E2. destruct ds as [|d ds].
  - intros E. injection E as <- <- <-. split; [cbn in *; lia|discriminate].
  - cbn [List.length] in E2. destruct (_ <? int_min); [intros E; injection E as <- <- <-; split; [lia|discriminate]|].
    destruct (int_max <? _); intros E; injection E as <- <- <-; split; lia.
Qed.
Lemma extract_ok_consumes {X} (scan : list byte -> X * bool * list byte) : scan_consumes scan -> consumes (extract_ok scan).
Proof.
  intros Hs s x s'. unfold extract_ok, extract. destruct (i_ok s) eqn:Eo; [|rewrite Eo; discriminate].
  unfold skip_ws. destruct (span is_space (i_rest s)) as [w l] eqn:Ew. apply span_length in Ew. cbn [snd].
  destruct l as [|b l]; [discriminate|]. destruct (scan (b :: l)) as [[v ok] r] eqn:E. destruct (Hs _ _ _ _ E) as [H1 H2].
  cbn [i_ok]. destruct ok; [|discriminate]. intros Q. injection Q as <- <-. cbn [i_rest]. specialize (H2 eq_refl). lia.
Qed.
Lemma extract2_consumes : consumes (extract2 scan_int scan_int).
Proof.
  intros s x s'. unfold extract2. destruct (extract_ok scan_int s) as [[i|] s1] eqn:E1; [|discriminate].
  destruct (extract_ok scan_int s1) as [[j|] s2] eqn:E2; [|discriminate]. intros Q. injection Q as <- <-.
  apply (extract_ok_consumes _ scan_int_consumes) in E1. apply (extract_ok_consumes _ scan_int_consumes) in E2. lia.
Qed.
Lemma extract3_consumes {X} (scan : list byte -> X * bool * list byte) : scan_consumes scan -> consumes (extract3 scan_int scan_int scan).
Proof.
  intros Hs s x s'. unfold extract3. destruct (extract2 scan_int scan_int s) as [[[i j]|] s1] eqn:E1; [|discriminate].
  destruct (extract_ok scan s1) as [[v|] s2] eqn:E2; [|discriminate]. intros Q. injection Q as <- <-.
  apply extract2_consumes in E1. apply (extract_ok_consumes _ Hs) in E2. lia.
Qed.
Lemma getline_consumes : consumes getline.
Proof.
  intros s x s'. unfold getline. destruct (i_ok s); [|discriminate]. destruct (i_rest s) as [|b l]; [discriminate|].
  destruct (span (fun b0 => negb (b0 =? NL)) (b :: l)) as [a r] eqn:E. intros Q. injection Q as <- <-. cbn [i_rest].
  pose proof (span_length _ _ _ _ E) as Hl. pose proof (span_parts _ _ _ _ E) as (_ & _ & Hr). cbn [List.length] in *.
  destruct r as [|c r]; [cbn; lia|]. cbn [List.length] in *. lia.
Qed.
