(** The MINRES and PMINRES loops as iterations of one function on lists. *)

From Coq Require Import ZArith List Bool Lia.
From Verif Require Import Base Scalar Spec Vec SumFacts LoopFacts Block BlockSpec BlockOp Solver SolverSpec SolverProofs.
Import ListNotations.
Open Scope Z_scope.

Section SolverMinres.
Context {S : scalar}.
Notation T := (car S).
Context {W : Type} (I : W -> Prop) (A : op S W) (dot : dotp S) (n : Z).
Context (fA fM : list T -> list T) (d : list T -> list T -> T) (root : T -> T).
Context (HrA : o_rows A = n) (HcA : o_cols A = n) (HA : op_applies I A fA) (Hd : dot_gives dot n d).

(** The vectors at the top of the loop; [a_u] is M v1, before v1 is normalised. *)
Record mst : Type := MSt {
  a_w0 : list T; a_w1 : list T; a_v0 : list T; a_v1 : list T; a_u : list T; a_x : list T; a_l : mloc S
}.

Section Pure.
Context (s : mst).
Let l := a_l s.
Definition n_v : list T := map (fun a => (a / m_beta l)%S) (a_v1 s).
Definition n_u : list T := map (fun a => (a / m_beta l)%S) (a_u s).
Definition n_q : list T := fA n_u.
Definition n_alpha : T := d n_u n_q.
Definition n_v0 : list T := map (fun i => (vec_of n_q i - m_beta l * vec_of (a_v0 s) i - n_alpha * vec_of n_v i)%S) (zrange 0 n).
Definition n_mv : list T := fM n_v0.
Definition n_delta : T := (m_g2 l * n_alpha - m_g l * m_s2 l * m_beta l)%S.
Definition n_rho3 : T := (m_s l * m_beta l)%S.
Definition n_rho2 : T := (m_s2 l * n_alpha + m_g l * m_g2 l * m_beta l)%S.
Definition n_beta : T := root (d n_v0 n_mv).
Definition n_rho1 : T := root (n_delta * n_delta + n_beta * n_beta)%S.
Definition n_w : list T := map (fun i => (s1 / n_rho1 * vec_of n_u i - n_rho3 / n_rho1 * vec_of (a_w0 s) i - n_rho2 / n_rho1 * vec_of (a_w1 s) i)%S) (zrange 0 n).
Definition n_x : list T := map (fun i => (vec_of (a_x s) i + n_delta / n_rho1 * m_eta l * vec_of n_w i)%S) (zrange 0 n).
Definition n_eta : T := (- (n_beta / n_rho1) * m_eta l)%S.
Definition n_l : mloc S := MLoc n_beta n_eta (m_g2 l) (n_delta / n_rho1)%S (m_s2 l) (n_beta / n_rho1)%S.
Definition m_next : mst := MSt (a_w1 s) n_w n_v n_v0 n_mv n_x n_l.
Definition m_stop (tol : T) : bool := slt (sabs n_eta) tol.
End Pure.

Record mlens (s : mst) : Prop := {
  ml_w0 : zlen (a_w0 s) = n; ml_w1 : zlen (a_w1 s) = n; ml_v0 : zlen (a_v0 s) = n;
  ml_v1 : zlen (a_v1 s) = n; ml_u : zlen (a_u s) = n; ml_x : zlen (a_x s) = n
}.

Lemma lanczos_ok (beta alpha : T) (q v0 v1 : list T) : zlen q = n -> zlen v0 = n -> zlen v1 = n ->
  lanczos n beta alpha q v0 v1 = Ok (map (fun i => (vec_of q i - beta * vec_of v0 i - alpha * vec_of v1 i)%S) (zrange 0 n)).
Proof.
  intros Hq H0 H1. unfold lanczos.
  apply (l_pointwise (fun i a => (vec_of q i - beta * a - alpha * vec_of v1 i)%S) v0 n H0).
  intros i v Hi Hv. rewrite !(get_ok s0) by lia. reflexivity.
Qed.

Lemma dirs_ok (rho1 rho2 rho3 : T) (v w0 w1 : list T) : zlen v = n -> zlen w0 = n -> zlen w1 = n ->
  dirs n rho1 rho2 rho3 v w0 w1 =
  Ok (map (fun i => (s1 / rho1 * vec_of v i - rho3 / rho1 * vec_of w0 i - rho2 / rho1 * vec_of w1 i)%S) (zrange 0 n)).
Proof.
  intros Hq H0 H1. unfold dirs.
  apply (l_pointwise (fun i a => (s1 / rho1 * vec_of v i - rho3 / rho1 * a - rho2 / rho1 * vec_of w1 i)%S) w0 n H0).
  intros i w Hi Hv. rewrite !(get_ok s0) by lia. reflexivity.
Qed.

Lemma advance_ok (g2 eta : T) (w0 x : list T) : zlen w0 = n -> zlen x = n ->
  advance n g2 eta w0 x = Ok (map (fun i => (vec_of x i + g2 * eta * vec_of w0 i)%S) (zrange 0 n)).
Proof.
  intros H0 Hx. unfold advance.
  apply (l_pointwise (fun i a => (a + g2 * eta * vec_of w0 i)%S) x n Hx).
  intros i y Hi Hv. rewrite !(get_ok s0) by lia. reflexivity.
Qed.

(** The buffers as the constructor makes them and every call leaves them: of size n. *)
Definition mbuf_ok (u : mbuf S) : Prop :=
  zlen (mb_w0 u) = n /\ zlen (mb_w1 u) = n /\ zlen (mb_v0 u) = n.

(** The buffers of a solver in a state: MINRES has no u1_. *)
Definition mrel (u : mbuf S) (s : mst) : Prop :=
  mb_w0 u = a_w0 s /\ mb_w1 u = a_w1 s /\ mb_v0 u = a_v0 s /\ mb_v1 u = a_v1 s.

Lemma minres_step_case tol w u s : 
  (forall v, zlen v = n -> fM v = v) -> a_u s = a_v1 s ->
  I w -> mlens s -> mrel u s ->
  if seqb (m_beta (a_l s)) s0
  then minres_step root A dot tol w u (a_l s) (a_x s) = Fail FAssert
  else mlens (m_next s) /\ a_u (m_next s) = a_v1 (m_next s) /\
       exists w' u', minres_step root A dot tol w u (a_l s) (a_x s) = Ok (m_stop s tol, w', u', n_l s, n_x s) /\ I w' /\ mbuf_ok u' /\
         (m_stop s tol = false -> mrel u' (m_next s)).
Proof.
  intros HM Hu Hw [L0 L1 L2 L3 L4 L5] (E0 & E1 & E2 & E3).
  unfold minres_step, l_divc. destruct (seqb (m_beta (a_l s)) s0); [reflexivity|].
  assert (Hn : 0 <= n) by (rewrite <- HrA; apply HA).
  assert (Hv : zlen (n_v s) = n) by (unfold n_v; rewrite zlen_map; exact L3).
  assert (Euv : n_u s = n_v s) by (unfold n_u, n_v; rewrite Hu; reflexivity).
  assert (Hv0 : zlen (n_v0 s) = n) by (unfold n_v0; apply zlen_map_zrange; lia).
  assert (Hmv : n_mv s = n_v0 s) by (unfold n_mv; apply HM; exact Hv0).
  assert (Hws : zlen (n_w s) = n) by (unfold n_w; apply zlen_map_zrange; lia).
  assert (Hxs : zlen (n_x s) = n) by (unfold n_x; apply zlen_map_zrange; lia).
  destruct (A_vec I A n fA HrA HcA HA w (n_v s) (mb_q u) Hw Hv) as (Hq & w' & Eq & Hw').
  assert (Hq' : zlen (n_q s) = n) by (unfold n_q; rewrite Euv; exact Hq).
  assert (Hus : zlen (n_u s) = n) by (rewrite Euv; exact Hv).
  split; [|split].
  - constructor; cbn [m_next a_w0 a_w1 a_v0 a_v1 a_u a_x]; auto. rewrite Hmv. exact Hv0.
  - exact Hmv.
  - exists w'. cbn [negb assert_ bind]. rewrite l_map_ok, E3. cbn [bind]. fold (n_v s). rewrite Eq. cbn [bind].
    rewrite <- Euv. fold (n_q s). rewrite Hd by assumption. cbn [bind]. fold (n_alpha s).
    rewrite HcA, lanczos_ok by (rewrite ?E2; assumption). cbn [bind].
    rewrite E2, Euv. fold (n_v0 s). rewrite Hd by assumption. cbn [bind].
    replace (root (d (n_v0 s) (n_v0 s))) with (n_beta s) by (unfold n_beta; now rewrite Hmv). fold (n_delta s). fold (n_rho1 s). fold (n_rho2 s). fold (n_rho3 s).
    rewrite <- Euv, E0, E1, dirs_ok by assumption. cbn [bind]. fold (n_w s).
    rewrite advance_ok by auto. cbn [bind]. fold (n_x s). fold (n_eta s). fold (n_l s). fold (m_stop s tol).
    destruct (m_stop s tol) eqn:Es.
    + eexists. split; [reflexivity|]. split; [exact Hw'|]. split; [|discriminate].
      unfold mbuf_ok. cbn [mb_w0 mb_w1 mb_v0]. rewrite ?E1. auto.
    + eexists. split; [reflexivity|]. split; [exact Hw'|]. split.
      { unfold mbuf_ok. cbn [mb_w0 mb_w1 mb_v0]. rewrite ?E1. auto. }
      intros _.
      unfold mrel, m_next. cbn [mb_w0 mb_w1 mb_v0 mb_v1 a_w0 a_w1 a_v0 a_v1]. repeat split; congruence.
Qed.

Lemma pminres_step_case M tol w u s :
  o_rows M = n -> o_cols M = n -> op_applies I M fM -> mb_u1 u = a_u s ->
  I w -> mlens s -> mrel u s ->
  if seqb (m_beta (a_l s)) s0
  then pminres_step root A M dot tol w u (a_l s) (a_x s) = Fail FAssert
  else mlens (m_next s) /\
       exists w' u', pminres_step root A M dot tol w u (a_l s) (a_x s) = Ok (m_stop s tol, w', u', n_l s, n_x s) /\ I w' /\ mbuf_ok u' /\
         (m_stop s tol = false -> mrel u' (m_next s) /\ mb_u1 u' = a_u (m_next s)).
Proof.
  intros HrM HcM HM Hu Hw [L0 L1 L2 L3 L4 L5] (E0 & E1 & E2 & E3).
  unfold pminres_step, l_divc. destruct (seqb (m_beta (a_l s)) s0); [reflexivity|].
  assert (Hn : 0 <= n) by (rewrite <- HrA; apply HA).
  assert (Hv : zlen (n_v s) = n) by (unfold n_v; rewrite zlen_map; exact L3).
  assert (Hus : zlen (n_u s) = n) by (unfold n_u; rewrite zlen_map; exact L4).
  assert (Hv0 : zlen (n_v0 s) = n) by (unfold n_v0; apply zlen_map_zrange; lia).
  assert (Hws : zlen (n_w s) = n) by (unfold n_w; apply zlen_map_zrange; lia).
  assert (Hxs : zlen (n_x s) = n) by (unfold n_x; apply zlen_map_zrange; lia).
  destruct (A_vec I A n fA HrA HcA HA w (n_u s) (mb_q u) Hw Hus) as (Hq & w' & Eq & Hw'). fold (n_q s) in Hq, Eq.
  destruct (A_vec I M n fM HrM HcM HM w' (n_v0 s) (n_q s) Hw' Hv0) as (Hmv & w2 & Eq2 & Hw2). fold (n_mv s) in Hmv, Eq2.
  split.
  - constructor; cbn [m_next a_w0 a_w1 a_v0 a_v1 a_u a_x]; auto.
  - exists w2. cbn [negb assert_ bind]. rewrite !l_map_ok, E3, Hu. cbn [bind]. fold (n_v s). fold (n_u s). rewrite Eq. cbn [bind].
    rewrite Hd by assumption. cbn [bind]. fold (n_alpha s).
    rewrite HcA, lanczos_ok by (rewrite ?E2; assumption). cbn [bind].
    rewrite E2. fold (n_v0 s). rewrite Eq2. cbn [bind]. rewrite Hd by assumption. cbn [bind].
    fold (n_beta s). fold (n_delta s). fold (n_rho1 s). fold (n_rho2 s). fold (n_rho3 s).
    rewrite E0, E1, dirs_ok by assumption. cbn [bind]. fold (n_w s).
    rewrite advance_ok by auto. cbn [bind]. fold (n_x s). fold (n_eta s). fold (n_l s). fold (m_stop s tol).
    destruct (m_stop s tol) eqn:Es.
    + eexists. split; [reflexivity|]. split; [exact Hw2|]. split; [|discriminate].
      unfold mbuf_ok. cbn [mb_w0 mb_w1 mb_v0]. rewrite ?E1. auto.
    + eexists. split; [reflexivity|]. split; [exact Hw2|]. split.
      { unfold mbuf_ok. cbn [mb_w0 mb_w1 mb_v0]. rewrite ?E1. auto. }
      intros _.
      unfold mrel, m_next. cbn [mb_w0 mb_w1 mb_v0 mb_v1 mb_u1 a_w0 a_w1 a_v0 a_v1 a_u]. repeat split; congruence.
Qed.

(** The loop keeps every property its steps keep. *)
Lemma mloop_inv (K : mbuf S -> mst -> Prop) (J : mst -> Prop) (step : mstep) tol max :
  (forall w u s, I w -> mlens s -> K u s ->
     if seqb (m_beta (a_l s)) s0 then step w u (a_l s) (a_x s) = Fail FAssert
     else mlens (m_next s) /\ exists w' u', step w u (a_l s) (a_x s) = Ok (m_stop s tol, w', u', n_l s, n_x s) /\ I w' /\ mbuf_ok u' /\
            (m_stop s tol = false -> K u' (m_next s))) ->
  (forall s, mlens s -> J s -> seqb (m_beta (a_l s)) s0 = false -> J (m_next s)) ->
  forall left num w u s, I w -> mlens s -> mbuf_ok u -> K u s -> J s -> 1 <= num -> max <= num - 1 + Z.of_nat left -> num <= max + 1 ->
  mloop left step max num w u (a_l s) (a_x s) = Fail FAssert \/
  exists w' u' s' k, mloop left step max num w u (a_l s) (a_x s) = Ok (w', u', a_l s', a_x s', k) /\ I w' /\ mbuf_ok u' /\ mlens s' /\ J s' /\
    num <= k <= max + 1 /\ (k <= max -> slt (sabs (m_eta (a_l s'))) tol = true).
Proof.
  intros Hstep HJ. induction left as [|left IH]; intros num w u s Hw Hl HU HK Hj H1 Hleft Hm; cbn [mloop].
  - replace (num <=? max) with false by lia. right. exists w, u, s, num. do 5 (split; [auto|]). split; lia.
  - destruct (Z.leb_spec num max) as [Hle|Hgt].
    + pose proof (Hstep w u s Hw Hl HK) as Hs. destruct (seqb (m_beta (a_l s)) s0) eqn:Eb.
      * left. rewrite Hs. reflexivity.
      * destruct Hs as (Hl' & w' & u' & E & Hw' & HU' & HK'). pose proof (HJ s Hl Hj Eb) as Hj'. rewrite E. cbn [bind].
        destruct (m_stop s tol) eqn:Es.
        -- right. exists w', u', (m_next s), num. do 5 (split; [auto|]). split; [lia|]. intros _. exact Es.
        -- destruct (IH (num + 1) w' u' (m_next s) Hw' Hl' HU' (HK' eq_refl) Hj' ltac:(lia) ltac:(lia) ltac:(lia)) as [Hf|Hok];
             [left; exact Hf|right].
           destruct Hok as (w2 & u2 & s2 & k & Ek & Hw2 & HU2 & Hl2 & Hj2 & Hk & Hst).
           exists w2, u2, s2, k. do 5 (split; [auto|]). split; [lia|exact Hst].
    + right. exists w, u, s, num. do 5 (split; [auto|]). split; lia.
Qed.

Definition m_start (n_ : Z) (b x : list T) : mst :=
  let r := zipw ssub b (fA x) in
  let z := repeat s0 (Z.to_nat n_) in
  let beta := root (d (fM r) r) in
  MSt z z z r (fM r) x (MLoc beta beta s1 s1 s0 s0).

Lemma l_zero_repeat (l : list T) : zlen l = n -> l_zero l = repeat s0 (Z.to_nat n).
Proof.
  intros E. replace (Z.to_nat n) with (length l) by (unfold zlen in E; lia). clear E. unfold l_zero.
  induction l as [|a l IH]; [reflexivity|]. cbn. f_equal. exact IH.
Qed.

(** What [mloop_inv] asks of a step. *)
Definition step_ok (K : mbuf S -> mst -> Prop) (step : mstep) (tol : T) : Prop :=
  forall w u s, I w -> mlens s -> K u s ->
     if seqb (m_beta (a_l s)) s0 then step w u (a_l s) (a_x s) = Fail FAssert
     else mlens (m_next s) /\ exists w' u', step w u (a_l s) (a_x s) = Ok (m_stop s tol, w', u', n_l s, n_x s) /\ I w' /\ mbuf_ok u' /\
            (m_stop s tol = false -> K u' (m_next s)).

(** Mult is the loop from [m_start]. *)
Definition mult_is_loop (K : mbuf S -> mst -> Prop) (step : T -> mstep) (par : sparams S) (s : mst)
    (run : res (W * mbuf S * mloc S * list T * Z)) : Prop :=
  let tol := tolerance par (m_beta (a_l s)) in
  step_ok K (step tol) tol /\ mlens s /\
  exists w u, I w /\ mbuf_ok u /\ K u s /\ run = mloop (Z.to_nat (sp_max par)) (step tol) (sp_max par) 1 w u (a_l s) (a_x s).

Lemma minres_mult_loop par w u b x :
  (forall v, zlen v = n -> fM v = v) ->
  I w -> mbuf_ok u -> zlen b = n -> zlen x = n ->
  mult_is_loop (fun u s => mrel u s /\ a_u s = a_v1 s) (minres_step root A dot) par (m_start n b x)
    (minres_mult root A dot par w u b x).
Proof.
  intros HM Hw (U0 & U1 & U2) Hb Hx. set (s := m_start n b x).
  destruct (A_vec I A n fA HrA HcA HA w x (mb_q u) Hw Hx) as (Hq & w' & Eq & Hw').
  assert (Hn : 0 <= n) by (rewrite <- HrA; apply HA).
  assert (Hr : zlen (zipw ssub b (fA x)) = n) by (rewrite zlen_zipw; exact Hb).
  assert (Hls : mlens s).
  { constructor; cbn [s m_start a_w0 a_w1 a_v0 a_v1 a_u a_x]; rewrite ?zlen_repeat, ?HM by assumption; auto; lia. }
  assert (Eb : root (d (zipw ssub b (fA x)) (zipw ssub b (fA x))) = m_beta (a_l s)).
  { cbn [s m_start a_l m_beta]. rewrite HM by assumption. reflexivity. }
  set (z := repeat (s0 : T) (Z.to_nat n)).
  split; [|split; [exact Hls|exists w', (MBuf z z z (zipw ssub b (fA x)) (mb_u1 u) (fA x)); split; [exact Hw'|split; [|split]]]].
  - intros w1 u1 t Hw1 Hl1 (Hk & Hk2).
    pose proof (minres_step_case (tolerance par (m_beta (a_l s))) w1 u1 t HM Hk2 Hw1 Hl1 Hk) as H.
    destruct (seqb (m_beta (a_l t)) s0); [exact H|]. destruct H as (H1 & H2 & w2 & u2 & H3 & H4 & H6 & H5).
    split; [exact H1|]. exists w2, u2. split; [exact H3|]. split; [exact H4|]. split; [exact H6|]. intros Hs. split; [apply H5; exact Hs|exact H2].
  - refine (conj _ (conj _ _)); cbn [mb_w0 mb_w1 mb_v0]; unfold z; rewrite zlen_repeat; lia.
  - split; [repeat split|]. cbn [s m_start a_u a_v1]. apply HM. exact Hr.
  - unfold minres_mult. rewrite HrA, Hb, Hx, Z.eqb_refl. cbn [assert_ bind]. rewrite Eq. cbn [bind].
    unfold l_sub. rewrite l_zip_ok by lia. cbn [bind].
    change (zipw (fun a b0 : T => (a - b0)%S) b (fA x)) with (zipw ssub b (fA x)).
    rewrite Hd by assumption. cbn [bind]. rewrite !l_zero_repeat by assumption. rewrite Eb. reflexivity.
Qed.

Lemma pminres_mult_loop M par w u b x :
  o_rows M = n -> o_cols M = n -> op_applies I M fM ->
  I w -> mbuf_ok u -> zlen b = n -> zlen x = n ->
  mult_is_loop (fun u s => mrel u s /\ mb_u1 u = a_u s) (pminres_step root A M dot) par (m_start n b x)
    (pminres_mult root A M dot par w u b x).
Proof.
  intros HrM HcM HM Hw (U0 & U1 & U2) Hb Hx. set (s := m_start n b x).
  destruct (A_vec I A n fA HrA HcA HA w x (mb_q u) Hw Hx) as (Hq & w' & Eq & Hw').
  assert (Hn : 0 <= n) by (rewrite <- HrA; apply HA).
  assert (Hr : zlen (zipw ssub b (fA x)) = n) by (rewrite zlen_zipw; exact Hb).
  destruct (A_vec I M n fM HrM HcM HM w' _ (mb_u1 u) Hw' Hr) as (Hu & w2 & Eu & Hw2).
  assert (Hls : mlens s).
  { constructor; cbn [s m_start a_w0 a_w1 a_v0 a_v1 a_u a_x]; rewrite ?zlen_repeat by assumption; auto; lia. }
  set (z := repeat (s0 : T) (Z.to_nat n)).
  split; [|split; [exact Hls|exists w2, (MBuf z z z (zipw ssub b (fA x)) (fM (zipw ssub b (fA x))) (fA x)); split; [exact Hw2|split; [|split]]]].
  - intros w1 u1 t Hw1 Hl1 (Hk & Hk2).
    exact (pminres_step_case M (tolerance par (m_beta (a_l s))) w1 u1 t HrM HcM HM Hk2 Hw1 Hl1 Hk).
  - refine (conj _ (conj _ _)); cbn [mb_w0 mb_w1 mb_v0]; unfold z; rewrite zlen_repeat; lia.
  - split; [repeat split|reflexivity].
  - unfold pminres_mult. rewrite HrA, HcA, Hb, Hx, Z.eqb_refl. cbn [assert_ bind]. rewrite Eq. cbn [bind].
    unfold l_sub. rewrite l_zip_ok by lia. cbn [bind].
    change (zipw (fun a b0 : T => (a - b0)%S) b (fA x)) with (zipw ssub b (fA x)). rewrite Eu. cbn [bind].
    rewrite Hd by assumption. cbn [bind]. rewrite !l_zero_repeat by assumption. reflexivity.
Qed.

Lemma mult_loop_inv (J : mst -> Prop) K step par s run : mult_is_loop K step par s run ->
  0 <= sp_max par -> J s -> (forall s, mlens s -> J s -> seqb (m_beta (a_l s)) s0 = false -> J (m_next s)) ->
  run = Fail FAssert \/
  exists w' u' s' k, run = Ok (w', u', a_l s', a_x s', k) /\ I w' /\ mbuf_ok u' /\ mlens s' /\ J s' /\
    1 <= k <= sp_max par + 1 /\
    (k <= sp_max par -> slt (sabs (m_eta (a_l s'))) (tolerance par (m_beta (a_l s))) = true).
Proof.
  intros (Hstep & Hl & w & u & Hw & HU & HK & ->) Hm Hj HJ.
  apply (mloop_inv K J _ (tolerance par (m_beta (a_l s)))); auto; lia.
Qed.

Lemma minres_mult_inv (J : mst -> Prop) par w u b x :
  (forall v, zlen v = n -> fM v = v) ->
  let s := m_start n b x in
  I w -> mbuf_ok u -> zlen b = n -> zlen x = n -> 0 <= sp_max par ->
  J s -> (forall s, mlens s -> J s -> seqb (m_beta (a_l s)) s0 = false -> J (m_next s)) ->
  minres_mult root A dot par w u b x = Fail FAssert \/
  exists w' u' s' k, minres_mult root A dot par w u b x = Ok (w', u', a_l s', a_x s', k) /\ I w' /\ mbuf_ok u' /\ mlens s' /\ J s' /\
    1 <= k <= sp_max par + 1 /\
    (k <= sp_max par -> slt (sabs (m_eta (a_l s'))) (tolerance par (m_beta (a_l s))) = true).
Proof.
  intros HM s Hw Hu Hb Hx Hm Hj HJ.
  exact (mult_loop_inv J _ _ par s _ (minres_mult_loop par w u b x HM Hw Hu Hb Hx) Hm Hj HJ).
Qed.

Lemma pminres_mult_inv (J : mst -> Prop) M par w u b x :
  o_rows M = n -> o_cols M = n -> op_applies I M fM ->
  let s := m_start n b x in
  I w -> mbuf_ok u -> zlen b = n -> zlen x = n -> 0 <= sp_max par ->
  J s -> (forall s, mlens s -> J s -> seqb (m_beta (a_l s)) s0 = false -> J (m_next s)) ->
  pminres_mult root A M dot par w u b x = Fail FAssert \/
  exists w' u' s' k, pminres_mult root A M dot par w u b x = Ok (w', u', a_l s', a_x s', k) /\ I w' /\ mbuf_ok u' /\ mlens s' /\ J s' /\
    1 <= k <= sp_max par + 1 /\
    (k <= sp_max par -> slt (sabs (m_eta (a_l s'))) (tolerance par (m_beta (a_l s))) = true).
Proof.
  intros HrM HcM HM s Hw Hu Hb Hx Hm Hj HJ.
  exact (mult_loop_inv J _ _ par s _ (pminres_mult_loop M par w u b x HrM HcM HM Hw Hu Hb Hx) Hm Hj HJ).
Qed.

End SolverMinres.
