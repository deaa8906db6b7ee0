(** A solver object may be used again: what Mult computes does not depend on what earlier calls
    left in its buffers. *)

From Coq Require Import ZArith List Bool Lia.
From Verif Require Import Base Scalar Spec Vec SumFacts LoopFacts HistoryProofs Block BlockSpec BlockOp
  Solver SolverSpec SolverProofs SolverMinres SolverMore SolverEnergy.
Import ListNotations.
Open Scope Z_scope.

Section Reuse.
Context {S : scalar}.
Notation T := (car S).
Context {W : Type} (I : W -> Prop) (A : op S W) (dot : dotp S) (n : Z).
Context (fA fM : list T -> list T) (d : list T -> list T -> T).
Context (HA : computes I A n fA) (Hd : dot_gives dot n d).

Section Pcg.
Context (M : option (op S W)) (HM : prec_applies I M n fM).

Lemma pcg_loop_same par tol : forall fuel num w1 w2 u x, I w1 -> I w2 -> plens n u x ->
  same_pcg (pcg_loop fuel A M dot par tol num w1 u x) (pcg_loop fuel A M dot par tol num w2 u x).
Proof.
  destruct HA as (E1 & E2 & H).
  induction fuel as [|fuel IH]; intros num w1 w2 u x H1 H2 Hl; cbn [pcg_loop];
    destruct (p_step_case I A M dot n fA fM d E1 E2 H HM Hd par tol w1 u x H1 Hl) as (Hl' & [(F1 & w1' & S1 & H1')|(F1 & S1)]);
    destruct (p_step_case I A M dot n fA fM d E1 E2 H HM Hd par tol w2 u x H2 Hl) as (_ & [(F2 & w2' & S2 & H2')|(F2 & S2)]);
    try congruence; rewrite S1, S2; cbn [bind same_pcg]; auto;
    destruct (p_stop fA fM d tol u); cbn [same_pcg]; auto; destruct (num + 1 <? sp_max par); cbn [same_pcg]; auto.
Qed.

Lemma pcg_reuse par w1 w2 u1 u2 b x : I w1 -> I w2 -> zlen b = n -> zlen x = n ->
  same_pcg (pcg_mult A M dot par w1 u1 b x) (pcg_mult A M dot par w2 u2 b x).
Proof.
  intros H1 H2 Hb Hx. destruct HA as (E1 & E2 & H).
  destruct (pcg_mult_case I A M dot n fA fM d E1 E2 H HM Hd par w1 u1 b x H1 Hb Hx) as (w1' & H1' & S1).
  destruct (pcg_mult_case I A M dot n fA fM d E1 E2 H HM Hd par w2 u2 b x H2 Hb Hx) as (w2' & H2' & S2).
  rewrite S1, S2. destruct (slt _ _); cbn [same_pcg]; auto.
  apply pcg_loop_same; auto. exact (p_start_lens I A M n fA fM E1 E2 H HM w1 b x H1 Hb Hx).
Qed.

Lemma pcg_calls_inv par l : forall w u w' u', I w -> Forall (fun c => zlen (fst c) = n /\ zlen (snd c) = n) l ->
  pcg_calls A M dot par l w u = Ok (w', u') -> I w'.
Proof.
  induction l as [|(b, x) l IH]; intros w u w' u' Hw Hl E; cbn [pcg_calls] in E; [injection E as <- _; exact Hw|].
  apply bind_Ok in E. destruct E as ((((w1, u1), x1), k1) & E1 & E). pose proof (Forall_inv Hl) as (Hb & Hx).
  apply (IH w1 u1 w' u'); [|exact (Forall_inv_tail Hl)|exact E].
  destruct HA as (F1 & F2 & H).
  destruct (pcg_mult_inv I A M dot n fA fM d F1 F2 H HM Hd (fun _ _ => True) (fun _ _ => True) par w u b x Hw Hb Hx Logic.I Logic.I)
    as [Ht|(w2 & u2 & x2 & k2 & E2 & Hw2 & _)]; [auto|congruence|]. rewrite E2 in E1. injection E1 as <- _ _ _. exact Hw2.
Qed.

Lemma pcg_history par l w u w' u' b x : I w -> pcg_new A M par = Ok u ->
  Forall (fun c => zlen (fst c) = n /\ zlen (snd c) = n) l ->
  zlen b = n -> zlen x = n -> pcg_calls A M dot par l w u = Ok (w', u') ->
  same_pcg (pcg_mult A M dot par w' u' b x) (pcg_run A M dot par w b x).
Proof.
  intros Hw En Hl Hb Hx E. pose proof (pcg_calls_inv par l w u w' u' Hw Hl E) as Hw'. unfold pcg_run.
  rewrite En. cbn [bind]. apply pcg_reuse; assumption.
Qed.

End Pcg.

Section Minres.
Context (root : T -> T).

Lemma mloop_same K (step : @mstep S W) tol max : step_ok I n fA fM d root K step tol ->
  forall left num w1 w2 u1 u2 s, I w1 -> I w2 -> mlens n s -> K u1 s -> K u2 s ->
  same_minres (mloop left step max num w1 u1 (a_l s) (a_x s)) (mloop left step max num w2 u2 (a_l s) (a_x s)).
Proof.
  intros Hs. induction left as [|left IH]; intros num w1 w2 u1 u2 s H1 H2 Hl K1 K2; cbn [mloop];
    destruct (num <=? max); cbn [same_minres]; auto.
  pose proof (Hs w1 u1 s H1 Hl K1) as S1. pose proof (Hs w2 u2 s H2 Hl K2) as S2.
  destruct (seqb (m_beta (a_l s)) s0).
  - rewrite S1, S2. reflexivity.
  - destruct S1 as (Hl' & w1' & u1' & S1 & H1' & _ & K1'). destruct S2 as (_ & w2' & u2' & S2 & H2' & _ & K2').
    rewrite S1, S2. cbn [bind]. destruct (m_stop n fA fM d root s tol); [cbn [same_minres]; auto|].
    exact (IH (num + 1) w1' w2' u1' u2' (m_next n fA fM d root s) H1' H2' Hl' (K1' eq_refl) (K2' eq_refl)).
Qed.

Lemma loop_same K (step : T -> @mstep S W) par s r1 r2 :
  mult_is_loop I n fA fM d root K step par s r1 -> mult_is_loop I n fA fM d root K step par s r2 -> same_minres r1 r2.
Proof.
  intros (Hs & Hl & w1 & u1 & H1 & _ & K1 & ->) (_ & _ & w2 & u2 & H2 & _ & K2 & ->).
  exact (mloop_same K _ _ _ Hs _ _ w1 w2 u1 u2 s H1 H2 Hl K1 K2).
Qed.

Lemma pminres_reuse (M : op S W) par w1 w2 u1 u2 b x : o_rows M = n -> o_cols M = n -> op_applies I M fM ->
  I w1 -> I w2 -> mbuf_ok n u1 -> mbuf_ok n u2 -> zlen b = n -> zlen x = n ->
  same_minres (pminres_mult root A M dot par w1 u1 b x) (pminres_mult root A M dot par w2 u2 b x).
Proof.
  intros HrM HcM HM H1 H2 U1 U2 Hb Hx. destruct HA as (E1 & E2 & H).
  apply (loop_same _ _ par _ _ _ (pminres_mult_loop I A dot n fA fM d root E1 E2 H Hd M par w1 u1 b x HrM HcM HM H1 U1 Hb Hx)
          (pminres_mult_loop I A dot n fA fM d root E1 E2 H Hd M par w2 u2 b x HrM HcM HM H2 U2 Hb Hx)).
Qed.

(** What one call leaves behind. *)
Lemma pminres_keeps (M : op S W) par w u b x w' u' l' x' k : o_rows M = n -> o_cols M = n -> op_applies I M fM ->
  I w -> mbuf_ok n u -> zlen b = n -> zlen x = n -> 0 <= sp_max par ->
  pminres_mult root A M dot par w u b x = Ok (w', u', l', x', k) -> I w' /\ mbuf_ok n u'.
Proof.
  intros HrM HcM HM H1 U1 Hb Hx Hm E. destruct HA as (E1 & E2 & H).
  destruct (pminres_mult_inv I A dot n fA fM d root E1 E2 H Hd (fun _ => True) M par w u b x HrM HcM HM H1 U1 Hb Hx Hm Logic.I)
    as [F|(w2 & u2 & s2 & k2 & E3 & Hw2 & U2 & _)]; [auto|congruence|].
  rewrite E in E3. injection E3 as <- <- _ _ _. auto.
Qed.

Lemma minres_new_ok (M : option (op S W)) par u : minres_new A M par = Ok u -> mbuf_ok n u /\ 0 <= sp_max par.
Proof.
  unfold minres_new, solver_checks. intros E. apply bind_Ok in E. destruct E as (? & Ec & E). 
  apply bind_Ok in Ec. destruct Ec as (? & Ec & _). apply assert_Ok in Ec. apply Z.leb_le in Ec.
  apply bind_Ok in E. destruct E as (? & _ & E).
  destruct HA as (E1 & _ & H0 & _). rewrite vec_ok in E by lia. cbn [bind] in E. injection E as <-.
  split; [|exact Ec]. refine (conj _ (conj _ _)); cbn [mb_w0 mb_w1 mb_v0]; rewrite zlen_repeat; lia.
Qed.

Lemma pminres_calls_inv (M : op S W) par l : o_rows M = n -> o_cols M = n -> op_applies I M fM -> 0 <= sp_max par ->
  forall w u w' u', I w -> mbuf_ok n u -> Forall (fun c => zlen (fst c) = n /\ zlen (snd c) = n) l ->
  pminres_calls root A M dot par l w u = Ok (w', u') -> I w' /\ mbuf_ok n u'.
Proof.
  intros HrM HcM HM Hm. induction l as [|(b, x) l IH]; intros w u w' u' Hw Hu Hl E; cbn [pminres_calls] in E;
    [injection E as <- <-; auto|].
  apply bind_Ok in E. destruct E as (((((w1, u1), l1), x1), k1) & E1 & E). pose proof (Forall_inv Hl) as (Hb & Hx).
  destruct (pminres_keeps M par w u b x w1 u1 l1 x1 k1 HrM HcM HM Hw Hu Hb Hx Hm E1) as (Hw1 & Hu1).
  exact (IH w1 u1 w' u' Hw1 Hu1 (Forall_inv_tail Hl) E).
Qed.

Lemma pminres_history (M : op S W) par l w u w' u' b x : o_rows M = n -> o_cols M = n -> op_applies I M fM ->
  I w -> minres_new A (Some M) par = Ok u -> Forall (fun c => zlen (fst c) = n /\ zlen (snd c) = n) l ->
  zlen b = n -> zlen x = n -> pminres_calls root A M dot par l w u = Ok (w', u') ->
  same_minres (pminres_mult root A M dot par w' u' b x) (pminres_run root A M dot par w b x).
Proof.
  intros HrM HcM HM Hw En Hl Hb Hx E. destruct (minres_new_ok _ _ _ En) as (Hu & Hm).
  destruct (pminres_calls_inv M par l HrM HcM HM Hm w u w' u' Hw Hu Hl E) as (Hw' & Hu').
  unfold pminres_run. rewrite En. cbn [bind]. apply pminres_reuse; assumption.
Qed.

End Minres.

Section MinresPlain.
Context (root : T -> T) (Hid : forall v : list T, zlen v = n -> fM v = v).

Lemma minres_reuse par w1 w2 u1 u2 b x : 
  I w1 -> I w2 -> mbuf_ok n u1 -> mbuf_ok n u2 -> zlen b = n -> zlen x = n ->
  same_minres (minres_mult root A dot par w1 u1 b x) (minres_mult root A dot par w2 u2 b x).
Proof.
  intros H1 H2 U1 U2 Hb Hx. destruct HA as (E1 & E2 & H).
  apply (loop_same root _ _ par _ _ _ (minres_mult_loop I A dot n fA fM d root E1 E2 H Hd par w1 u1 b x Hid H1 U1 Hb Hx)
          (minres_mult_loop I A dot n fA fM d root E1 E2 H Hd par w2 u2 b x Hid H2 U2 Hb Hx)).
Qed.

Lemma minres_keeps par w u b x w' u' l' x' k :
  I w -> mbuf_ok n u -> zlen b = n -> zlen x = n -> 0 <= sp_max par ->
  minres_mult root A dot par w u b x = Ok (w', u', l', x', k) -> I w' /\ mbuf_ok n u'.
Proof.
  intros H1 U1 Hb Hx Hm E. destruct HA as (E1 & E2 & H).
  destruct (minres_mult_inv I A dot n fA fM d root E1 E2 H Hd (fun _ => True) par w u b x Hid H1 U1 Hb Hx Hm Logic.I)
    as [F|(w2 & u2 & s2 & k2 & E3 & Hw2 & U2 & _)]; [auto|congruence|].
  rewrite E in E3. injection E3 as <- <- _ _ _. auto.
Qed.

Lemma minres_calls_inv par l : 0 <= sp_max par ->
  forall w u w' u', I w -> mbuf_ok n u -> Forall (fun c => zlen (fst c) = n /\ zlen (snd c) = n) l ->
  minres_calls root A dot par l w u = Ok (w', u') -> I w' /\ mbuf_ok n u'.
Proof.
  intros Hm. induction l as [|(b, x) l IH]; intros w u w' u' Hw Hu Hl E; cbn [minres_calls] in E;
    [injection E as <- <-; auto|].
  apply bind_Ok in E. destruct E as (((((w1, u1), l1), x1), k1) & E1 & E). pose proof (Forall_inv Hl) as (Hb & Hx).
  destruct (minres_keeps par w u b x w1 u1 l1 x1 k1 Hw Hu Hb Hx Hm E1) as (Hw1 & Hu1).
  exact (IH w1 u1 w' u' Hw1 Hu1 (Forall_inv_tail Hl) E).
Qed.

Lemma minres_history par l w u w' u' b x : 
  I w -> minres_new A None par = Ok u -> Forall (fun c => zlen (fst c) = n /\ zlen (snd c) = n) l ->
  zlen b = n -> zlen x = n -> minres_calls root A dot par l w u = Ok (w', u') ->
  same_minres (minres_mult root A dot par w' u' b x) (minres_run root A dot par w b x).
Proof.
  intros Hw En Hl Hb Hx E. destruct (minres_new_ok _ _ _ En) as (Hu & Hm).
  destruct (minres_calls_inv par l Hm w u w' u' Hw Hu Hl E) as (Hw' & Hu').
  unfold minres_run. rewrite En. cbn [bind]. apply minres_reuse; assumption.
Qed.

End MinresPlain.

End Reuse.
