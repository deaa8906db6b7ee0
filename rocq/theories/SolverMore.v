(** Proofs of the solver properties. *)

From Coq Require Import ZArith List Bool Lia Ring.
From Verif Require Import Base Scalar Spec Vec SumFacts LoopFacts HistoryProofs Block BlockSpec BlockOp
  Solver SolverSpec SolverProofs SolverMinres.
Import ListNotations.
Open Scope Z_scope.

Section SolverMore.
Context {S : scalar}.
Notation T := (car S).

(* ---------------------------------------------------------------- PCG: residual and stopping *)

Section Pcg.
Context {W : Type} (I : W -> Prop) (A : op S W) (M : option (op S W)) (dot : dotp S) (n : Z).
Context (mA : mat S) (fM : list T -> list T) (d : list T -> list T -> T).
Context (HA : acts_as I A n mA) (HM : prec_applies I M n fM) (Hd : dot_gives dot n d).

Lemma acts_n : 0 <= n.
Proof. destruct HA as (E & _ & H & _). lia. Qed.

Lemma pcg_never_faults par w u b x : I w -> zlen b = n -> zlen x = n ->
  pcg_mult A M dot par w u b x = Fail FThrow \/
  exists w' u' x' k, pcg_mult A M dot par w u b x = Ok (w', u', x', k) /\ I w' /\ zlen x' = n.
Proof.
  intros Hw Hb Hx. destruct HA as (E1 & E2 & H).
  destruct (pcg_mult_inv I A M dot n (mat_list mA n) fM d E1 E2 H HM Hd (fun _ _ => True) (fun _ _ => True)
              par w u b x Hw Hb Hx Logic.I Logic.I) as [Ht|Hok]; [auto|left; exact Ht|right].
  destruct Hok as (w' & u' & x' & k & Ek & Hw' & [_ _ _ Hl] & _). eauto 8.
Qed.

Lemma pcg_residual (R : ring_laws S) par w u b x w' u' x' k : I w -> zlen b = n -> zlen x = n ->
  pcg_mult A M dot par w u b x = Ok (w', u', x', k) ->
  zlen x' = n /\ I w' /\
  pb_r u' = residual mA n b x' /\ pb_z u' = fM (residual mA n b x') /\ 1 <= k <= Z.max 2 (sp_max par) /\
  (k < Z.max 2 (sp_max par) ->
   slt (d (fM (residual mA n b x')) (residual mA n b x'))
       (tolerance par (d (fM (residual mA n b x)) (residual mA n b x))) = true).
Proof.
  intros Hw Hb Hx E. destruct HA as (E1 & E2 & H). pose proof acts_n as Hn.
  destruct (pcg_mult_inv I A M dot n (mat_list mA n) fM d E1 E2 H HM Hd
              (fun u x => pb_r u = residual mA n b x) (fun u x => pb_r u = residual mA n b x)
              par w u b x Hw Hb Hx) as [Ht|Hok].
  - apply residual_start; auto.
  - apply residual_start; auto.
  - intros v y Hl Hr Hf. assert (Hr' : pb_r (p_next (mat_list mA n) fM d (p_tol (mat_list mA n) fM d par b x) v) =
      residual mA n b (p_x (mat_list mA n) d v y)).
    { cbn [p_next pb_r]. unfold p_r, p_x. rewrite Hr. apply (residual_step R); auto. apply Hl. }
    auto.
  - congruence.
  - destruct Hok as (w2 & u2 & x2 & k2 & Ek & Hw2 & Hl2 & Hr2 & Hz2 & Hk2 & Hs).
    rewrite E in Ek. injection Ek as <- <- <- <-. rewrite Hr2 in Hz2.
    split; [apply Hl2|]. split; [exact Hw2|]. split; [exact Hr2|]. split; [exact Hz2|]. split; [exact Hk2|].
    intros Hlt. specialize (Hs Hlt). rewrite Hz2, Hr2 in Hs. unfold p_tol, p_start in Hs. cbn [pb_z pb_r] in Hs.
    rewrite residual_start in Hs by auto. exact Hs.
Qed.

(** One pass of the loop, from any state in which r is the residual. *)
Lemma pcg_step_residual (R : ring_laws S) par tol w u b x stop w' u' x' : I w ->
  zlen (pb_p u) = n -> zlen (pb_z u) = n -> zlen b = n -> zlen x = n ->
  pb_r u = residual mA n b x ->
  pcg_step A M dot par tol w u x = Ok (stop, w', u', x') ->
  pb_r u' = residual mA n b x' /\ pb_z u' = fM (residual mA n b x') /\
  stop = slt (d (fM (residual mA n b x')) (residual mA n b x')) tol.
Proof.
  intros Hw Hp Hz Hb Hx Hr E. destruct HA as (E1 & E2 & H). pose proof acts_n as Hn.
  assert (Hl : plens n u x) by (constructor; auto; rewrite Hr; apply zlen_residual; lia).
  destruct (p_step_case I A M dot n (mat_list mA n) fM d E1 E2 H HM Hd par tol w u x Hw Hl)
    as (_ & [(_ & w2 & Es & _)|(_ & Es)]); [|congruence].
  rewrite E in Es. injection Es as Est Ew Eu Ex. subst stop u' x'.
  assert (Hr' : p_r (mat_list mA n) d u = residual mA n b (p_x (mat_list mA n) d u x)).
  { unfold p_r, p_x. rewrite Hr. apply (residual_step R); auto. }
  cbn [p_next pb_r pb_z]. unfold p_stop, p_z. rewrite Hr'. auto.
Qed.

(** Starting from a solution with a positive absolute tolerance. *)
Lemma pcg_exact_start par w u b x : I w -> zlen b = n -> zlen x = n ->
  (forall i, 0 <= i < n -> (vec_of b i - mat_vec mA n (vec_of x) i)%S = s0) ->
  (forall r, zlen r = n -> all_zero r -> d (fM r) r = s0) ->
  slt s0 (tolerance par s0) = true ->
  exists w' u', pcg_mult A M dot par w u b x = Ok (w', u', x, 1).
Proof.
  intros Hw Hb Hx H0 Hd0 Ht. destruct HA as (E1 & E2 & H). pose proof acts_n as Hn.
  destruct (pcg_mult_case I A M dot n (mat_list mA n) fM d E1 E2 H HM Hd par w u b x Hw Hb Hx) as (w' & _ & E).
  rewrite E. unfold p_tol, p_start. cbn [pb_z pb_r]. rewrite residual_start by auto.
  rewrite Hd0.
  - rewrite Ht. eauto.
  - apply zlen_residual. lia.
  - intros i Hi. rewrite zlen_residual in Hi by lia. rewrite residual_at by lia. apply H0. lia.
Qed.

End Pcg.

(* ---------------------------------------------------------------- counting applications of A *)

Section Count.
Context {W : Type}.

Lemma counting_vec (o : op S W) w x out w' y :
  op_mult_vec (counting o) w x out = Ok (w', y) -> snd w' = snd w + 1.
Proof.
  unfold op_mult_vec. intros H. apply bind_Ok in H. destruct H as (o' & _ & H).
  cbn [counting o_mult] in H. apply bind_Ok in H. destruct H as ((w1, y1) & _ & H). injection H as <- _. reflexivity.
Qed.
Lemma beside_vec (o : op S W) w x out w' y :
  op_mult_vec (beside o) w x out = Ok (w', y) -> snd w' = snd w.
Proof.
  unfold op_mult_vec. intros H. apply bind_Ok in H. destruct H as (o' & _ & H).
  cbn [beside o_mult] in H. apply bind_Ok in H. destruct H as ((w1, y1) & _ & H). injection H as <- _. reflexivity.
Qed.
Lemma beside_prec (M : option (op S W)) w r z w' y :
  pcg_prec (option_map beside M) w r z = Ok (w', y) -> snd w' = snd w.
Proof.
  destruct M as [m|]; cbn [option_map pcg_prec]; [apply beside_vec|]. intros H. injection H as <- _. reflexivity.
Qed.

Lemma pcg_step_count (A : op S W) (M : option (op S W)) dot par tol w u x stop w' u' x' :
  pcg_step (counting A) (option_map beside M) dot par tol w u x = Ok (stop, w', u', x') -> snd w' = snd w + 1.
Proof.
  unfold pcg_step. intros H. apply bind_Ok in H. destruct H as ((w1, Ap) & E1 & H). apply counting_vec in E1.
  do 2 (apply bind_Ok in H; destruct H as (? & _ & H)).
  apply bind_Ok in H; destruct H as (? & _ & H).
  do 3 (apply bind_Ok in H; destruct H as (? & _ & H)).
  apply bind_Ok in H. destruct H as ((w2, z) & E2 & H). apply beside_prec in E2.
  apply bind_Ok in H; destruct H as (numer & _ & H). destruct (slt numer tol).
  - injection H as _ <- _ _. lia.
  - do 2 (apply bind_Ok in H; destruct H as (? & _ & H)). injection H as _ <- _ _. lia.
Qed.

Lemma pcg_loop_count (A : op S W) (M : option (op S W)) dot par tol : forall fuel num w u x w' u' x' k,
  pcg_loop fuel (counting A) (option_map beside M) dot par tol num w u x = Ok (w', u', x', k) ->
  snd w + 1 <= snd w' <= snd w + Z.max 1 (sp_max par - num) /\
  (k = num + (snd w' - snd w) - 1 \/ k = num + (snd w' - snd w) /\ sp_max par <= k).
Proof.
  induction fuel as [|fuel IH]; intros num w u x w' u' x' k H; cbn [pcg_loop] in H;
    apply bind_Ok in H; destruct H as ((((stop, w1), u1), x1) & E & H); apply pcg_step_count in E;
    (destruct stop; [injection H as <- _ _ <-; lia|]);
    destruct (Z.ltb_spec (num + 1) (sp_max par)); [discriminate| | |];
    try (injection H as <- _ _ <-; lia).
  apply IH in H. lia.
Qed.

Lemma pcg_mult_count (A : op S W) (M : option (op S W)) dot par w u b x w' u' x' k :
  pcg_mult (counting A) (option_map beside M) dot par w u b x = Ok (w', u', x', k) ->
  snd w + 1 <= snd w' <= snd w + 1 + Z.max 1 (sp_max par - 1) /\ k <= Z.max 2 (sp_max par).
Proof.
  unfold pcg_mult. intros H. do 2 (apply bind_Ok in H; destruct H as (? & _ & H)).
  apply bind_Ok in H. destruct H as ((w1, Ap) & E1 & H). apply counting_vec in E1.
  apply bind_Ok in H; destruct H as (r & _ & H).
  apply bind_Ok in H. destruct H as ((w2, z) & E2 & H). apply beside_prec in E2.
  do 2 (apply bind_Ok in H; destruct H as (? & _ & H)).
  destruct (slt _ _).
  - injection H as <- _ _ <-. lia.
  - apply pcg_loop_count in H. lia.
Qed.

(** Below two iterations the limit is not respected: the first pass is always made. *)
Lemma pcg_first_pass (A : op S W) (M : option (op S W)) dot par w u b x w' u' x' k :
  sp_max par <= 1 ->
  pcg_mult (counting A) (option_map beside M) dot par w u b x = Ok (w', u', x', k) ->
  (k = 1 /\ snd w' = snd w + 1 /\ x' = x) \/ (snd w' = snd w + 2 /\ (k = 1 \/ k = 2)).
Proof.
  intros Hm. unfold pcg_mult. intros H. do 2 (apply bind_Ok in H; destruct H as (? & _ & H)).
  apply bind_Ok in H. destruct H as ((w1, Ap) & E1 & H). apply counting_vec in E1.
  apply bind_Ok in H; destruct H as (r & _ & H).
  apply bind_Ok in H. destruct H as ((w2, z) & E2 & H). apply beside_prec in E2.
  do 2 (apply bind_Ok in H; destruct H as (? & _ & H)).
  destruct (slt _ _).
  - injection H as <- _ <- <-. left. split; [lia|split; [lia|reflexivity]].
  - apply pcg_loop_count in H. right. lia.
Qed.

Context (root : T -> T).

Lemma mloop_count (step : @mstep S (W * Z)) max :
  (forall w u l x stop w' u' l' x', step w u l x = Ok (stop, w', u', l', x') -> snd w' = snd w + 1) ->
  forall left num w u l x w' u' l' x' k, num <= max + 1 ->
  mloop left step max num w u l x = Ok (w', u', l', x', k) ->
  snd w <= snd w' <= snd w + (max + 1 - num) /\ num <= k <= max + 1 /\
  (k = max + 1 -> snd w' = snd w + (max + 1 - num)) /\ (k <= max -> snd w' = snd w + (k - num) + 1).
Proof.
  intros Hs. induction left as [|left IH]; intros num w u l x w' u' l' x' k Hn H; cbn [mloop] in H;
    destruct (Z.leb_spec num max); try discriminate; try (injection H as <- _ _ _ <-; lia).
  apply bind_Ok in H. destruct H as (((((stop, w1), u1), l1), x1) & E & H). apply Hs in E.
  destruct stop; [injection H as <- _ _ _ <-; lia|]. apply IH in H; lia.
Qed.

Lemma minres_step_count (A : op S W) dot tol w u l x stop w' u' l' x' :
  minres_step (W := W * Z) root (counting A) dot tol w u l x = Ok (stop, w', u', l', x') -> snd w' = snd w + 1.
Proof.
  unfold minres_step. intros H. apply bind_Ok in H; destruct H as (? & _ & H).
  apply bind_Ok in H. destruct H as ((w1, q) & E1 & H). apply counting_vec in E1.
  do 5 (apply bind_Ok in H; destruct H as (? & _ & H)).
  destruct (slt _ _); injection H as _ <- _ _ _; exact E1.
Qed.
Lemma pminres_step_count (A M : op S W) dot tol w u l x stop w' u' l' x' :
  pminres_step (W := W * Z) root (counting A) (beside M) dot tol w u l x = Ok (stop, w', u', l', x') -> snd w' = snd w + 1.
Proof.
  unfold pminres_step. intros H. do 2 (apply bind_Ok in H; destruct H as (? & _ & H)).
  apply bind_Ok in H. destruct H as ((w1, q) & E1 & H). apply counting_vec in E1.
  do 2 (apply bind_Ok in H; destruct H as (? & _ & H)).
  apply bind_Ok in H. destruct H as ((w2, q2) & E2 & H). apply beside_vec in E2.
  do 3 (apply bind_Ok in H; destruct H as (? & _ & H)).
  destruct (slt _ _); injection H as _ <- _ _ _; lia.
Qed.

Lemma minres_mult_count (A : op S W) dot par w u b x w' u' l' x' k : 0 <= sp_max par ->
  minres_mult (W := W * Z) root (counting A) dot par w u b x = Ok (w', u', l', x', k) ->
  snd w' <= snd w + 1 + sp_max par /\ 1 <= k <= sp_max par + 1.
Proof.
  intros Hm. unfold minres_mult. intros H. do 2 (apply bind_Ok in H; destruct H as (? & _ & H)).
  apply bind_Ok in H. destruct H as ((w1, q) & E1 & H). apply counting_vec in E1.
  do 2 (apply bind_Ok in H; destruct H as (? & _ & H)).
  apply mloop_count in H; [lia| |lia]. intros *. apply minres_step_count.
Qed.
Lemma pminres_mult_count (A M : op S W) dot par w u b x w' u' l' x' k : 0 <= sp_max par ->
  pminres_mult (W := W * Z) root (counting A) (beside M) dot par w u b x = Ok (w', u', l', x', k) ->
  snd w' <= snd w + 1 + sp_max par /\ 1 <= k <= sp_max par + 1.
Proof.
  intros Hm. unfold pminres_mult. intros H. do 2 (apply bind_Ok in H; destruct H as (? & _ & H)).
  apply bind_Ok in H. destruct H as ((w1, q) & E1 & H). apply counting_vec in E1.
  apply bind_Ok in H; destruct H as (? & _ & H).
  apply bind_Ok in H. destruct H as ((w2, q2) & E2 & H). apply beside_vec in E2.
  apply bind_Ok in H; destruct H as (? & _ & H).
  apply mloop_count in H; [lia| |lia]. intros *. apply pminres_step_count.
Qed.

End Count.

(* ---------------------------------------------------------------- MINRES from a solution *)

Section MinresZero.
Context {W : Type} (I : W -> Prop) (A : op S W) (dot : dotp S) (n : Z) (root : T -> T).
Context (mA : mat S) (d : list T -> list T -> T).
Context (HA : acts_as I A n mA) (Hd : dot_gives dot n d).

Lemma mloop_abort {W'} (step : @mstep S W') max left w u l x :
  1 <= max -> max <= Z.of_nat left -> step w u l x = Fail FAssert ->
  mloop left step max 1 w u l x = Fail FAssert.
Proof.
  intros H1 H2 E. destruct left as [|left]; [lia|]. cbn [mloop]. rewrite (proj2 (Z.leb_le 1 max) H1), E. reflexivity.
Qed.

Lemma minres_exact_start par w u b x : I w -> mbuf_ok n u -> zlen b = n -> zlen x = n ->
  (forall i, 0 <= i < n -> (vec_of b i - mat_vec mA n (vec_of x) i)%S = s0) ->
  (forall r, zlen r = n -> all_zero r -> root (d r r) = s0) -> seqb (s0 : T) s0 = true ->
  1 <= sp_max par ->
  minres_mult root A dot par w u b x = Fail FAssert.
Proof.
  intros Hw (U0 & U1 & U2) Hb Hx H0 Hr0 Hs Hm. destruct HA as (E1 & E2 & H).
  pose proof (acts_n I A n mA HA) as Hn.
  destruct (A_vec I A n _ E1 E2 H w x (mb_q u) Hw Hx) as (Hq & w' & Eq & Hw').
  unfold minres_mult. rewrite E1, Hb, Hx, Z.eqb_refl. cbn [assert_ bind]. rewrite Eq. cbn [bind].
  unfold l_sub. rewrite l_zip_ok by lia. cbn [bind].
  change (zipw (fun a b0 : T => (a - b0)%S) b (mat_list mA n x)) with (zipw ssub b (mat_list mA n x)).
  rewrite residual_start by auto. rewrite Hd by (apply zlen_residual; lia). cbn [bind].
  rewrite Hr0.
  - apply mloop_abort; [lia|lia|]. unfold minres_step, l_divc. cbn [m_beta]. rewrite Hs. reflexivity.
  - apply zlen_residual; lia.
  - intros i Hi. rewrite zlen_residual in Hi by lia. rewrite residual_at by lia. apply H0. lia.
Qed.

Lemma pminres_exact_start M fM par w u b x : o_rows M = n -> o_cols M = n -> op_applies I M fM ->
  I w -> mbuf_ok n u -> zlen b = n -> zlen x = n ->
  (forall i, 0 <= i < n -> (vec_of b i - mat_vec mA n (vec_of x) i)%S = s0) ->
  (forall r, zlen r = n -> all_zero r -> root (d (fM r) r) = s0) -> seqb (s0 : T) s0 = true ->
  1 <= sp_max par ->
  pminres_mult root A M dot par w u b x = Fail FAssert.
Proof.
  intros HrM HcM HM Hw (U0 & U1 & U2) Hb Hx H0 Hr0 Hs Hm. destruct HA as (E1 & E2 & H).
  pose proof (acts_n I A n mA HA) as Hn.
  destruct (A_vec I A n _ E1 E2 H w x (mb_q u) Hw Hx) as (Hq & w' & Eq & Hw').
  destruct (A_vec I M n fM HrM HcM HM w' (residual mA n b x) (mb_u1 u) Hw') as (Hu & w2 & Eu & Hw2);
    [apply zlen_residual; lia|].
  unfold pminres_mult. rewrite E1, E2, Hb, Hx, Z.eqb_refl. cbn [assert_ bind]. rewrite Eq. cbn [bind].
  unfold l_sub. rewrite l_zip_ok by lia. cbn [bind].
  change (zipw (fun a b0 : T => (a - b0)%S) b (mat_list mA n x)) with (zipw ssub b (mat_list mA n x)).
  rewrite residual_start by auto. rewrite Eu. cbn [bind].
  rewrite Hd by (auto; apply zlen_residual; lia). cbn [bind].
  rewrite Hr0.
  - apply mloop_abort; [lia|lia|]. unfold pminres_step, l_divc. cbn [m_beta]. rewrite Hs. reflexivity.
  - apply zlen_residual; lia.
  - intros i Hi. rewrite zlen_residual in Hi by lia. rewrite residual_at by lia. apply H0. lia.
Qed.

End MinresZero.

End SolverMore.
