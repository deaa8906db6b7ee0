(** How many passes the Krylov solvers need for their tolerance. *)

From Coq Require Import ZArith List Bool Lia Reals Lra Psatz.
From Verif Require Import Base Scalar Spec Vec SumFacts Block BlockSpec BlockOp HistoryProofs Solver SolverSpec SolverProofs SolverMinres SolverMore SolverEnergy
  KrylovFacts SolverLanczos SolverLinks KrylovSpec SolverOptimal SolverMinOpt RateSpec SolverRate SolverRateR ScalarR.
Import ListNotations.
Open Scope Z_scope.

Notation limited par c := (SParams c (sp_rel par) (sp_abs par) (sp_floor par)).

(* ---------------------------------------------------------------- a larger limit *)

Section Larger.
Context {S : scalar} {W : Type}.
Notation T := (car S).

Lemma loop_larger (A : op S W) M dot par c tol : sp_max par <= c ->
  forall fuel fuel' num w u x w' u' x' k, (fuel <= fuel')%nat ->
  pcg_loop fuel A M dot par tol num w u x = Ok (w', u', x', k) -> k < Z.max (num + 1) (sp_max par) ->
  pcg_loop fuel' A M dot (limited par c) tol num w u x = Ok (w', u', x', k).
Proof.
  intros Hc. induction fuel as [|fuel IH]; intros fuel' num w u x w' u' x' k Hf Er Hk; cbn [pcg_loop] in Er; apply bind_Ok in Er as ((((stop & w1) & u1) & x1) & Es & Er);
    destruct stop.
  - destruct fuel'; cbn [pcg_loop]; change (pcg_step A M dot (limited par c)) with (pcg_step A M dot par); rewrite Es; exact Er.
  - destruct (Z.ltb_spec (num + 1) (sp_max par)); [discriminate|]. injection Er as <- <- <- <-. lia.
  - destruct fuel'; cbn [pcg_loop]; change (pcg_step A M dot (limited par c)) with (pcg_step A M dot par); rewrite Es; exact Er.
  - destruct (Z.ltb_spec (num + 1) (sp_max par)); [|injection Er as <- <- <- <-; lia]. destruct fuel' as [|fuel']; [lia|].
    cbn [pcg_loop]. change (pcg_step A M dot (limited par c)) with (pcg_step A M dot par). rewrite Es. cbn [bind sp_max].
    replace (num + 1 <? c) with true by lia. apply IH; [lia|exact Er|lia].
Qed.

Lemma pcg_larger (A : op S W) M dot par c w u b x w' u' x' k : sp_max par <= c ->
  pcg_mult A M dot par w u b x = Ok (w', u', x', k) -> k < Z.max 2 (sp_max par) ->
  pcg_mult A M dot (limited par c) w u b x = Ok (w', u', x', k).
Proof.
  intros Hc Er Hk. unfold pcg_mult in *. cbn [sp_rel sp_abs sp_max].
  repeat match goal with
  | H : bind ?e _ = Ok _ |- _ => destruct e as [?|]; cbn [bind] in *; try discriminate
  | p : _ * _ |- _ => destruct p
  end.
  match goal with |- (if ?t then _ else _) = _ => destruct t end; [exact Er|].
  apply (loop_larger A M dot par c _ Hc (Z.to_nat (sp_max par))); [lia|exact Er|exact Hk].
Qed.

Lemma mloop_larger (step : mstep (S := S) (W := W)) max max' : max <= max' ->
  forall left left' num w u l x w' u' l' x' k, (left <= left')%nat ->
  mloop left step max num w u l x = Ok (w', u', l', x', k) -> k <= max ->
  mloop left' step max' num w u l x = Ok (w', u', l', x', k).
Proof.
  intros Hm. induction left as [|left IH]; intros left' num w u l x w' u' l' x' k Hl Er Hk; cbn [mloop] in Er.
  - destruct (Z.leb_spec num max); [discriminate|]. injection Er as <- <- <- <- <-. lia.
  - destruct (Z.leb_spec num max); [|injection Er as <- <- <- <- <-; lia]. destruct left' as [|left']; [lia|]. cbn [mloop].
    replace (num <=? max') with true by lia. apply bind_Ok in Er as (((((stop & w1) & u1) & l1) & x1) & Es & Er). rewrite Es. cbn [bind].
    destruct stop; [exact Er|]. apply IH; [lia|exact Er|lia].
Qed.

Lemma minres_larger root (A : op S W) dot par c w u b x w' u' l' x' k : sp_max par <= c ->
  minres_mult root A dot par w u b x = Ok (w', u', l', x', k) -> k <= sp_max par ->
  minres_mult root A dot (limited par c) w u b x = Ok (w', u', l', x', k).
Proof.
  intros Hc Er Hk. unfold minres_mult in *. cbn [sp_rel sp_abs sp_max].
  repeat match goal with
  | H : bind ?e _ = Ok _ |- _ => destruct e as [?|]; cbn [bind] in *; try discriminate
  | p : _ * _ |- _ => destruct p
  end.
  eapply mloop_larger; [exact Hc| |exact Er|exact Hk]. lia.
Qed.

Lemma pminres_larger root (A M : op S W) dot par c w u b x w' u' l' x' k : sp_max par <= c ->
  pminres_mult root A M dot par w u b x = Ok (w', u', l', x', k) -> k <= sp_max par ->
  pminres_mult root A M dot (limited par c) w u b x = Ok (w', u', l', x', k).
Proof.
  intros Hc Er Hk. unfold pminres_mult in *. cbn [sp_rel sp_abs sp_max].
  repeat match goal with
  | H : bind ?e _ = Ok _ |- _ => destruct e as [?|]; cbn [bind] in *; try discriminate
  | p : _ * _ |- _ => destruct p
  end.
  eapply mloop_larger; [exact Hc| |exact Er|exact Hk]. lia.
Qed.

End Larger.

(* ---------------------------------------------------------------- a smaller limit *)

Section Smaller.
Context {S : scalar} (R : ring_laws S).
Notation T := (car S).
Context {W : Type} (I : W -> Prop) (A : op S W) (M : option (op S W)) (n : Z).
Context (mA mM : mat S) (HA : acts_as I A n mA) (HM : prec_applies I M n (mat_list mM n)).

Notation fA := (mat_list mA n).
Notation fM := (mat_list mM n).
Notation d := (fun x y : list T => inner n (vec_of x) (vec_of y)).
Notation q0 b x := (res_form mA mM n b x).

(** cut short, the loop is where it was then, and the stop test had failed *)
Lemma loop_smaller b par tol c : forall fuel fuel' num w wc u x w' u' x' k, I w -> I wc -> plens n u x -> pb_r u = residual mA n b x ->
  pcg_loop fuel A M l_inner par tol num w u x = Ok (w', u', x', k) -> num + 1 <= c <= k -> c <= num + 1 + Z.of_nat fuel' ->
  exists w2 u2 x2, pcg_loop fuel' A M l_inner (limited par c) tol num wc u x = Ok (w2, u2, x2, c) /\ slt (q0 b x2) tol = false.
Proof.
  pose proof (acts_n I A n mA HA) as Hn. destruct HA as (E1 & E2 & H).
  induction fuel as [|fuel IH]; intros fuel' num w wc u x w' u' x' k Hw Hwc Hl Hr Er Hc Hf.
  all: cbn [pcg_loop] in Er; destruct (p_step_case I A M l_inner n fA fM d E1 E2 H HM (l_inner_gives R n) par tol w u x Hw Hl)
       as (Hl' & [(Hfl & w1 & Es & Hw1)|(_ & Es)]); rewrite Es in Er; cbn [bind] in Er; [|discriminate].
  all: destruct (p_step_case I A M l_inner n fA fM d E1 E2 H HM (l_inner_gives R n) par tol wc u x Hwc Hl)
       as (_ & [(_ & w1c & Esc & Hw1c)|(Hfl' & _)]); [|cbv beta in Hfl, Hfl'; rewrite Hfl in Hfl'; discriminate].
  all: assert (Hr' : p_r fA d u = residual mA n b (p_x fA d u x)) by (destruct Hl as [Lr Lp Lz Lx]; unfold p_r, p_x; rewrite Hr; apply (residual_step R); auto).
  all: destruct (p_stop fA fM d tol u) eqn:Est.
  all: pose proof Est as Est'; unfold p_stop, p_z in Est'; rewrite Hr' in Est'.
  1, 3: injection Er as <- <- <- <-; lia.
  all: destruct (Z.eq_dec c (num + 1)) as [->|Hne];
    [exists w1c, (p_next fA fM d tol u), (p_x fA d u x); destruct fuel'; cbn [pcg_loop];
     change (pcg_step A M l_inner (limited par (num + 1))) with (pcg_step A M l_inner par); rewrite Esc; cbn [bind sp_max];
     rewrite Z.ltb_irrefl; (split; [reflexivity|exact Est'])|].
  all: destruct (Z.ltb_spec (num + 1) (sp_max par)); [|injection Er as <- <- <- <-; lia].
  - discriminate.
  - destruct fuel' as [|fuel']; [lia|].
    destruct (IH fuel' (num + 1) w1 w1c (p_next fA fM d tol u) (p_x fA d u x) w' u' x' k Hw1 Hw1c Hl' Hr' Er ltac:(lia) ltac:(lia)) as (w2 & u2 & x2 & E & Hs).
    exists w2, u2, x2. split; [|exact Hs]. cbn [pcg_loop]. change (pcg_step A M l_inner (limited par c)) with (pcg_step A M l_inner par). rewrite Esc. cbn [bind sp_max].
    replace (num + 1 <? c) with true by lia. exact E.
Qed.

Lemma pcg_smaller par c w u b x w' u' x' k : I w -> zlen b = n -> zlen x = n ->
  pcg_mult A M l_inner par w u b x = Ok (w', u', x', k) -> 2 <= c <= k ->
  exists w2 u2 x2, pcg_mult A M l_inner (limited par c) w u b x = Ok (w2, u2, x2, c) /\
    slt (q0 b x2) (tolerance par (q0 b x)) = false /\ passes_made mA mM n (limited par c) b x x2 c = c - 1.
Proof.
  intros Hw Hb Hx Er Hc. pose proof HA as (E1 & E2 & H).
  destruct (pcg_mult_case I A M l_inner n fA fM d E1 E2 H HM (l_inner_gives R n) par w u b x Hw Hb Hx) as (w1 & Hw1 & Eq).
  destruct (pcg_mult_case I A M l_inner n fA fM d E1 E2 H HM (l_inner_gives R n) (limited par c) w u b x Hw Hb Hx) as (w1' & Hw1' & Eq').
  change (p_tol fA fM d (limited par c) b x) with (p_tol fA fM d par b x) in Eq'.
  assert (Et : p_tol fA fM d par b x = tolerance par (q0 b x)) by (unfold p_tol, p_start, res_form; cbn [pb_z pb_r]; now rewrite residual_start).
  assert (Eq0 : d (pb_z (p_start fA fM b x)) (pb_r (p_start fA fM b x)) = q0 b x) by (unfold p_start, res_form; cbn [pb_z pb_r]; now rewrite residual_start).
  cbv beta in Eq0. rewrite Er in Eq. rewrite Et, Eq0 in Eq, Eq'. destruct (slt (q0 b x) (tolerance par (q0 b x))) eqn:Es.
  - injection Eq as -> -> -> ->. lia.
  - symmetry in Eq.
    assert (Hr0 : pb_r (p_start fA fM b x) = residual mA n b x) by (cbn [p_start pb_r]; now apply residual_start).
    destruct (loop_smaller b par _ c _ (Z.to_nat (sp_max (limited par c))) 1 w1 w1' _ _ w' u' x' k Hw1 Hw1'
                (p_start_lens I A M n fA fM E1 E2 H HM w b x Hw Hb Hx) Hr0 Eq ltac:(lia) ltac:(cbn [sp_max]; lia)) as (w2 & u2 & x2 & E & Hs).
    exists w2, u2, x2. split; [now rewrite Eq'|]. split; [exact Hs|]. unfold passes_made, passes.
    change (tolerance (limited par c)) with (tolerance par). now rewrite Es, Hs.
Qed.

Lemma pcg_at_once par w u b x w' u' x' k : I w -> zlen b = n -> zlen x = n ->
  pcg_mult A M l_inner par w u b x = Ok (w', u', x', k) -> slt (q0 b x) (tolerance par (q0 b x)) = true -> x' = x.
Proof.
  intros Hw Hb Hx Er Hs. pose proof HA as (E1 & E2 & H).
  destruct (pcg_mult_case I A M l_inner n fA fM d E1 E2 H HM (l_inner_gives R n) par w u b x Hw Hb Hx) as (w1 & Hw1 & Eq).
  assert (Et : p_tol fA fM d par b x = tolerance par (q0 b x)) by (unfold p_tol, p_start, res_form; cbn [pb_z pb_r]; now rewrite residual_start).
  assert (Eq0 : d (pb_z (p_start fA fM b x)) (pb_r (p_start fA fM b x)) = q0 b x) by (unfold p_start, res_form; cbn [pb_z pb_r]; now rewrite residual_start).
  cbv beta in Eq0. rewrite Er, Et, Eq0, Hs in Eq. now injection Eq as -> -> -> ->.
Qed.

Lemma pcg_unstopped par w u b x w' u' x' k : I w -> zlen b = n -> zlen x = n ->
  pcg_mult A M l_inner par w u b x = Ok (w', u', x', k) -> slt (q0 b x') (tolerance par (q0 b x)) = false ->
  sp_max par - 1 <= passes_made mA mM n par b x x' k.
Proof.
  intros Hw Hb Hx Er Hs. pose proof HA as (E1 & E2 & H).
  destruct (slt (q0 b x) (tolerance par (q0 b x))) eqn:E0; [rewrite (pcg_at_once par w u b x w' u' x' k Hw Hb Hx Er E0) in Hs; congruence|].
  destruct (pcg_residual I A M l_inner n mA fM d HA HM (l_inner_gives R n) R par w u b x w' u' x' k Hw Hb Hx Er) as (_ & _ & _ & _ & Hk & Hc).
  unfold passes_made, passes. rewrite E0, Hs.
  destruct (Z.lt_ge_cases k (Z.max 2 (sp_max par))) as [Hlt|]; [|lia]. specialize (Hc Hlt). unfold res_form in Hs. cbv beta in Hc. congruence.
Qed.

End Smaller.

(* ---------------------------------------------------------------- PCG *)

Section BoundR.
Local Open Scope R_scope.

Lemma slt_R (a b : R) : slt (s := Rs) a b = true <-> a < b.
Proof. cbn. destruct (Rlt_dec a b); split; intros H; auto; discriminate. Qed.

Lemma tol_ge (par : sparams Rs) (q : R) : q * sp_rel par * sp_rel par <= tolerance (S := Rs) par q.
Proof.
  unfold tolerance, larger. destruct (slt (s := Rs) _ _) eqn:E.
  - apply slt_R in E. cbn in *. lra.
  - cbn. lra.
Qed.

Context {W : Type} (I : W -> Prop).

(** the residual form is between lo and hi times the energy of the error *)
Lemma form_energy n (mA mM : mat Rs) (b x : list R) (y : vect Rs) lo hi :
  (forall i, (0 <= i < n)%Z -> mat_vec mA n y i = vec_of (S := Rs) b i) -> prec_eigenvalues_in mA mM n lo hi ->
  lo * energy_dist mA n (vec_of (S := Rs) x) y <= res_form mA mM n b x <= hi * energy_dist mA n (vec_of (S := Rs) x) y.
Proof.
  intros Hy He. unfold energy_dist. set (e := fun i => (vec_of (S := Rs) x i - y i)%S). destruct (He e) as (H1 & H2). apply Rle_sle in H1, H2.
  assert (Er : forall i, (0 <= i < n)%Z -> vec_of (S := Rs) (residual mA n b x) i = (0 + (-1) * mat_vec (S := Rs) mA n e i)%R).
  { intros i Hi. rewrite residual_at by exact Hi. rewrite <- (Hy i Hi).
    assert (Ee : mat_vec (S := Rs) mA n e i = (mat_vec (S := Rs) mA n (vec_of (S := Rs) x) i + (-1) * mat_vec (S := Rs) mA n y i)%R).
    { rewrite <- (mat_vec_axpy (S := Rs) (field_ring Rs Rs_field)). apply mat_vec_ext; [reflexivity|]. intros j _. unfold e. cbn. lra. }
    rewrite Ee. cbn. lra. }
  assert (Eq : res_form (S := Rs) mA mM n b x = inner (S := Rs) n (mat_vec mA n e) (mat_vec mM n (mat_vec mA n e))).
  { unfold res_form, inner. apply sum_range_ext. intros i Hi. rewrite mat_list_at by exact Hi. rewrite (Er i Hi).
    assert (Em : mat_vec (S := Rs) mM n (vec_of (S := Rs) (residual mA n b x)) i = (0 + (-1) * mat_vec (S := Rs) mM n (mat_vec mA n e) i)%R).
    { transitivity (mat_vec (S := Rs) mM n (fun _ => 0) i + (-1) * mat_vec (S := Rs) mM n (mat_vec mA n e) i)%R;
        [|f_equal; apply (mat_vec_0 (S := Rs) (field_ring Rs Rs_field)); reflexivity].
      rewrite <- (mat_vec_axpy (S := Rs) (field_ring Rs Rs_field)). apply mat_vec_ext; [reflexivity|]. intros j Hj. exact (Er j Hj). }
    rewrite Em. cbn. ring. }
  rewrite Eq. split; [exact H1|exact H2].
Qed.

Lemma pow_le_1 z (i j : nat) : 0 <= z <= 1 -> (i <= j)%nat -> z ^ j <= z ^ i.
Proof.
  intros Hz H. replace j with (i + (j - i))%nat by lia. rewrite pow_add.
  assert (H1 : z ^ (j - i) <= 1) by (rewrite <- (pow1 (j - i)); apply pow_incr; lra).
  assert (H0 : 0 <= z ^ i) by (apply pow_le; lra). nra.
Qed.

(** a run with m passes or more is good enough *)
Lemma pcg_enough (A : op Rs W) (M : option (op Rs W)) n (mA mM : mat Rs) : acts_as I A n mA -> prec_applies I M n (mat_list mM n) ->
  mat_sym n mA -> mat_pos_def n mA -> mat_sym n mM ->
  forall (b x : list R) (par : sparams Rs) (w : W) (u : pbuf Rs) (w' : W) (u' : pbuf Rs) (x' : list R) (k : Z) (y : vect Rs) (lo hi : R) (m : nat),
  I w -> zlen b = n -> zlen x = n -> slt (s := Rs) 0 (tolerance par (res_form mA mM n b x)) = true ->
  pcg_mult A M l_inner par w u b x = Ok (w', u', x', k) ->
  (forall i, (0 <= i < n)%Z -> mat_vec mA n y i = vec_of (S := Rs) b i) ->
  0 < lo < hi -> prec_eigenvalues_in mA mM n lo hi ->
  4 * (hi / lo) * ((sqrt hi - sqrt lo) / (sqrt hi + sqrt lo)) ^ (2 * m) < sp_rel par * sp_rel par ->
  (Z.of_nat m <= passes_made mA mM n par b x x' k)%Z ->
  slt (s := Rs) (res_form mA mM n b x') (tolerance par (res_form mA mM n b x)) = true.
Proof.
  intros HA HM As Ap Ms b x par w u w' u' x' k y lo hi m Hw Hb Hx Ht Er Hy Hl He Hm Hp.
  pose proof (pcg_rate_R I A M n mA mM HA HM As Ap Ms b x par w u w' u' x' k y lo hi Hw Hb Hx Ht Er Hy Hl He) as Hr.
  destruct (form_energy n mA mM b x y lo hi Hy He) as (Hx1 & _). destruct (form_energy n mA mM b x' y lo hi Hy He) as (_ & Hx2).
  assert (H0 : 0 <= energy_dist (S := Rs) mA n (vec_of (S := Rs) x) y) by (apply (Rle_sle 0), (form_nn Rs_field Rs_eqb Rs_order n mA _ Ap)).
  assert (Hq : 0 < sqrt lo < sqrt hi) by (split; [apply sqrt_lt_R0|apply sqrt_lt_1]; lra).
  set (z := (sqrt hi - sqrt lo) / (sqrt hi + sqrt lo)) in *.
  assert (Hz : 0 <= z <= 1).
  { unfold z. split; [apply Rlt_le, Rdiv_lt_0_compat; lra|]. apply (Rmult_le_reg_r (sqrt hi + sqrt lo)); [lra|]. unfold Rdiv. rewrite Rmult_assoc, Rinv_l; lra. }
  assert (Hpow : z ^ (2 * Z.to_nat (passes_made mA mM n par b x x' k)) <= z ^ (2 * m)) by (apply pow_le_1; [exact Hz|lia]).
  set (t := z ^ (2 * m)) in *. set (t' := z ^ (2 * Z.to_nat _)) in *.
  assert (H0t : 0 <= t) by (apply pow_le; lra).
  apply slt_R in Ht. apply slt_R.
  pose proof (tol_ge par (res_form (S := Rs) mA mM n b x)) as Hg.
  set (tol := tolerance _ _) in *. set (e := energy_dist (S := Rs) mA n (vec_of (S := Rs) x) y) in *.
  set (e' := energy_dist (S := Rs) mA n (vec_of (S := Rs) x') y) in *.
  set (f := res_form (S := Rs) mA mM n b x) in *. set (f' := res_form (S := Rs) mA mM n b x') in *. set (rr := sp_rel par) in *. change (car Rs) with R in *. clearbody tol e e' f f' rr t t'.
  assert (He' : e' <= 4 * t * e) by nra.
  assert (Hc : 4 * (hi / lo) * t * f < rr * rr * f \/ f = 0).
  { assert (0 <= f) by nra. destruct (Req_dec f 0); [now right|left]. apply Rmult_lt_compat_r; lra. }
  assert (Hf : f' <= 4 * (hi / lo) * t * f).
  { apply (Rle_trans _ (hi * (4 * t * e))); [nra|]. replace (hi * (4 * t * e)) with (4 * (hi / lo) * t * (lo * e)) by (field; lra).
    apply Rmult_le_compat_l; [|exact Hx1]. assert (0 < hi / lo) by (apply Rdiv_lt_0_compat; lra). nra. }
  destruct Hc as [Hc|Hc]; [nra|]. rewrite Hc in Hf. lra.
Qed.

Lemma pcg_bound (A : op Rs W) (M : option (op Rs W)) n (mA mM : mat Rs) : acts_as I A n mA -> prec_applies I M n (mat_list mM n) ->
  mat_sym n mA -> mat_pos_def n mA -> mat_sym n mM ->
  forall (b x : list R) (par : sparams Rs) (w : W) (u : pbuf Rs) (w' : W) (u' : pbuf Rs) (x' : list R) (k : Z) (y : vect Rs) (lo hi : R) (m : nat),
  I w -> zlen b = n -> zlen x = n -> slt (s := Rs) 0 (tolerance par (res_form mA mM n b x)) = true ->
  pcg_mult A M l_inner par w u b x = Ok (w', u', x', k) ->
  (forall i, (0 <= i < n)%Z -> mat_vec mA n y i = vec_of (S := Rs) b i) ->
  0 < lo < hi -> prec_eigenvalues_in mA mM n lo hi -> (1 <= m)%nat ->
  4 * (hi / lo) * ((sqrt hi - sqrt lo) / (sqrt hi + sqrt lo)) ^ (2 * m) < sp_rel par * sp_rel par ->
  (passes_made mA mM n par b x x' k <= Z.of_nat m)%Z /\
  ((Z.of_nat m < sp_max par)%Z -> slt (s := Rs) (res_form mA mM n b x') (tolerance par (res_form mA mM n b x)) = true).
Proof.
  intros HA HM As Ap Ms b x par w u w' u' x' k y lo hi m Hw Hb Hx Ht Er Hy Hl He Hm1 Hm.
  assert (Hp : (passes_made mA mM n par b x x' k <= Z.of_nat m)%Z).
  { destruct (Z.le_gt_cases (passes_made mA mM n par b x x' k) (Z.of_nat m)) as [|Hgt]; [assumption|]. exfalso.
    assert (Hk : (2 <= Z.of_nat m + 1 <= k)%Z) by (unfold passes_made, passes in Hgt; destruct (slt _ _) in Hgt; [lia|]; destruct (slt _ _) in Hgt; lia).
    destruct (pcg_smaller (field_ring Rs Rs_field) I A M n mA mM HA HM par (Z.of_nat m + 1) w u b x w' u' x' k Hw Hb Hx Er Hk) as (w2 & u2 & x2 & E2 & Hs & Hpm).
    pose proof (pcg_enough A M n mA mM HA HM As Ap Ms b x (limited par (Z.of_nat m + 1)%Z) w u w2 u2 x2 _ y lo hi m Hw Hb Hx Ht E2 Hy Hl He Hm ltac:(rewrite Hpm; lia)) as H.
    change (tolerance (limited par (Z.of_nat m + 1)%Z)) with (tolerance (S := Rs) par) in H. congruence. }
  split; [exact Hp|]. intros Hmax.
  destruct (slt (s := Rs) (res_form mA mM n b x') (tolerance par (res_form mA mM n b x))) eqn:Es; [reflexivity|].
  rewrite <- Es. apply (pcg_enough A M n mA mM HA HM As Ap Ms b x par w u w' u' x' k y lo hi m Hw Hb Hx Ht Er Hy Hl He Hm).
  pose proof (pcg_unstopped (field_ring Rs Rs_field) I A M n mA mM HA HM par w u b x w' u' x' k Hw Hb Hx Er Es). lia.
Qed.

End BoundR.

(* ---------------------------------------------------------------- MINRES and PMINRES *)

Section Early.
Context {S : scalar}.
Notation T := (car S).
Context (F : field_laws S) (E : eqb_laws S) (O : order_laws S) (OS : sum_order_laws S) (OP : prod_order_laws S).
Local Open Scope S_scope.

Context (n : Z) (mA mM : mat S) (root : T -> T) (b x0 : list T).
Context (Asym : mat_sym n mA) (Msym : mat_sym n mM) (Mpos : mat_pos_def n mM).
Context (Anons : mat_nonsingular n mA) (Hroot : root_laws root).

Notation d := (fun x y : list T => inner n (vec_of x) (vec_of y)).
Notation fA := (mat_list mA n).
Notation fM := (mat_list mM n).
Notation start := (m_start fA fM d root n b x0).

Context {W : Type} (I : W -> Prop) (K : mbuf S -> mst (S := S) -> Prop) (step : T -> mstep (S := S) (W := W)).

(** after j passes of a run that went on, the residual was least and not below the tolerance *)
Definition unfinished (tol : T) (j : nat) : Prop :=
  exists xj ej, MFin n mA mM b x0 j xj /\ ej * ej = ip n mM (vec_of (residual mA n b xj)) (vec_of (residual mA n b xj)) /\ slt (sabs ej) tol = false.

Lemma loop_early tol stp max : step_ok I n fA fM d root K stp tol ->
  forall left w u s e0 hist tp tpp w' u' l' x' k, I w -> mlens n s -> K u s -> Minv n mA mM b e0 hist tp tpp s -> Oinv n mA mM b x0 hist tp s ->
  mloop left stp max (Z.of_nat (length hist) + 1) w u (a_l s) (a_x s) = Ok (w', u', l', x', k) ->
  forall j, (length hist < j)%nat -> (Z.of_nat j < k)%Z -> unfinished tol j.
Proof.
  intros Hstep. induction left as [|left IH]; intros w u s e0 hist tp tpp w' u' l' x' k Hw Hl HK HI HO Er j Hj Hjk; cbn [mloop] in Er.
  - destruct (Z.leb_spec (Z.of_nat (length hist) + 1) max); [discriminate|]. injection Er as <- <- <- <- <-. lia.
  - destruct (Z.leb_spec (Z.of_nat (length hist) + 1) max) as [Hle|Hgt]; [|injection Er as <- <- <- <- <-; lia].
    pose proof (Hstep w u s Hw Hl HK) as H. destruct (seqb (m_beta (a_l s)) s0) eqn:Eb; [rewrite H in Er; discriminate|].
    destruct H as (Hl' & w1 & u1 & Es & Hw1 & _ & HK'). rewrite Es in Er. cbn [bind] in Er.
    pose proof (beta_dec E s Eb) as Hb.
    pose proof (Minv_next F E O OS OP n mA mM root b Asym Msym Mpos Anons Hroot e0 hist tp tpp s Hl HI Hb) as HI'.
    pose proof (Oinv_next F E O OS OP n mA mM root b x0 Asym Msym Mpos Anons Hroot e0 hist tp tpp s Hl HI HO Hb) as HO'.
    destruct (m_stop n fA fM d root s tol) eqn:Est; [injection Er as <- <- <- <- <-; lia|].
    destruct (Nat.eq_dec j (Datatypes.S (length hist))) as [->|Hne].
    + exists (a_x (m_next n fA fM d root s)), (m_eta (a_l (m_next n fA fM d root s))). split; [exact (Oinv_fin F n mA mM b x0 Asym Msym _ _ _ HO')|].
      split; [exact (mi_eta _ _ _ _ _ _ _ _ _ HI')|exact Est].
    + apply (IH w1 u1 (m_next n fA fM d root s) _ (vec_of (n_v s) :: hist) (tt_ tp s) tp w' u' l' x' k Hw1 Hl' (HK' eq_refl) HI' HO'); [|cbn [length]; lia|exact Hjk].
      rewrite <- Er. cbn [length]. replace (Z.of_nat (Datatypes.S (length hist)) + 1)%Z with (Z.of_nat (length hist) + 1 + 1)%Z by lia. reflexivity.
Qed.

Lemma run_early par run w' u' l' x' k : mult_is_loop I n fA fM d root K step par start run ->
  zlen b = n -> zlen x0 = n -> run = Ok (w', u', l', x', k) ->
  exists e0, norm_of n mM (residual mA n b x0) e0 /\ forall j, (1 <= j)%nat -> (Z.of_nat j < k)%Z -> unfinished (tolerance par e0) j.
Proof.
  intros (Hstep & Hl & w & u & Hw & _ & HK & ->) Hb Hx Er.
  exists (m_beta (a_l start)). split; [exact (start_norm F E O n mA mM root b Msym Mpos Hroot x0 Hb Hx)|]. intros j Hj Hjk.
  exact (loop_early _ _ _ Hstep (Z.to_nat (sp_max par)) w u start _ [] _ _ w' u' l' x' k Hw Hl HK
           (Minv_start F E O n mA mM root b Msym Mpos Hroot x0 Hb Hx) (Oinv_start F n mA mM root b x0 Msym Hb Hx) Er j Hj Hjk).
Qed.

Lemma unfinished_least tol j : unfinished tol j ->
  exists xj ej, least_residual mA mM n b x0 xj (Z.of_nat j) /\ ej * ej = res_sq mA mM n b (vec_of xj) /\ slt (sabs ej) tol = false.
Proof.
  intros (xj & ej & Hf & He & Ht). exists xj, ej.
  split; [|split; [|exact Ht]].
  - split.
    + destruct Hf as ((c & Hc & Ec) & _). exists c. split; [unfold zlen; now rewrite Hc|]. intros i Hi. rewrite <- (Ec i Hi).
      pose proof (field_ring S F) as Rg. rewrite (Radd_comm Rg), (Rsub_def Rg), <- (Radd_assoc Rg), (Radd_comm Rg (- vec_of x0 i)), (Ropp_def Rg). rewrite (Radd_comm Rg). symmetry. apply (Radd_0_l Rg).
    + intros c Hc. apply (MFin_best F E O OS n mA mM b x0 Asym Msym Mpos j xj c Hf). unfold zlen in Hc. lia.
  - rewrite He. unfold res_sq. apply inner_ext; intros i Hi; [now apply residual_at|]. apply mat_vec_ext; [reflexivity|]. intros m Hm. now apply residual_at.
Qed.

End Early.

Section MinresBoundR.
Local Open Scope R_scope.
Context {W : Type} (I : W -> Prop).

(** what is least after 2 q passes is below the tolerance *)
Lemma least_enough n (mA mM : mat Rs) : mat_sym n mA -> mat_sym n mM -> mat_pos_def n mM ->
  forall (par : sparams Rs) (b x : list R) (y : vect Rs) (lo hi : R) (q : nat) (e0 : R),
  (forall i, (0 <= i < n)%Z -> mat_vec mA n y i = vec_of (S := Rs) b i) -> 0 < lo < hi -> magnitudes_in mA mM n lo hi ->
  norm_of (S := Rs) n mM (residual mA n b x) e0 -> slt (s := Rs) 0 (tolerance par e0) = true ->
  2 * ((hi - lo) / (hi + lo)) ^ q < sp_rel par * sp_rel par ->
  ~ unfinished n mA mM b x (tolerance par e0) (2 * q).
Proof.
  intros As Ms Mp par b x y lo hi q e0 Hy Hl He (Hn0 & Hn) Ht Hq Hu.
  destruct (unfinished_least Rs_field Rs_eqb Rs_order Rs_sum_order n mA mM b x As Ms Mp _ _ Hu) as (xj & ej & Hlr & Hej & Hs).
  pose proof (least_rate_R n mA mM As Ms Mp b x xj _ y lo hi q Hlr Hy Hl He ltac:(lia)) as Hr.
  assert (Hx0 : res_sq (S := Rs) mA mM n b (vec_of (S := Rs) x) = e0 * e0).
  { symmetry. etransitivity; [exact Hn|]. unfold res_sq. apply inner_ext; intros i Hi; [now apply residual_at|]. apply mat_vec_ext; [reflexivity|]. intros m Hm. now apply residual_at. }
  rewrite <- Hej, Hx0 in Hr. apply Rle_sle in Hn0. apply slt_R in Ht. pose proof (tol_ge par e0) as Hg.
  assert (Hs' : ~ Rabs ej < tolerance (S := Rs) par e0).
  { intros Hlt. apply slt_R in Hlt. change (sabs ej) with (Rabs ej) in Hs. congruence. }
  apply Hs'. clear Hs'. replace (2 * q)%nat with (q + q)%nat in Hr by lia. rewrite pow_add in Hr.
  set (z := (hi - lo) / (hi + lo)) in *. assert (Hz : 0 <= z ^ q) by (apply pow_le, Rlt_le, Rdiv_lt_0_compat; lra).
  set (t := z ^ q) in *. set (tol := tolerance _ _) in *. cbn in Hr, Hn0. set (rr := sp_rel par) in *. change (car Rs) with R in *. clearbody t tol rr.
  assert (Ha : Rabs ej <= 2 * t * e0).
  { rewrite <- (Rabs_pos_eq (2 * t * e0)) by nra. apply Rsqr_le_abs_0. unfold Rsqr. nra. }
  destruct (Req_dec e0 0) as [E0|E0]; [rewrite E0 in Ha; lra|]. assert (0 < e0) by lra.
  assert (2 * t * e0 < rr * rr * e0) by (apply Rmult_lt_compat_r; lra). nra.
Qed.

Lemma minres_bound (A : op Rs W) n mA : acts_as I A n mA -> mat_sym n mA -> mat_nonsingular n mA ->
  forall (par : sparams Rs) (w : W) (u : mbuf Rs) (b x : list R) (w' : W) (u' : mbuf Rs) (l' : mloc Rs) (x' : list R) (k : Z)
         (y : vect Rs) (lo hi : R) (q : nat),
  minres_state (S := Rs) I sqrt A l_inner par n w u -> zlen b = n -> zlen x = n -> minres_mult (S := Rs) sqrt A l_inner par w u b x = Ok (w', u', l', x', k) ->
  (forall e, norm_of (S := Rs) n id_mat (residual mA n b x) e -> slt (s := Rs) 0 (tolerance par e) = true) ->
  (forall i, (0 <= i < n)%Z -> mat_vec mA n y i = vec_of (S := Rs) b i) -> 0 < lo < hi -> magnitudes_in mA id_mat n lo hi ->
  (1 <= q)%nat -> 2 * ((hi - lo) / (hi + lo)) ^ q < sp_rel par * sp_rel par ->
  (k <= 2 * Z.of_nat q)%Z.
Proof.
  intros HA As An par w u b x w' u' l' x' k y lo hi q Hst Hb Hx Er Ht Hy Hl He Hq1 Hq.
  destruct (minres_state_ok Rs_field I A n mA HA sqrt par w u Hst) as (Hw & Hu & Hm). pose proof HA as (E1 & E2 & H).
  pose proof (minres_mult_loop I A l_inner n (mat_list mA n) (mat_list id_mat n) _ sqrt E1 E2 H (l_inner_gives (field_ring Rs Rs_field) n) par w u b x
                (idm_list Rs_field n) Hw Hu Hb Hx) as HL.
  pose proof (idm_pos Rs_field Rs_order Rs_sum_order Rs_prod_order n) as Ip. pose proof (idm_sym (S := Rs) n) as Is.
  destruct (run_early Rs_field Rs_eqb Rs_order Rs_sum_order Rs_prod_order n mA id_mat sqrt b x As Is Ip An Rs_root I _ _ par _ w' u' l' x' k HL Hb Hx Er) as (e0 & Hn & Hun).
  destruct (Z.le_gt_cases k (2 * Z.of_nat q)) as [|Hgt]; [assumption|]. exfalso.
  apply (least_enough n mA id_mat As Is Ip par b x y lo hi q e0 Hy Hl He Hn (Ht e0 Hn) Hq). apply Hun; lia.
Qed.

Lemma pminres_bound (A : op Rs W) n mA : acts_as I A n mA -> mat_sym n mA -> mat_nonsingular n mA ->
  forall (M : op Rs W) (mM : mat Rs) (par : sparams Rs) (w : W) (u : mbuf Rs) (b x : list R) (w' : W) (u' : mbuf Rs) (l' : mloc Rs) (x' : list R) (k : Z)
         (y : vect Rs) (lo hi : R) (q : nat),
  acts_as I M n mM -> mat_sym n mM -> mat_pos_def n mM ->
  pminres_state (S := Rs) I sqrt A M l_inner par n w u -> zlen b = n -> zlen x = n -> pminres_mult (S := Rs) sqrt A M l_inner par w u b x = Ok (w', u', l', x', k) ->
  (forall e, norm_of (S := Rs) n mM (residual mA n b x) e -> slt (s := Rs) 0 (tolerance par e) = true) ->
  (forall i, (0 <= i < n)%Z -> mat_vec mA n y i = vec_of (S := Rs) b i) -> 0 < lo < hi -> magnitudes_in mA mM n lo hi ->
  (1 <= q)%nat -> 2 * ((hi - lo) / (hi + lo)) ^ q < sp_rel par * sp_rel par ->
  (k <= 2 * Z.of_nat q)%Z.
Proof.
  intros HA As An M mM par w u b x w' u' l' x' k y lo hi q (HrM & HcM & HM) Ms Mp Hst Hb Hx Er Ht Hy Hl He Hq1 Hq.
  destruct (pminres_state_ok Rs_field I A n mA HA sqrt M _ par w u HrM HcM HM Hst) as (Hw & Hu & Hm). pose proof HA as (E1 & E2 & H).
  pose proof (pminres_mult_loop I A l_inner n (mat_list mA n) (mat_list mM n) _ sqrt E1 E2 H (l_inner_gives (field_ring Rs Rs_field) n) M par w u b x HrM HcM HM Hw Hu Hb Hx) as HL.
  destruct (run_early Rs_field Rs_eqb Rs_order Rs_sum_order Rs_prod_order n mA mM sqrt b x As Ms Mp An Rs_root I _ _ par _ w' u' l' x' k HL Hb Hx Er) as (e0 & Hn & Hun).
  destruct (Z.le_gt_cases k (2 * Z.of_nat q)) as [|Hgt]; [assumption|]. exfalso.
  apply (least_enough n mA mM As Ms Mp par b x y lo hi q e0 Hy Hl He Hn (Ht e0 Hn) Hq). apply Hun; lia.
Qed.

End MinresBoundR.

(** below the limit, the tolerance is met *)
Lemma minres_bound_met {W : Type} (I : W -> Prop) (A : op Rs W) n mA : acts_as I A n mA -> mat_sym n mA -> mat_nonsingular n mA ->
  forall (par : sparams Rs) (w : W) (u : mbuf Rs) (b x : list R) (w' : W) (u' : mbuf Rs) (l' : mloc Rs) (x' : list R) (k : Z)
         (y : vect Rs) (lo hi : R) (q : nat),
  minres_state (S := Rs) I sqrt A l_inner par n w u -> zlen b = n -> zlen x = n -> minres_mult (S := Rs) sqrt A l_inner par w u b x = Ok (w', u', l', x', k) ->
  (forall e, norm_of (S := Rs) n id_mat (residual mA n b x) e -> slt (s := Rs) 0%R (tolerance par e) = true) ->
  (forall i, 0 <= i < n -> mat_vec mA n y i = vec_of (S := Rs) b i) -> (0 < lo < hi)%R -> magnitudes_in mA id_mat n lo hi ->
  (1 <= q)%nat -> (2 * ((hi - lo) / (hi + lo)) ^ q < sp_rel par * sp_rel par)%R ->
  k <= 2 * Z.of_nat q /\
  (2 * Z.of_nat q <= sp_max par -> exists e0 e : R, norm_of (S := Rs) n id_mat (residual mA n b x) e0 /\ norm_of (S := Rs) n id_mat (residual mA n b x') e /\
     slt (s := Rs) e (tolerance par e0) = true).
Proof.
  intros HA As An par w u b x w' u' l' x' k y lo hi q Hst Hb Hx Er Ht Hy Hl He Hq1 Hq.
  pose proof (minres_bound I A n mA HA As An par w u b x w' u' l' x' k y lo hi q Hst Hb Hx Er Ht Hy Hl He Hq1 Hq) as Hk.
  split; [exact Hk|]. intros Hm.
  destruct (minres_residual Rs_field Rs_eqb Rs_order Rs_sum_order Rs_prod_order Rs_abs Rs_abs_square I A n mA HA As sqrt An Rs_root par w u b x w' u' l' x' k Hst Hb Hx Er)
    as (_ & e0 & e & H0 & H1 & _ & _ & H2).
  exists e0, e. split; [exact H0|]. split; [exact H1|]. apply H2. lia.
Qed.

Lemma pminres_bound_met {W : Type} (I : W -> Prop) (A : op Rs W) n mA : acts_as I A n mA -> mat_sym n mA -> mat_nonsingular n mA ->
  forall (M : op Rs W) (mM : mat Rs) (par : sparams Rs) (w : W) (u : mbuf Rs) (b x : list R) (w' : W) (u' : mbuf Rs) (l' : mloc Rs) (x' : list R) (k : Z)
         (y : vect Rs) (lo hi : R) (q : nat),
  acts_as I M n mM -> mat_sym n mM -> mat_pos_def n mM ->
  pminres_state (S := Rs) I sqrt A M l_inner par n w u -> zlen b = n -> zlen x = n -> pminres_mult (S := Rs) sqrt A M l_inner par w u b x = Ok (w', u', l', x', k) ->
  (forall e, norm_of (S := Rs) n mM (residual mA n b x) e -> slt (s := Rs) 0%R (tolerance par e) = true) ->
  (forall i, 0 <= i < n -> mat_vec mA n y i = vec_of (S := Rs) b i) -> (0 < lo < hi)%R -> magnitudes_in mA mM n lo hi ->
  (1 <= q)%nat -> (2 * ((hi - lo) / (hi + lo)) ^ q < sp_rel par * sp_rel par)%R ->
  k <= 2 * Z.of_nat q /\
  (2 * Z.of_nat q <= sp_max par -> exists e0 e : R, norm_of (S := Rs) n mM (residual mA n b x) e0 /\ norm_of (S := Rs) n mM (residual mA n b x') e /\
     slt (s := Rs) e (tolerance par e0) = true).
Proof.
  intros HA As An M mM par w u b x w' u' l' x' k y lo hi q HM Ms Mp Hst Hb Hx Er Ht Hy Hl He Hq1 Hq.
  pose proof (pminres_bound I A n mA HA As An M mM par w u b x w' u' l' x' k y lo hi q HM Ms Mp Hst Hb Hx Er Ht Hy Hl He Hq1 Hq) as Hk.
  split; [exact Hk|]. intros Hm.
  destruct (pminres_residual Rs_field Rs_eqb Rs_order Rs_sum_order Rs_prod_order Rs_abs Rs_abs_square I A n mA HA As sqrt An Rs_root M mM par w u b x w' u' l' x' k HM Ms Mp Hst Hb Hx Er)
    as (_ & e0 & e & H0 & H1 & _ & _ & H2).
  exists e0, e. split; [exact H0|]. split; [exact H1|]. apply H2. lia.
Qed.
