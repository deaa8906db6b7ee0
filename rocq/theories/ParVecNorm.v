(** Normalize and SubAvg of distributed vectors, and refused sizes. *)

From Coq Require Import ZArith List Bool Lia Ring Field_theory.
From Verif Require Import Base Scalar Spec SumFacts LoopFacts Vec VecSpec VecProofs VecNum VecLinks Block Solver SolverSpec SolverEnergy KrylovFacts BasicsSpec PowerProofs Par ParSpec ParProofs ParMatvecProofs ParVecProofs ParVec ParVecSpec ParVecMore.
From Verif Require LapProofs.
Import ListNotations.
Open Scope Z_scope.

Section Sizes.
Context {S : scalar}.
Notation T := (car S).

Lemma ranks_refused {A B} (ws : list A) (f : A -> res B) : (forall w, In w ws -> (exists b, f w = Ok b) \/ f w = Fail FAssert) ->
  (exists w, In w ws /\ f w = Fail FAssert) -> ranks (zlen ws) (fun r => w <- get ws r ;; f w) = Fail FAssert.
Proof.
  intros H (w & I & Hw). apply ranks_fail.
  - intros r Hr. rewrite (get_ok w) by exact Hr. cbn [bind]. apply H. now apply zn_In.
  - destruct (In_zn w _ _ I) as (r & Hr & E). exists r. split; [exact Hr|]. rewrite (get_ok w) by exact Hr. cbn [bind]. now rewrite E.
Qed.

Lemma pv_ops_refused (ws : list (heap S * view * view)) :
  (forall h x y, In (h, x, y) ws -> (view_ok h x /\ view_ok h y /\ ~ reads_behind x y) \/ v_len y <> v_len x) ->
  (exists h x y, In (h, x, y) ws /\ v_len y <> v_len x) ->
  pv_add ws = Fail FAssert /\ pv_sub ws = Fail FAssert /\ pv_mul ws = Fail FAssert.
Proof.
  intros H (h0 & x0 & y0 & I0 & N0).
  assert (G : forall (op : T -> T -> T) (h : heap S) x y, v_len y <> v_len x -> v_zip op h x y = Fail FAssert).
  { intros op h x y N. unfold v_zip. destruct (Z.eqb_spec (v_len x) (v_len y)) as [K|K]; [now symmetry in K|reflexivity]. }
  assert (V : forall h x y, In (h, x, y) ws -> v_len y <> v_len x \/
     ((exists h', v_add_view h x y = Ok h') /\ (exists h', v_sub_view h x y = Ok h') /\ (exists h', v_mul_view h x y = Ok h'))).
  { intros h x y I. destruct (H h x y I) as [(V1 & V2 & N)|N]; [|now left]. destruct (Z.eq_dec (v_len y) (v_len x)) as [E|E]; [right|now left].
    destruct (view_ops_write h x y V1 V2 E N) as ((a & A & _) & (b & B & _) & (c & C & _)). eauto 7. }
  split; [|split].
  - apply (ranks_refused ws (fun '(h, x, y) => v_add_view h x y)).
    + intros [[h x] y] I. destruct (V h x y I) as [K|K]; [right; now apply G|left; apply K].
    + exists (h0, x0, y0). split; [exact I0|now apply G].
  - apply (ranks_refused ws (fun '(h, x, y) => v_sub_view h x y)).
    + intros [[h x] y] I. destruct (V h x y I) as [K|K]; [right; now apply G|left; apply K].
    + exists (h0, x0, y0). split; [exact I0|now apply G].
  - apply (ranks_refused ws (fun '(h, x, y) => v_mul_view h x y)).
    + intros [[h x] y] I. destruct (V h x y I) as [K|K]; [right; now apply G|left; apply K].
    + exists (h0, x0, y0). split; [exact I0|now apply G].
Qed.
End Sizes.

Section Norm.
Context {S : scalar}.
Notation T := (car S).
Hypothesis F : field_laws S.
Hypothesis E : eqb_laws S.
Hypothesis O : order_laws S.
Hypothesis OS : sum_order_laws S.
Hypothesis OP : prod_order_laws S.
Context (root : T -> T) (RL : root_laws root).
Let R : ring_laws S := field_ring S F.
Let Rth : ring_theory (@s0 S) s1 sadd smul ssub sopp (@eq (car S)) := R.
Add Ring ParVecNormRing : Rth.

Lemma normalize_rank h x : view_ok h x -> nonzero_vec (v_len x) (vat h x) ->
  exists h', v_normalize root h x = Ok h' /\ writes h x (fun i => sdiv (vat h x i) (root (inner (v_len x) (vat h x) (vat h x)))) h' /\ inner (v_len x) (vat h' x) (vat h' x) = s1.
Proof.
  intros V N. pose proof (v_inner_ring R h x x V V eq_refl) as Hp.
  destruct (normalize_spec F E root h x _ V Hp) as (h' & A & B & C).
  - apply RL. apply (inner_nonneg F O OS OP).
  - now apply (nonzero_inner F O OS OP).
  - exists h'. split; [exact A|]. split; [exact B|]. assert (V' : view_ok h' x) by (destruct (B x V); assumption).
    rewrite (v_inner_ring R h' x x V' V' eq_refl) in C. congruence.
Qed.

Lemma normalize_zero h x : view_ok h x -> zero_vec (v_len x) (vat h x) -> v_normalize root h x = Fail FAssert.
Proof.
  intros V N. unfold v_normalize, v_l2norm. rewrite (v_inner_ring R h x x V V eq_refl). cbn [bind].
  assert (Hr : root (inner (v_len x) (vat h x) (vat h x)) = s0) by (apply (root_zero F E root RL); [apply (inner_nonneg F O OS OP)|now apply (inner_0_l R)]).
  rewrite Hr. unfold v_div_scalar. now rewrite (proj2 (E s0 s0) eq_refl).
Qed.

Lemma normalize_all_ok (ws : list (heap S * view)) : (forall h x, In (h, x) ws -> view_ok h x /\ nonzero_vec (v_len x) (vat h x)) ->
  exists hs, normalize_all root ws = Ok hs /\
    Forall2 (fun '(h, x) h' => writes h x (fun i => sdiv (vat h x i) (root (inner (v_len x) (vat h x) (vat h x)))) h') ws hs /\
    dot (dist_list (after ws hs)) (dist_list (after ws hs)) = of_int (zlen ws).
Proof.
  intros H. destruct (ranks_forall2 ws (fun '(h, x) => v_normalize root h x)
    (fun w h' => writes (fst w) (snd w) (fun i => sdiv (vat (fst w) (snd w) i) (root (inner (v_len (snd w)) (vat (fst w) (snd w)) (vat (fst w) (snd w))))) h' /\ inner (v_len (snd w)) (vat h' (snd w)) (vat h' (snd w)) = s1)) as (hs & A & P).
  { intros [h x] I. destruct (H h x I) as (V & N). destruct (normalize_rank h x V N) as (h' & G). now exists h'. }
  exists hs. split; [exact A|]. split; [clear - P; induction P as [|[h x] h' ws hs (P & _)]; constructor; assumption|].
  rewrite <- (twice_x (after ws hs)) at 1. rewrite <- (twice_y (after ws hs)) at 2. rewrite (dot_dist R).
  - rewrite map_map. clear - P R Rth. unfold after. induction P as [|[h x] h' ws hs (_ & P) _ IH]; [reflexivity|]. cbn [map combine twice fst snd] in *.
    match goal with |- sum_list (?a :: ?l) = _ => change (sum_list (a :: l)) with (sadd a (sum_list l)) end. rewrite P, IH, zlen_cons. rewrite (LapProofs.of_int_succ (S := S)) by apply zlen_nonneg. ring.
  - intros h x y I. apply in_map_iff in I. destruct I as ([h' x'] & Q & _). now injection Q as <- <- <-.
Qed.

Lemma normalize_all_zero (ws : list (heap S * view)) : (forall h x, In (h, x) ws -> view_ok h x) ->
  (exists h x, In (h, x) ws /\ zero_vec (v_len x) (vat h x)) -> normalize_all root ws = Fail FAssert.
Proof.
  intros V (h & x & I & Z). apply (ranks_refused ws (fun '(h, x) => v_normalize root h x)).
  - intros [h1 x1] I1. destruct (zero_or_not E (v_len x1) (vat h1 x1)) as [K|K]; [right; apply normalize_zero; auto|left].
    destruct (normalize_rank h1 x1 (V _ _ I1) K) as (h' & G & _). eauto.
  - exists (h, x). split; [exact I|]. apply normalize_zero; auto.
Qed.

Lemma sub_avg_zero red (ws : list (heap S * view)) : sums red -> ws <> [] -> (forall h x, In (h, x) ws -> view_ok h x) -> of_int (zlen (dist_list ws)) <> @s0 S ->
  exists hs, par_sub_avg red (zlen (dist_list ws)) ws = Ok hs /\ sum_list (dist_list (after ws hs)) = s0.
Proof.
  intros Hs N V Hn. destruct (sub_avg_list R red (zlen (dist_list ws)) ws Hs N V) as (hs & A & B). exists hs. split; [exact A|]. rewrite B.
  set (m := sdiv _ _). assert (G : forall l : list T, sum_list (map (fun a => ssub a m) l) = ssub (sum_list l) (smul (of_int (zlen l)) m)).
  { induction l as [|a l IH]; [change (s0 = ssub s0 (smul s0 m)); ring|]. cbn [map]. change (sum_list (ssub a m :: map (fun a0 => ssub a0 m) l)) with (sadd (ssub a m) (sum_list (map (fun a0 => ssub a0 m) l))).
    change (sum_list (a :: l)) with (sadd a (sum_list l)). rewrite IH, zlen_cons, (LapProofs.of_int_succ (S := S)) by apply zlen_nonneg. ring. }
  rewrite G. pose proof (div_mul F (sum_list (dist_list ws)) _ Hn) as D. fold m in D.
  transitivity (ssub (sum_list (dist_list ws)) (smul m (of_int (zlen (dist_list ws))))); [ring|]. rewrite D. ring.
Qed.
End Norm.
