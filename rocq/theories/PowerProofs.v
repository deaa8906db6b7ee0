(** The power iteration: which vectors it goes through. *)

From Coq Require Import ZArith List Bool Lia Ring Field_theory.
From Verif Require Import Base Scalar Spec LoopFacts SumFacts Sparse Vec Block Solver SolverSpec SolverProofs SolverEnergy KrylovFacts Basics BasicsSpec.
Import ListNotations.
Open Scope Z_scope.

Section PowerProofs.
Context {S : scalar}.
Notation T := (car S).
Context (F : field_laws S) (E : eqb_laws S) (O : order_laws S) (OS : sum_order_laws S) (OP : prod_order_laws S).
Let R : ring_laws S := field_ring S F.
Let Rth : ring_theory (@s0 S) s1 sadd smul ssub sopp (@eq (car S)) := R.
Add Ring PowerRing : Rth.
Local Open Scope S_scope.

Lemma div_unique (a b d : T) : b <> s0 -> d * b = a -> a / b = d.
Proof.
  intros Hb H. pose proof (div_mul F a b Hb) as H1. assert (H2 : (a / b - d) * b = s0) by (transitivity (a / b * b - d * b); [ring|rewrite H1, H; ring]).
  apply (mul_cancel F) in H2; [|exact Hb]. transitivity (a / b - d + d); [ring|]. rewrite H2. ring.
Qed.
Lemma mul_nonzero (a b : T) : a <> s0 -> b <> s0 -> a * b <> s0.
Proof. intros Ha Hb H. apply Ha. now apply (mul_cancel F a b). Qed.

Lemma zero_not_nonzero n (x : vect S) : zero_vec n x -> nonzero_vec n x -> False.
Proof. intros H (i & Hi & G). now apply G, H. Qed.

Lemma nonzero_inner n (x : vect S) : nonzero_vec n x -> inner n x x <> s0.
Proof. intros H E0. pose proof (inner_self_pos F O OS OP n x H) as P. rewrite E0, (slt_irrefl _ O) in P. discriminate. Qed.

Lemma inner_scaled n (x y p q : vect S) c d : (forall i, (0 <= i < n)%Z -> x i = c * p i) -> (forall i, (0 <= i < n)%Z -> y i = d * q i) -> inner n x y = c * d * inner n p q.
Proof.
  intros Hx Hy. unfold inner. rewrite <- (sum_range_scale R). apply sum_range_ext. intros i Hi. rewrite Hx, Hy by exact Hi. ring.
Qed.
Lemma mat_vec_scaled (A : mat S) n (x p : vect S) c i : (forall i, (0 <= i < n)%Z -> x i = c * p i) -> mat_vec A n x i = c * mat_vec A n p i.
Proof. intros Hx. unfold mat_vec. rewrite <- (sum_range_scale R). apply sum_range_ext. intros j Hj. rewrite Hx by exact Hj. ring. Qed.

Lemma rayleigh_scaled (A : mat S) n (x p : vect S) c : c <> s0 -> nonzero_vec n p -> (forall i, (0 <= i < n)%Z -> x i = c * p i) -> rayleigh A n x = rayleigh A n p.
Proof.
  intros Hc Hp Hx. unfold rayleigh. pose proof (nonzero_inner n p Hp) as Hpp.
  rewrite (inner_scaled n x x p p c c Hx Hx), (inner_scaled n (mat_vec A n x) x (mat_vec A n p) p c c) by (auto; intros i Hi; now apply mat_vec_scaled).
  apply div_unique; [apply mul_nonzero; [apply mul_nonzero; exact Hc|exact Hpp]|].
  transitivity (c * c * (inner n (mat_vec A n p) p / inner n p p * inner n p p)); [ring|]. now rewrite (div_mul F).
Qed.

Lemma pow_vec_S (A : mat S) n k x : pow_vec A n (Datatypes.S k) x = mat_vec A n (pow_vec A n k x).
Proof. reflexivity. Qed.

(* ---------------------------------------------------------------- the loop *)

Context (root : T -> T) (RL : root_laws root).

Lemma root_zero (a : T) : sle s0 a -> (root a = s0 <-> a = s0).
Proof.
  intros Ha. destruct (RL a Ha) as (_ & H). split; intros H0.
  - rewrite <- H, H0. ring.
  - rewrite H0 in H. rewrite H0. destruct (seqb (root s0) s0) eqn:Eb; [now apply E|]. apply (mul_cancel F _ _ H). intros Hc. apply E in Hc. congruence.
Qed.
Lemma inner_nonneg n (x : vect S) : sle s0 (inner n x x).
Proof. apply (sum_nonneg R O OS). intros i _. apply (sq_nonneg R O OS OP). Qed.

(** x /= |x| *)
Lemma normalized (x : list T) n : zlen x = n ->
  (zero_vec n (vec_of x) /\ l_divc x (root (inner n (vec_of x) (vec_of x))) = Fail FAssert) \/
  (nonzero_vec n (vec_of x) /\ exists x' c, l_divc x (root (inner n (vec_of x) (vec_of x))) = Ok x' /\ zlen x' = n /\ c <> s0 /\ forall i, (0 <= i < n)%Z -> vec_of x' i = c * vec_of x i).
Proof.
  intros Hl. set (r := root (inner n (vec_of x) (vec_of x))). destruct (zero_or_not E n (vec_of x)) as [Hz|Hnz].
  - left. split; [exact Hz|]. assert (Hr : r = s0) by (apply root_zero; [apply inner_nonneg|now apply (inner_0_l R)]).
    unfold l_divc. rewrite (proj2 (E r s0) Hr). reflexivity.
  - right. split; [exact Hnz|]. assert (Hr : r <> s0).
    { intros Hr. apply (root_zero _ (inner_nonneg n (vec_of x))) in Hr. now apply (nonzero_inner n (vec_of x)). }
    exists (map (fun a => a / r) x), (s1 / r). unfold l_divc. destruct (seqb r s0) eqn:Eb; [apply E in Eb; contradiction|]. cbn [negb assert_ bind].
    rewrite l_map_ok. split; [reflexivity|]. split; [now rewrite zlen_map|]. split.
    + intros H0. pose proof (div_mul F s1 r Hr) as H1. rewrite H0 in H1. apply (F_1_neq_0 F). rewrite <- H1. ring.
    + intros i Hi. unfold vec_of. rewrite (zn_map s0) by lia. rewrite (Fdiv_def F (zn s0 x i) r). cbv beta. ring.
Qed.

Context {W : Type} (I : W -> Prop) (A : op S W) (n : Z) (mA : mat S) (HA : acts_as I A n mA) (tol : T).
Context (x0 : vect S).
Notation P k := (pow_vec mA n k x0).
Notation Q := (fun k => rayleigh mA n (pow_vec mA n k x0)).

Lemma A_mult w (x out : list T) : I w -> zlen x = n -> exists w' y, op_mult_vec A w x out = Ok (w', y) /\ I w' /\ zlen y = n /\ forall i, (0 <= i < n)%Z -> vec_of y i = mat_vec mA n (vec_of x) i.
Proof.
  intros Hw Hx. destruct HA as (H1 & H2 & Hap). destruct (applies_vec I A (mat_list mA n) w x out Hap Hw ltac:(lia)) as (Hl & w' & Em & Hw').
  exists w', (mat_list mA n x). split; [exact Em|]. split; [exact Hw'|]. split; [lia|]. intros i Hi. now apply mat_list_at.
Qed.

Definition previous (k : nat) : T := match k with 0%nat => s0 | Datatypes.S k => Q k end.

Lemma power_loop_outcome m : forall k w x y old c, I w -> zlen x = n -> c <> s0 -> (forall i, (0 <= i < n)%Z -> vec_of x i = c * P k i) -> nonzero_vec n (P k) -> old = previous k ->
  match power_loop root A tol m w x y old with
  | Ok (w', r) => I w' /\ ((m = 0%nat /\ r = old) \/ exists K, (k <= K < k + m)%nat /\ r = Q K /\ nonzero_vec n (P (K + 1)) /\ (K + 1 = k + m \/ settled tol Q K = true)%nat /\
      forall j, (k <= j < K)%nat -> settled tol Q j = false)
  | Fail e => e = FAssert /\ exists K, (k < K <= k + m)%nat /\ zero_vec n (P K) /\ (forall j, (k <= j < K)%nat -> nonzero_vec n (P j)) /\ forall j, (k <= j)%nat -> (j + 1 < K)%nat -> settled tol Q j = false
  end.
Proof.
  induction m as [|m IH]; intros k w x y old c Hw Hl Hc Hx Hp Hold; cbn [power_loop]; [split; [exact Hw|left; auto]|].
  destruct (A_mult w x y Hw Hl) as (w' & y' & -> & Hw' & Ly & Hy). cbn [bind].
  rewrite !(l_inner_gives R n) by assumption. cbn [bind].
  assert (Hy' : forall i, (0 <= i < n)%Z -> vec_of y' i = c * P (Datatypes.S k) i).
  { intros i Hi. rewrite Hy by exact Hi. rewrite pow_vec_S. now apply mat_vec_scaled. }
  assert (Hq : inner n (vec_of y') (vec_of x) / inner n (vec_of x) (vec_of x) = Q k).
  { rewrite <- (rayleigh_scaled mA n (vec_of x) (P k) c Hc Hp Hx). unfold rayleigh. f_equal. apply inner_ext; auto. }
  rewrite Hq. destruct (normalized y' n Ly) as [(Hz & ->)|((i & Hi & Hnz) & x' & d & -> & Lx' & Hd & Hx')]; cbn [bind].
  - split; [reflexivity|]. exists (Datatypes.S k). split; [lia|]. split; [|split; [|intros; lia]].
    + intros i Hi. specialize (Hz i Hi). rewrite Hy' in Hz by exact Hi. apply (mul_cancel F _ c); [|exact Hc]. rewrite <- Hz. ring.
    + intros j Hj. replace j with k by lia. exact Hp.
  - assert (Hp' : nonzero_vec n (P (Datatypes.S k))).
    { exists i. split; [exact Hi|]. intros H0. apply Hnz. rewrite Hy' by exact Hi. rewrite H0. ring. }
    assert (Hs : slt (sabs (Q k - old) / sabs (Q k)) tol = settled tol Q k) by (rewrite Hold; destruct k; reflexivity).
    cbv beta in Hs. rewrite Hs. destruct (settled tol Q k) eqn:Est.
    + split; [exact Hw'|]. right. exists k. split; [lia|]. split; [reflexivity|]. split; [replace (k + 1)%nat with (Datatypes.S k) by lia; exact Hp'|]. split; [now right|intros; lia].
    + specialize (IH (Datatypes.S k) w' x' y' (Q k) (d * c) Hw' Lx' (mul_nonzero d c Hd Hc)).
      assert (Hx'' : forall i, (0 <= i < n)%Z -> vec_of x' i = d * c * P (Datatypes.S k) i) by (intros i' Hi'; rewrite Hx', Hy' by exact Hi'; ring).
      specialize (IH Hx'' Hp' eq_refl). destruct (power_loop root A tol m w' x' y' (Q k)) as [(w2, r)|e].
      * destruct IH as (Hw2 & H). split; [exact Hw2|]. right. destruct H as [(-> & ->)|(K & HK & Hr & Hn & Hs' & Hb)].
        -- exists k. split; [lia|]. split; [reflexivity|]. split; [replace (k + 1)%nat with (Datatypes.S k) by lia; exact Hp'|]. split; [left; lia|intros; lia].
        -- exists K. split; [lia|]. split; [exact Hr|]. split; [exact Hn|]. split; [destruct Hs' as [Hs'|Hs']; [left; lia|now right]|].
           intros j Hj. destruct (Nat.eq_dec j k) as [->|]; [exact Est|apply Hb; lia].
      * destruct IH as (He & K & HK & Hz & Hn & Hb). split; [exact He|]. exists K. split; [lia|]. split; [exact Hz|]. split.
        -- intros j Hj. destruct (Nat.eq_dec j k) as [->|]; [exact Hp|apply Hn; lia].
        -- intros j Hj1 Hj2. destruct (Nat.eq_dec j k) as [->|]; [exact Est|apply Hb; lia].
Qed.

Lemma random_start (gen : Z -> T) (m : Z) (x : list T) : zlen x = m -> for_ 0 (zlen x) x (fun i x => set x i (gen i)) = Ok (map gen (zrange 0 m)).
Proof. intros Hl. rewrite Hl. rewrite <- (for_fill s0 gen (fun i _ => Ok (gen i)) m x Hl) by reflexivity. reflexivity. Qed.

End PowerProofs.

Section PowerRun.
Context {S : scalar}.
Notation T := (car S).
Context (F : field_laws S) (E : eqb_laws S) (O : order_laws S) (OS : sum_order_laws S) (OP : prod_order_laws S).
Let R : ring_laws S := field_ring S F.
Context (root : T -> T) (RL : root_laws root).
Context {W : Type} (I : W -> Prop) (A : op S W) (n : Z) (mA : mat S) (HA : acts_as I A n mA) (tol : T).

Lemma vec_of_map (gen : Z -> T) i : (0 <= i < n)%Z -> vec_of (map gen (zrange 0 n)) i = gen i.
Proof. intros Hi. unfold vec_of. now rewrite zn_map_zrange. Qed.

Lemma power_start (gen : Z -> T) (max_iter : Z) w : I w -> exists x0 : list T, zlen x0 = n /\ (forall i, (0 <= i < n)%Z -> vec_of x0 i = gen i) /\
  ((zero_vec n gen /\ power_iterate root A tol max_iter gen w = Fail FAssert) \/
   (nonzero_vec n gen /\ exists x c y, power_iterate root A tol max_iter gen w = power_loop root A tol (Z.to_nat max_iter) w x y s0 /\ zlen x = n /\ c <> s0 /\
      forall i, (0 <= i < n)%Z -> vec_of x i = smul c (gen i))).
Proof.
  intros Hw. destruct HA as (H1 & H2 & Hn & _). exists (map gen (zrange 0 n)). assert (Ll : zlen (map gen (zrange 0 n)) = n) by (apply zlen_map_zrange; lia).
  split; [exact Ll|]. split; [apply vec_of_map|].
  assert (Ep : power_iterate root A tol max_iter gen w =
    (x <- l_divc (map gen (zrange 0 n)) (root (inner n (vec_of (map gen (zrange 0 n))) (vec_of (map gen (zrange 0 n))))) ;; power_loop root A tol (Z.to_nat max_iter) w x (repeat s0 (Z.to_nat n)) s0)).
  { unfold power_iterate. rewrite H1. rewrite !vec_ok by lia. cbn [bind].
    rewrite (random_start gen n) by (rewrite zlen_repeat; lia). cbn [bind]. rewrite (l_inner_gives R n) by exact Ll. reflexivity. }
  rewrite Ep. clear Ep.
  destruct (normalized F E O OS OP root RL (map gen (zrange 0 n)) n Ll) as [(Hz & ->)|((i & Hi & Hnz) & x' & d & -> & Lx' & Hd & Hx')]; cbn [bind].
  - left. split; [|reflexivity]. intros i Hi. rewrite <- vec_of_map by exact Hi. now apply Hz.
  - right. split; [exists i; split; [exact Hi|]; now rewrite <- vec_of_map|]. eexists x', d, _. split; [reflexivity|]. split; [exact Lx'|]. split; [exact Hd|].
    intros j Hj. rewrite Hx', vec_of_map by exact Hj. reflexivity.
Qed.

Lemma power_iterate_outcome (gen : Z -> T) (max_iter : Z) w : I w -> (0 < max_iter)%Z ->
  power_outcome I mA n tol (Z.to_nat max_iter) gen (power_iterate root A tol max_iter gen w).
Proof.
  intros Hw Hm. destruct (power_start gen max_iter w Hw) as (x0 & _ & _ & [(Hz & ->)|(Hnz & x & c & y & -> & Lx & Hc & Hx)]); unfold power_outcome.
  - split; [reflexivity|]. exists 0%nat. split; [lia|]. split; [exact Hz|]. split; intros; lia.
  - pose proof (power_loop_outcome F E O OS OP root RL I A n mA HA tol gen (Z.to_nat max_iter) 0 w x y s0 c Hw Lx Hc Hx Hnz eq_refl) as H.
    destruct (power_loop root A tol (Z.to_nat max_iter) w x y s0) as [(w', r)|e].
    + destruct H as (Hw' & [(H0 & _)|(K & HK & Hr & Hn & Hs & Hb)]); [lia|]. split; [exact Hw'|]. exists K. split; [lia|]. split; [exact Hr|]. split; [exact Hn|]. split; [exact Hs|]. intros j Hj. apply Hb. lia.
    + destruct H as (He & K & HK & Hz & Hn & Hb). split; [exact He|]. exists K. split; [lia|]. split; [exact Hz|]. split; [intros j Hj; apply Hn; lia|intros j Hj; apply Hb; lia].
Qed.

Lemma power_iterate_none (gen : Z -> T) (max_iter : Z) w : I w -> (max_iter <= 0)%Z -> nonzero_vec n gen -> power_iterate root A tol max_iter gen w = Ok (w, s0).
Proof.
  intros Hw Hm Hnz. destruct (power_start gen max_iter w Hw) as (x0 & _ & _ & [(Hz & _)|(_ & x & c & y & -> & _)]); [now apply zero_not_nonzero in Hnz|].
  replace (Z.to_nat max_iter) with 0%nat by lia. reflexivity.
Qed.

End PowerRun.
