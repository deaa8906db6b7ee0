(** Exact arithmetic: PCG never moves away from the solution in the energy norm. *)

From Coq Require Import ZArith List Bool Lia Ring Field_theory.
From Verif Require Import Base Scalar Spec Vec SumFacts LoopFacts Block BlockSpec BlockOp
  Solver SolverSpec SolverProofs SolverMore.
Import ListNotations.
Open Scope Z_scope.

(* ---------------------------------------------------------------- inner products *)

Section Inner.
Context {S : scalar}.
Notation T := (car S).
Context (R : ring_laws S).
Let Rth : ring_theory (@s0 S) s1 sadd smul ssub sopp (@eq (car S)) := R.
Add Ring SRing : Rth.
Local Open Scope S_scope.

Lemma inner_ext n (x x' y y' : vect S) :
  (forall i, (0 <= i < n)%Z -> x i = x' i) -> (forall i, (0 <= i < n)%Z -> y i = y' i) ->
  inner n x y = inner n x' y'.
Proof. intros Hx Hy. apply sum_range_ext. intros i Hi. now rewrite Hx, Hy. Qed.

Lemma inner_comm n (x y : vect S) : inner n x y = inner n y x.
Proof. apply sum_range_ext. intros i _. ring. Qed.

Lemma inner_lin_r n (x y z : vect S) c : inner n x (fun i => y i + c * z i) = inner n x y + c * inner n x z.
Proof.
  unfold inner. rewrite <- (sum_range_scale R), <- (sum_range_add R). apply sum_range_ext. intros i _. ring.
Qed.
Lemma inner_lin_l n (x y z : vect S) c : inner n (fun i => y i + c * z i) x = inner n y x + c * inner n z x.
Proof. rewrite inner_comm, inner_lin_r. now rewrite (inner_comm n x y), (inner_comm n x z). Qed.

Lemma inner_0_l n (x y : vect S) : (forall i, (0 <= i < n)%Z -> x i = s0) -> inner n x y = s0.
Proof. intros H. apply (sum_range_0 R). intros i Hi. rewrite H by lia. ring. Qed.
Lemma inner_0_r n (x y : vect S) : (forall i, (0 <= i < n)%Z -> y i = s0) -> inner n x y = s0.
Proof. intros H. rewrite inner_comm. apply inner_0_l, H. Qed.

Lemma inner_sym n (A : mat S) (x y : vect S) : mat_sym n A ->
  inner n x (mat_vec A n y) = inner n (mat_vec A n x) y.
Proof.
  intros HA. rewrite (inner_mat_vec_T R). apply inner_ext; [auto|]. intros i Hi.
  apply sum_range_ext. intros j Hj. unfold mat_T. rewrite (HA i j) by lia. reflexivity.
Qed.

Lemma l_inner_gives n : dot_gives (S := S) l_inner n (fun x y => inner n (vec_of x) (vec_of y)).
Proof.
  intros x y Hx Hy. rewrite l_inner_ok by lia. rewrite (fold_left_range R), Hx. reflexivity.
Qed.

(** (x + c p - y)^T A (x + c p - y) *)
Lemma energy_step n (A : mat S) (x y p b : vect S) c : mat_sym n A ->
  (forall i, (0 <= i < n)%Z -> mat_vec A n y i = b i) ->
  energy_dist A n (fun i => x i + c * p i) y =
  energy_dist A n x y - c * inner n (fun i => b i - mat_vec A n x i) p
    - c * inner n (fun i => b i - mat_vec A n x i) p + c * c * inner n p (mat_vec A n p).
Proof.
  intros HA Hy. unfold energy_dist. set (e := fun i => x i - y i).
  rewrite (inner_ext n (fun i => x i + c * p i - y i) (fun i => e i + c * p i)
             (mat_vec A n (fun i => x i + c * p i - y i)) (fun i => mat_vec A n e i + c * mat_vec A n p i)).
  2:{ intros i _. unfold e. ring. }
  2:{ intros i _. rewrite <- (mat_vec_axpy R). apply mat_vec_ext; [reflexivity|]. intros j _. unfold e. ring. }
  rewrite inner_lin_r, !inner_lin_l. rewrite (inner_sym n A e p HA).
  assert (Ee : inner n (mat_vec A n e) p = - inner n (fun i => b i - mat_vec A n x i) p).
  { transitivity (inner n (fun i => s0 + (- s1) * (b i - mat_vec A n x i)) p).
    - apply inner_ext; [|reflexivity]. intros i Hi. rewrite <- (Hy i Hi).
      transitivity (mat_vec A n (fun i => x i + (- s1) * y i) i).
      + apply mat_vec_ext; [reflexivity|]. intros j _. unfold e. ring.
      + rewrite (mat_vec_axpy R). ring.
    - rewrite inner_lin_l. rewrite (inner_0_l n (fun _ => s0) p) by reflexivity. ring. }
  rewrite (inner_comm n p (mat_vec A n e)), Ee. ring.
Qed.

End Inner.

(* ---------------------------------------------------------------- ordered rings *)

Section Order.
Context {S : scalar}.
Notation T := (car S).
Context (R : ring_laws S) (O : order_laws S) (OS : sum_order_laws S) (OP : prod_order_laws S).
Let Rth : ring_theory (@s0 S) s1 sadd smul ssub sopp (@eq (car S)) := R.
Add Ring SRing2 : Rth.
Local Open Scope S_scope.

Lemma sle_refl (a : T) : sle a a.
Proof. apply O. Qed.
Lemma sle_trans (a b c : T) : sle a b -> sle b c -> sle a c.
Proof.
  unfold sle. intros H1 H2. destruct (slt c a) eqn:E; [|reflexivity].
  destruct (slt c b) eqn:E2; [congruence|]. destruct (slt b c) eqn:E3.
  - rewrite (slt_trans _ O b c a E3 E) in H1. discriminate.
  - rewrite (slt_total _ O b c E3 E2) in H1. congruence.
Qed.
Lemma slt_sle (a b : T) : slt a b = true -> sle a b.
Proof.
  intros H. unfold sle. destruct (slt b a) eqn:E; [|reflexivity].
  pose proof (slt_trans _ O a b a H E) as H1. rewrite (slt_irrefl _ O) in H1. discriminate.
Qed.
Lemma slt_neq (a b : T) : slt a b = true -> a <> b.
Proof. intros H ->. rewrite (slt_irrefl _ O) in H. discriminate. Qed.
Lemma sle_antisym (a b : T) : sle a b -> sle b a -> a = b.
Proof. intros H1 H2. apply (slt_total _ O); assumption. Qed.

Lemma sq_nonneg (a : T) : sle s0 (a * a).
Proof.
  destruct (slt a s0) eqn:E.
  - replace (a * a) with ((- a) * (- a)) by ring. apply slt_sle in E.
    assert (H : sle s0 (- a)).
    { pose proof (sle_add _ OS a s0 (- a) (- a) E (sle_refl _)) as H. 
      replace (a + - a) with (s0 : T) in H by ring. replace (s0 + - a) with (- a) in H by ring. exact H. }
    apply OP; exact H.
  - apply OP; exact E.
Qed.

Lemma sub_nonneg_le (e a : T) : sle s0 a -> sle (e - a) e.
Proof.
  intros H. pose proof (sle_add _ OS (e - a) (e - a) s0 a (sle_refl _) H) as H1.
  replace (e - a + s0) with (e - a) in H1 by ring. replace (e - a + a) with e in H1 by ring. exact H1.
Qed.

Lemma sum_nonneg lo hi (f : Z -> T) : (forall i, (lo <= i < hi)%Z -> sle s0 (f i)) -> sle s0 (sum_range lo hi f).
Proof.
  intros H. unfold sum_range. assert (Hl : forall l, (forall i, In i l -> sle s0 (f i)) -> sle s0 (sum_list (map f l))).
  { induction l as [|i l IH]; intros Hi; [apply sle_refl|]. cbn [map]. rewrite sum_cons.
    pose proof (sle_add _ OS s0 (f i) s0 (sum_list (map f l)) (Hi i (or_introl eq_refl))
      (IH (fun j Hj => Hi j (or_intror Hj)))) as H1.
    replace (s0 + s0) with (s0 : T) in H1 by ring. exact H1. }
  apply Hl. intros i Hi. apply H. apply In_zrange in Hi. exact Hi.
Qed.

End Order.

(* ---------------------------------------------------------------- the energy norm of the error *)

Section Energy.
Context {S : scalar}.
Notation T := (car S).
Context (F : field_laws S) (E : eqb_laws S) (O : order_laws S) (OS : sum_order_laws S) (OP : prod_order_laws S).
Let R : ring_laws S := field_ring S F.
Let Rth : ring_theory (@s0 S) s1 sadd smul ssub sopp (@eq (car S)) := R.
Add Ring SRing3 : Rth.
Local Open Scope S_scope.

Lemma div_mul (a b : T) : b <> s0 -> a / b * b = a.
Proof.
  intros Hb. pose proof (Fdiv_def F) as D. rewrite D. pose proof (Finv_l F b Hb) as H.
  transitivity (a * (s1 / b * b)); [ring|]. rewrite H. ring.
Qed.

Lemma zero_or_not n (p : vect S) :
  (forall i, (0 <= i < n)%Z -> p i = s0) \/ exists i, (0 <= i < n)%Z /\ p i <> s0.
Proof.
  destruct (existsb (fun i => negb (seqb (p i) s0)) (zrange 0 n)) eqn:H.
  - right. apply existsb_exists in H. destruct H as (i & Hi & H). apply In_zrange in Hi. exists i. split; [exact Hi|].
    intros Hz. rewrite (proj2 (E (p i) s0) Hz) in H. discriminate.
  - left. intros i Hi. destruct (seqb (p i) s0) eqn:Hz; [apply E; exact Hz|]. exfalso.
    assert (Ht : existsb (fun i => negb (seqb (p i) s0)) (zrange 0 n) = true).
    { apply existsb_exists. exists i. split; [now apply In_zrange|]. now rewrite Hz. }
    congruence.
Qed.

Context {W : Type} (I : W -> Prop) (A : op S W) (M : option (op S W)) (n : Z).
Context (mA : mat S) (fM : list T -> list T).
Context (HA : acts_as I A n mA) (HM : prec_applies I M n fM).
Context (Hsym : mat_sym n mA) (Hpos : mat_pos_def n mA).

Notation d := (fun x y : list T => inner n (vec_of x) (vec_of y)).
Notation fA := (mat_list mA n).

(** c * (p . A p) = r . p implies that x + c p is not further from the solution y. *)
Lemma energy_decreases (b x p y : list T) c :
  (forall i, (0 <= i < n)%Z -> mat_vec mA n (vec_of y) i = vec_of b i) ->
  c * inner n (vec_of p) (mat_vec mA n (vec_of p)) = inner n (vec_of (residual mA n b x)) (vec_of p) ->
  sle s0 (inner n (vec_of p) (mat_vec mA n (vec_of p))) ->
  zlen x = n -> sle (energy_dist mA n (vec_of (zipw (fun a q => a + c * q) x p)) (vec_of y))
      (energy_dist mA n (vec_of x) (vec_of y)).
Proof.
  intros Hy Hc Hp Hx.
  assert (Ex : energy_dist mA n (vec_of (zipw (fun a q => a + c * q) x p)) (vec_of y) =
               energy_dist mA n (fun i => vec_of x i + c * vec_of p i) (vec_of y)).
  { unfold energy_dist. apply inner_ext; intros i Hi.
    - rewrite zipw_at by lia. reflexivity.
    - apply mat_vec_ext; [reflexivity|]. intros j Hj. rewrite zipw_at by lia. reflexivity. }
  rewrite Ex, (energy_step R n mA (vec_of x) (vec_of y) (vec_of p) (vec_of b)) by auto.
  rewrite (inner_ext n (fun i => vec_of b i - mat_vec mA n (vec_of x) i) (vec_of (residual mA n b x)) (vec_of p) (vec_of p)).
  2:{ intros i Hi. rewrite residual_at by lia. reflexivity. }
  2:{ reflexivity. }
  rewrite <- Hc. set (q := inner n (vec_of p) (mat_vec mA n (vec_of p))) in *.
  replace (energy_dist mA n (vec_of x) (vec_of y) - c * (c * q) - c * (c * q) + c * c * q)
    with (energy_dist mA n (vec_of x) (vec_of y) - (c * c * q)) by ring.
  apply (sub_nonneg_le R O OS). apply OP; [apply (sq_nonneg R O OS OP)|exact Hp].
Qed.

Lemma pcg_energy par w u b x y w' u' x' k : I w -> zlen b = n -> zlen x = n ->
  (forall i, (0 <= i < n)%Z -> mat_vec mA n (vec_of y) i = vec_of b i) ->
  pcg_mult A M l_inner par w u b x = Ok (w', u', x', k) ->
  sle (energy_dist mA n (vec_of x') (vec_of y)) (energy_dist mA n (vec_of x) (vec_of y)).
Proof.
  intros Hw Hb Hx Hy Er. destruct HA as (E1 & E2 & H). pose proof (acts_n I A n mA HA) as Hn.
  set (G := fun v => sle (energy_dist mA n (vec_of v) (vec_of y)) (energy_dist mA n (vec_of x) (vec_of y))).
  destruct (pcg_mult_inv I A M l_inner n fA fM d E1 E2 H HM (l_inner_gives R n)
     (fun u v => pb_r u = residual mA n b v /\ inner n (vec_of (pb_r u)) (vec_of (pb_p u)) = inner n (vec_of (pb_r u)) (vec_of (pb_z u)) /\ G v)
     (fun u v => G v) par w u b x Hw Hb Hx) as [Ht|Hok].
  - split; [apply residual_start; auto|]. split; [reflexivity|]. apply (sle_refl O).
  - apply (sle_refl O).
  - intros v z [Lr Lp Lz Lx] (Hr & Hrp & Hg) _. set (tol := p_tol _ _ _ _ _ _).
    set (al := p_alpha fA d v). set (pp := vec_of (pb_p v)) in *.
    assert (Epp : inner n pp (vec_of (fA (pb_p v))) = inner n pp (mat_vec mA n pp)).
    { apply inner_ext; [reflexivity|]. intros i Hi. rewrite mat_list_at by lia. reflexivity. }
    assert (Hal : al * inner n pp (mat_vec mA n pp) = inner n (vec_of (pb_r v)) pp /\ sle s0 (inner n pp (mat_vec mA n pp))).
    { destruct (zero_or_not n pp) as [Hz|Hnz].
      - rewrite (inner_0_l R n pp) by exact Hz. rewrite (inner_0_r R n (vec_of (pb_r v))) by exact Hz.
        split; [ring|apply (sle_refl O)].
      - pose proof (Hpos pp Hnz) as Hp. split; [|apply (slt_sle O); exact Hp].
        unfold al, p_alpha. fold pp. rewrite Epp, Hrp. apply div_mul. apply not_eq_sym, (slt_neq O), Hp. }
    destruct Hal as (Hal & Hpp).
    assert (Hg' : G (p_x fA d v z)).
    { apply (sle_trans O _ (energy_dist mA n (vec_of z) (vec_of y))); [|exact Hg].
      unfold p_x. fold al. apply (energy_decreases b); auto. rewrite <- Hr. exact Hal. }
    split; [|exact Hg']. intros Hst. 
    assert (Hr' : p_r fA d v = residual mA n b (p_x fA d v z)).
    { unfold p_r, p_x. rewrite Hr. apply (residual_step R); auto. }
    split; [exact Hr'|]. split; [|exact Hg'].
    unfold p_next. cbn [pb_r pb_p pb_z]. rewrite Hst. unfold p_p.
    assert (Hlz : zlen (p_r fA d v) = n) by (unfold p_r; rewrite zlen_zipw; exact Lr).
    transitivity (inner n (vec_of (p_r fA d v)) (fun i => vec_of (p_z fA fM d v) i + p_beta fA fM d v * pp i)).
    { apply inner_ext; [reflexivity|]. intros i Hi. rewrite zipw_at by (rewrite zlen_map; lia).
      unfold vec_of at 1. rewrite (zn_map s0 s0) by lia. unfold pp, vec_of. ring. }
    rewrite (inner_lin_r R).
    assert (Hz : inner n (vec_of (p_r fA d v)) pp = s0).
    { transitivity (inner n (fun i => vec_of (pb_r v) i + (- al) * mat_vec mA n pp i) pp).
      - apply inner_ext; [|reflexivity]. intros i Hi. unfold p_r. rewrite zipw_at by lia.
        rewrite mat_list_at by lia. fold al. fold pp. ring.
      - rewrite (inner_lin_l R), (inner_comm R n (mat_vec mA n pp)).
        transitivity (inner n (vec_of (pb_r v)) pp - al * inner n pp (mat_vec mA n pp)); [ring|]. rewrite Hal. ring. }
    rewrite Hz. ring.
  - congruence.
  - destruct Hok as (w2 & u2 & x2 & k2 & Ek & _ & _ & Hg & _). rewrite Er in Ek. injection Ek as _ _ -> _. exact Hg.
Qed.

End Energy.
