(** What the power iteration returns: ranges, monotony and convergence of the quotients. *)

From Coq Require Import ZArith List Bool Lia Ring Field_theory.
From Verif Require Import Base Scalar Spec LoopFacts SumFacts Sparse Vec Block Solver SolverSpec SolverProofs SolverEnergy KrylovFacts Basics BasicsSpec LapMore PowerProofs.
Import ListNotations.
Open Scope Z_scope.

Section PowerMore.
Context {S : scalar}.
Notation T := (car S).
Context (F : field_laws S) (E : eqb_laws S) (O : order_laws S) (OS : sum_order_laws S) (OP : prod_order_laws S).
Let R : ring_laws S := field_ring S F.
Let Rth : ring_theory (@s0 S) s1 sadd smul ssub sopp (@eq (car S)) := R.
Add Ring PowerMoreRing : Rth.
Local Open Scope S_scope.

Lemma mul_le_cancel (c a b : T) : slt s0 c = true -> sle (c * a) (c * b) -> sle a b.
Proof.
  intros Hc H. unfold sle. destruct (slt b a) eqn:Hl; [|reflexivity]. exfalso.
  pose proof (mul_le F O OS OP c b a (slt_sle O _ _ Hc) (slt_sle O _ _ Hl)) as H1. pose proof (sle_antisym O _ _ H H1) as H2.
  assert (H3 : (a - b) * c = s0) by (transitivity (c * a - c * b); [ring|rewrite H2; ring]).
  apply (mul_cancel F) in H3; [|apply not_eq_sym; now apply (slt_neq O)]. apply (slt_neq O) in Hl. apply Hl. transitivity (b + (a - b)); [rewrite H3|]; ring.
Qed.
Lemma mul_pos (a b : T) : slt s0 a = true -> slt s0 b = true -> slt s0 (a * b) = true.
Proof.
  intros Ha Hb. apply (sle_neq_slt O); [apply OP; now apply (slt_sle O)|]. intros H. symmetry in H.
  apply (mul_cancel F) in H; [|apply not_eq_sym; now apply (slt_neq O)]. apply (slt_neq O) in Ha. now apply Ha.
Qed.

Context (n : Z) (A : mat S).
Notation P := (pow_vec A n).
Implicit Types (x v : vect S) (a lam : T).

Lemma nonzero_before x k : nonzero_vec n (P (Datatypes.S k) x) -> nonzero_vec n (P k x).
Proof.
  intros H. destruct (zero_or_not E n (P k x)) as [Hz|Hn]; [|exact Hn]. exfalso. refine (zero_not_nonzero n _ _ H). intros i Hi. rewrite pow_vec_S.
  unfold mat_vec. apply (sum_range_0 R). intros j Hj. rewrite (Hz j Hj). ring.
Qed.
Lemma nonzero_le x k j : (j <= k)%nat -> nonzero_vec n (P k x) -> nonzero_vec n (P j x).
Proof. intros H. induction H; [auto|]. intros G. apply IHle. now apply nonzero_before. Qed.

Lemma self_pos x : nonzero_vec n x -> slt s0 (inner n x x) = true.
Proof. apply (inner_self_pos F O OS OP). Qed.

Lemma rayleigh_mul x : nonzero_vec n x -> rayleigh A n x * inner n x x = inner n x (mat_vec A n x).
Proof. intros H. unfold rayleigh. rewrite (div_mul F) by (apply not_eq_sym, (slt_neq O); now apply self_pos). apply (inner_comm R). Qed.

Lemma rayleigh_range x lo hi : nonzero_vec n x -> sle (lo * inner n x x) (inner n x (mat_vec A n x)) -> sle (inner n x (mat_vec A n x)) (hi * inner n x x) ->
  sle lo (rayleigh A n x) /\ sle (rayleigh A n x) hi.
Proof.
  intros Hx Hlo Hhi. rewrite <- (rayleigh_mul x Hx) in Hlo, Hhi. pose proof (self_pos x Hx) as Hp. split; apply (mul_le_cancel (inner n x x) _ _ Hp).
  - replace (inner n x x * lo) with (lo * inner n x x) by ring. replace (inner n x x * rayleigh A n x) with (rayleigh A n x * inner n x x) by ring. exact Hlo.
  - replace (inner n x x * hi) with (hi * inner n x x) by ring. replace (inner n x x * rayleigh A n x) with (rayleigh A n x * inner n x x) by ring. exact Hhi.
Qed.

Lemma pow_eigen x lam k i : (forall i, (0 <= i < n)%Z -> mat_vec A n x i = lam * x i) -> (0 <= i < n)%Z -> P k x i = power lam k * x i.
Proof.
  intros H. revert i. induction k as [|k IH]; intros i Hi; [cbn; ring|]. rewrite pow_vec_S. rewrite (mat_vec_scaled F A n (P k x) x (power lam k) i IH), H by exact Hi. cbn [power]. ring.
Qed.
Lemma power_nonzero a k : a <> s0 -> power a k <> s0.
Proof. intros Ha. induction k as [|k IH]; [apply (F_1_neq_0 F)|]. cbn [power]. now apply (mul_nonzero F). Qed.
Lemma rayleigh_eigen x lam : nonzero_vec n x -> (forall i, (0 <= i < n)%Z -> mat_vec A n x i = lam * x i) -> rayleigh A n x = lam.
Proof.
  intros Hx H. unfold rayleigh. apply (div_unique F); [now apply (nonzero_inner F O OS OP)|]. rewrite (inner_scaled F n (mat_vec A n x) x x x lam s1); [ring|exact H|intros; ring].
Qed.

(* ---------------------------------------------------------------- symmetric positive semidefinite matrices *)

Context (Hs : mat_sym n A) (Hp : mat_pos_semidef n A).

(** x . A^k x *)
Definition moment (x : vect S) (k : nat) : T := inner n x (P k x).

Lemma moment_split x : forall (a b : nat), inner n (P a x) (P b x) = moment x (a + b).
Proof.
  induction a as [|a IH]; intros b; [reflexivity|]. rewrite pow_vec_S. rewrite <- (inner_sym R n A (P a x) (P b x) Hs). rewrite <- pow_vec_S, IH. f_equal. lia.
Qed.

(** Cauchy-Schwarz for a symmetric positive semidefinite matrix *)
Lemma cauchy (G : mat S) (u v : vect S) : mat_sym n G -> mat_pos_semidef n G ->
  sle (inner n u (mat_vec G n v) * inner n u (mat_vec G n v)) (inner n u (mat_vec G n u) * inner n v (mat_vec G n v)).
Proof.
  intros GS GP. set (a := inner n u (mat_vec G n u)). set (b := inner n u (mat_vec G n v)). set (c := inner n v (mat_vec G n v)).
  assert (Hq : forall t, sle s0 (a + t * (b + b) + t * t * c)).
  { intros t. pose proof (GP (fun i => u i + t * v i)) as H.
    rewrite (inner_ext n (fun i => u i + t * v i) (fun i => u i + t * v i) (mat_vec G n (fun i => u i + t * v i)) (fun i => mat_vec G n u i + t * mat_vec G n v i)) in H; [|reflexivity|intros; apply (mat_vec_axpy R)].
    rewrite (inner_lin_r R), !(inner_lin_l R) in H. fold a b c in H. rewrite (inner_sym R n G v u GS) in H. rewrite (inner_comm R n (mat_vec G n v) u) in H. fold b in H.
    replace (a + t * (b + b) + t * t * c) with (a + t * b + t * (b + t * c)) by ring. exact H. }
  assert (Hc : sle s0 c) by apply GP. assert (Ha : sle s0 a) by apply GP.
  destruct (seqb c s0) eqn:Ec.
  - apply E in Ec. assert (Hb : b = s0).
    { destruct (seqb b s0) eqn:Eb; [now apply E|]. assert (Hb : b + b <> s0).
      { intros H0. assert (H1 : (s1 + s1) * b = s0) by (rewrite <- H0; ring). rewrite (proj2 (E b s0)) in Eb; [discriminate|].
        apply (mul_cancel F _ (s1 + s1)); [rewrite <- H1; ring|]. apply not_eq_sym, (slt_neq O). apply (add_pos F O OS); [apply (slt_sle O)|]; apply (one_pos F O OS OP). }
      exfalso. specialize (Hq (- (a + s1) / (b + b))). rewrite Ec in Hq. rewrite (div_mul F) in Hq by exact Hb.
      replace (a + - (a + s1) + - (a + s1) / (b + b) * (- (a + s1) / (b + b)) * s0) with (- (s1 : T)) in Hq by ring.
      pose proof (sle_add _ OS s0 (- s1) s1 s1 Hq (sle_refl O s1)) as H1. replace (- s1 + s1) with (s0 : T) in H1 by ring. replace (s0 + s1) with (s1 : T) in H1 by ring.
      unfold sle in H1. rewrite (one_pos F O OS OP) in H1. discriminate. }
    rewrite Hb, Ec. replace (a * s0) with (s0 * s0 : T) by ring. apply (sle_refl O).
  - assert (Hcn : c <> s0) by (intros H0; rewrite (proj2 (E c s0) H0) in Ec; discriminate). assert (Hcp : slt s0 c = true) by (apply (sle_neq_slt O); [exact Hc|now apply not_eq_sym]).
    specialize (Hq (- b / c)). assert (H1 : sle (c * s0) (c * (a + - b / c * (b + b) + - b / c * (- b / c) * c))) by (apply (mul_le F O OS OP); [exact Hc|exact Hq]).
    replace (c * (a + - b / c * (b + b) + - b / c * (- b / c) * c)) with (c * a + (- b / c * c) * (b + b) + (- b / c * c) * (- b / c * c)) in H1 by ring.
    rewrite (div_mul F) in H1 by exact Hcn. pose proof (sle_add _ OS _ _ (b * b) (b * b) H1 (sle_refl O _)) as H2.
    replace (c * s0 + b * b) with (b * b) in H2 by ring. replace (c * a + - b * (b + b) + - b * - b + b * b) with (a * c) in H2 by ring. exact H2.
Qed.

Lemma id_psd : mat_pos_semidef (S := S) n id_mat.
Proof. intros x. rewrite (inner_ext n x x (mat_vec id_mat n x) x); [apply (inner_nonneg F O OS OP)|reflexivity|intros; now apply (idm_vec F)]. Qed.

Lemma cauchy_plain (u v : vect S) : sle (inner n u v * inner n u v) (inner n u u * inner n v v).
Proof.
  pose proof (cauchy id_mat u v (idm_sym n) id_psd) as H.
  rewrite !(inner_ext n _ _ (mat_vec id_mat n v) v) in H by (auto; intros; now apply (idm_vec F)). rewrite (inner_ext n u u (mat_vec id_mat n u) u) in H by (auto; intros; now apply (idm_vec F)). exact H.
Qed.

Lemma moment_nonneg x k : sle s0 (moment x k).
Proof.
  destruct (Nat.Even_or_Odd k) as [(m & ->)|(m & ->)].
  - replace (2 * m)%nat with (m + m)%nat by lia. rewrite <- moment_split. apply (inner_nonneg F O OS OP).
  - replace (2 * m + 1)%nat with (m + Datatypes.S m)%nat by lia. rewrite <- moment_split. rewrite pow_vec_S. apply Hp.
Qed.

Lemma moment_convex x k : sle (moment x (k + 1) * moment x (k + 1)) (moment x k * moment x (k + 2)).
Proof.
  destruct (Nat.Even_or_Odd k) as [(m & ->)|(m & ->)].
  - pose proof (cauchy_plain (P m x) (P (Datatypes.S m) x)) as H. rewrite !moment_split in H.
    replace (m + Datatypes.S m)%nat with (2 * m + 1)%nat in H by lia. replace (m + m)%nat with (2 * m)%nat in H by lia. replace (Datatypes.S m + Datatypes.S m)%nat with (2 * m + 2)%nat in H by lia. exact H.
  - pose proof (cauchy A (P m x) (P (Datatypes.S m) x) Hs Hp) as H. rewrite <- !pow_vec_S, !moment_split in H.
    replace (m + Datatypes.S (Datatypes.S m))%nat with (2 * m + 1 + 1)%nat in H by lia. replace (m + Datatypes.S m)%nat with (2 * m + 1)%nat in H by lia.
    replace (Datatypes.S m + Datatypes.S (Datatypes.S m))%nat with (2 * m + 1 + 2)%nat in H by lia. exact H.
Qed.

Lemma quotient_moments x k : nonzero_vec n (P k x) -> rayleigh A n (P k x) * moment x (2 * k) = moment x (2 * k + 1).
Proof.
  intros H. pose proof (rayleigh_mul (P k x) H) as G. rewrite <- pow_vec_S, !moment_split in G. replace (k + k)%nat with (2 * k)%nat in G by lia. replace (k + Datatypes.S k)%nat with (2 * k + 1)%nat in G by lia. exact G.
Qed.
Lemma even_moment_pos x k : nonzero_vec n (P k x) -> slt s0 (moment x (2 * k)) = true.
Proof. intros H. apply self_pos in H. rewrite moment_split in H. replace (k + k)%nat with (2 * k)%nat in H by lia. exact H. Qed.

Lemma quotient_nonneg x k : nonzero_vec n (P k x) -> sle s0 (rayleigh A n (P k x)).
Proof.
  intros H. apply (mul_le_cancel (moment x (2 * k))); [now apply even_moment_pos|]. replace (moment x (2 * k) * s0) with (s0 : T) by ring.
  replace (moment x (2 * k) * rayleigh A n (P k x)) with (rayleigh A n (P k x) * moment x (2 * k)) by ring. rewrite quotient_moments by exact H. apply moment_nonneg.
Qed.

(** All earlier ratios of moments are at most the present quotient. *)
Lemma ratios x k : nonzero_vec n (P k x) -> forall d j, (j + d = 2 * k)%nat -> sle (moment x (j + 1)) (rayleigh A n (P k x) * moment x j).
Proof.
  intros H. pose proof (quotient_nonneg x k H) as Hr. set (r := rayleigh A n (P k x)) in *. induction d as [|d IH]; intros j Hj.
  - replace j with (2 * k)%nat by lia. unfold r. rewrite quotient_moments by exact H. apply (sle_refl O).
  - specialize (IH (Datatypes.S j) ltac:(lia)). replace (Datatypes.S j + 1)%nat with (j + 2)%nat in IH by lia. replace (Datatypes.S j) with (j + 1)%nat in IH by lia.
    destruct (seqb (moment x (j + 1)) s0) eqn:Em.
    + apply E in Em. rewrite Em. apply OP; [exact Hr|apply moment_nonneg].
    + assert (Hm : slt s0 (moment x (j + 1)) = true).
      { apply (sle_neq_slt O); [apply moment_nonneg|]. intros H0. symmetry in H0. apply E in H0. congruence. }
      apply (mul_le_cancel _ _ _ Hm). apply (sle_trans O _ _ _ (moment_convex x j)).
      apply (sle_trans O _ (moment x j * (r * moment x (j + 1)))); [apply (mul_le F O OS OP); [apply moment_nonneg|exact IH]|].
      replace (moment x j * (r * moment x (j + 1))) with (moment x (j + 1) * (r * moment x j)) by ring. apply (sle_refl O).
Qed.

Lemma quotient_monotone x j k : (j <= k)%nat -> nonzero_vec n (P k x) -> sle (rayleigh A n (P j x)) (rayleigh A n (P k x)).
Proof.
  intros Hj Hk. pose proof (nonzero_le x k j Hj Hk) as Hn. apply (mul_le_cancel (moment x (2 * j))); [now apply even_moment_pos|].
  replace (moment x (2 * j) * rayleigh A n (P j x)) with (rayleigh A n (P j x) * moment x (2 * j)) by ring. rewrite quotient_moments by exact Hn.
  replace (moment x (2 * j) * rayleigh A n (P k x)) with (rayleigh A n (P k x) * moment x (2 * j)) by ring. apply (ratios x k Hk (2 * k - 2 * j)). lia.
Qed.

Lemma power_nonneg a k : sle s0 a -> sle s0 (power a k).
Proof. intros Ha. induction k as [|k IH]; [apply (slt_sle O), (one_pos F O OS OP)|]. cbn [power]. now apply OP. Qed.

Lemma moment_growth x k : nonzero_vec n (P k x) -> forall j, (j <= 2 * k)%nat -> sle (moment x j) (power (rayleigh A n (P k x)) j * moment x 0).
Proof.
  intros H. induction j as [|j IH]; intros Hj.
  - cbn [power]. replace (s1 * moment x 0) with (moment x 0) by ring. apply (sle_refl O).
  - replace (Datatypes.S j) with (j + 1)%nat at 1 by lia. apply (sle_trans O _ _ _ (ratios x k H (2 * k - j) j ltac:(lia))). cbn [power].
    replace (rayleigh A n (P k x) * power (rayleigh A n (P k x)) j * moment x 0) with (rayleigh A n (P k x) * (power (rayleigh A n (P k x)) j * moment x 0)) by ring.
    apply (mul_le F O OS OP); [now apply quotient_nonneg|]. apply IH. lia.
Qed.

Lemma pow_inner_eigen x v lam k : (forall i, (0 <= i < n)%Z -> mat_vec A n v i = lam * v i) -> inner n (P k x) v = power lam k * inner n x v.
Proof.
  intros Hv. induction k as [|k IH]; [cbn; ring|]. rewrite pow_vec_S. rewrite <- (inner_sym R n A (P k x) v Hs).
  rewrite (inner_scaled F n (P k x) (mat_vec A n v) (P k x) v s1 lam) by (auto; intros; ring). rewrite IH. cbn [power]. ring.
Qed.
Lemma power_add a j k : power a (j + k) = power a j * power a k.
Proof. induction j as [|j IH]; cbn [power Nat.add]; [ring|]. rewrite IH. ring. Qed.

(** r^(2k) |x|^2 |v|^2 >= lam^(2k) (x . v)^2 *)
Lemma quotient_converges x v lam k : (forall i, (0 <= i < n)%Z -> mat_vec A n v i = lam * v i) -> nonzero_vec n (P k x) ->
  sle (power lam (2 * k) * (inner n x v * inner n x v)) (power (rayleigh A n (P k x)) (2 * k) * (inner n x x * inner n v v)).
Proof.
  intros Hv Hk. apply (sle_trans O _ (inner n (P k x) (P k x) * inner n v v)).
  - pose proof (cauchy_plain (P k x) v) as H. rewrite !(pow_inner_eigen x v lam k Hv) in H.
    replace (2 * k)%nat with (k + k)%nat by lia. rewrite power_add.
    replace (power lam k * power lam k * (inner n x v * inner n x v)) with (power lam k * inner n x v * (power lam k * inner n x v)) by ring. exact H.
  - rewrite moment_split. replace (k + k)%nat with (2 * k)%nat by lia. pose proof (moment_growth x k Hk (2 * k) (le_n _)) as H. change (moment x 0) with (inner n x x) in H.
    replace (moment x (2 * k) * inner n v v) with (inner n v v * moment x (2 * k)) by ring.
    replace (power (rayleigh A n (P k x)) (2 * k) * (inner n x x * inner n v v)) with (inner n v v * (power (rayleigh A n (P k x)) (2 * k) * inner n x x)) by ring.
    apply (mul_le F O OS OP); [apply (inner_nonneg F O OS OP)|exact H].
Qed.

End PowerMore.
