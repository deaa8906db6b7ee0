(** The real numbers as scalars, for the theorems that need square roots. *)

From Coq Require Import ZArith Bool Reals Lra Ring_theory Field_theory.
From Verif Require Import Base Scalar Spec Block Solver SolverSpec.
Open Scope R_scope.

(** Real arithmetic: what [double] approximates. *)
Definition Rs : scalar :=
  Scalar R 0 1 Rplus Rminus Rmult Rdiv Ropp Rabs
    (fun x y => if Rlt_dec x y then true else false)
    (fun x y => if Req_EM_T x y then true else false).

Lemma Rle_sle (a b : R) : sle (S := Rs) a b <-> a <= b.
Proof. unfold sle. cbn. destruct (Rlt_dec b a); split; intros; try discriminate; try reflexivity; lra. Qed.

Lemma Rs_field : field_laws Rs.
Proof.
  unfold field_laws. cbn. constructor.
  - constructor; intros; ring.
  - lra.
  - intros p q. unfold Rdiv. ring.
  - intros p Hp. unfold Rdiv. rewrite Rmult_1_l. apply Rinv_l. exact Hp.
Qed.
Lemma Rs_eqb : eqb_laws Rs.
Proof. intros a b. cbn. destruct (Req_EM_T a b); split; intros; congruence. Qed.
Lemma Rs_order : order_laws Rs.
Proof.
  split; cbn; intros.
  - destruct (Rlt_dec a a); [lra|reflexivity].
  - destruct (Rlt_dec a b), (Rlt_dec b c), (Rlt_dec a c); try discriminate; try reflexivity; lra.
  - destruct (Rlt_dec a b), (Rlt_dec b a); try discriminate; lra.
Qed.
Lemma Rs_abs : abs_laws Rs.
Proof.
  split; cbn; intros a.
  - split; intros H; [|subst; apply Rabs_R0]. destruct (Req_dec a 0) as [E|E]; [exact E|]. apply Rabs_no_R0 in E. contradiction.
  - destruct (Rlt_dec (Rabs a) 0) as [H|]; [|reflexivity]. pose proof (Rabs_pos a). lra.
Qed.
Lemma Rs_sum_order : sum_order_laws Rs.
Proof.
  split.
  - intros a b c d H1 H2. apply Rle_sle in H1, H2. apply Rle_sle. cbn. lra.
  - intros a b. apply Rle_sle. cbn. apply Rabs_triang.
Qed.
Lemma Rs_prod_order : prod_order_laws Rs.
Proof. intros a b Ha Hb. apply Rle_sle in Ha, Hb. apply Rle_sle. cbn. apply Rmult_le_pos; assumption. Qed.
Lemma Rs_abs_square : abs_square_law Rs.
Proof. intros a. cbn. rewrite <- Rabs_mult. apply Rabs_right. apply Rle_ge, Rle_0_sqr. Qed.
Lemma Rs_root : root_laws (S := Rs) sqrt.
Proof.
  intros a Ha. apply Rle_sle in Ha. cbn in Ha. split; [apply Rle_sle, sqrt_pos|]. cbn. apply sqrt_sqrt. exact Ha.
Qed.
