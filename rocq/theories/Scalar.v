(** The value types [T] of the templates in /repo (double, int): a record of
    operations *without* laws.  A theorem that needs an algebraic law says so in
    a hypothesis ([ring_laws S], ...).  Theorems without such a hypothesis hold
    for every interpretation of the operations, IEEE arithmetic included. *)

From Coq Require Import ZArith List Lia Bool Ring_theory Field_theory Ring Qcanon PrimFloat.
From Verif Require Import Base.
Open Scope Z_scope.

Record scalar : Type := Scalar {
  car : Type;
  s0 : car;                       (* 0 *)
  s1 : car;                       (* 1 *)
  sadd : car -> car -> car;       (* a + b *)
  ssub : car -> car -> car;       (* a - b *)
  smul : car -> car -> car;       (* a * b *)
  sdiv : car -> car -> car;       (* a / b *)
  sopp : car -> car;              (* -a *)
  sabs : car -> car;              (* std::abs, std::fabs *)
  slt : car -> car -> bool;       (* a < b *)
  seqb : car -> car -> bool       (* a == b *)
}.

Arguments s0 {s}.
Arguments s1 {s}.
Arguments sadd {s} _ _.
Arguments ssub {s} _ _.
Arguments smul {s} _ _.
Arguments sdiv {s} _ _.
Arguments sopp {s} _.
Arguments sabs {s} _.
Arguments slt {s} _ _.
Arguments seqb {s} _ _.

Declare Scope S_scope.
Delimit Scope S_scope with S.
Infix "+" := sadd : S_scope.
Infix "-" := ssub : S_scope.
Infix "*" := smul : S_scope.
Infix "/" := sdiv : S_scope.
Notation "- x" := (sopp x) : S_scope.

(** Exact arithmetic: the operations form a commutative ring. *)
Definition ring_laws (S : scalar) : Prop :=
  ring_theory (@s0 S) s1 sadd smul ssub sopp (@eq (car S)).

(** Exact arithmetic with division. *)
Definition field_laws (S : scalar) : Prop :=
  field_theory (@s0 S) s1 sadd smul ssub sopp sdiv (fun x => sdiv s1 x) (@eq (car S)).

(** [==] decides equality (false for IEEE doubles because of NaN and -0). *)
Definition eqb_laws (S : scalar) : Prop :=
  forall a b : car S, seqb a b = true <-> a = b.

(** [<] is a strict total order. *)
Record order_laws (S : scalar) : Prop := {
  slt_irrefl : forall a : car S, slt a a = false;
  slt_trans : forall a b c : car S, slt a b = true -> slt b c = true -> slt a c = true;
  slt_total : forall a b : car S, slt a b = false -> slt b a = false -> a = b
}.

(** [std::abs] and the order fit together as in an ordered ring. *)
Record abs_laws (S : scalar) : Prop := {
  sabs_zero : forall a : car S, sabs a = s0 <-> a = s0;
  sabs_nonneg : forall a : car S, slt (sabs a) s0 = false
}.

(** a <= b *)
Definition sle {S : scalar} (a b : car S) : Prop := slt b a = false.

(** Sums, magnitudes and the order fit together as in an ordered ring. *)
Record sum_order_laws (S : scalar) : Prop := {
  sle_add : forall a b c d : car S, sle a b -> sle c d -> sle (sadd a c) (sadd b d);
  sabs_add : forall a b : car S, sle (sabs (sadd a b)) (sadd (sabs a) (sabs b))
}.

(** C++ [int] (without overflow). *)
Definition Zs : scalar :=
  Scalar Z 0 1 Z.add Z.sub Z.mul Z.quot Z.opp Z.abs Z.ltb Z.eqb.

(** Exact rationals. *)
Definition Qcs : scalar :=
  Scalar Qc (0%Qc) (1%Qc) Qcplus Qcminus Qcmult Qcdiv Qcopp
    (fun x => if Qclt_le_dec x 0%Qc then Qcopp x else x)
    (fun x y => if Qclt_le_dec x y then true else false)
    (fun x y => if Qc_eq_dec x y then true else false).

(** IEEE binary64 with round to nearest even: C++ [double]. *)
Definition Fs : scalar :=
  Scalar float PrimFloat.zero PrimFloat.one PrimFloat.add PrimFloat.sub PrimFloat.mul
    PrimFloat.div PrimFloat.opp PrimFloat.abs PrimFloat.ltb PrimFloat.eqb.

Lemma Zs_ring : ring_laws Zs.
Proof. exact Zth. Qed.

Lemma Zs_eqb : eqb_laws Zs.
Proof. intros a b. cbn. apply Z.eqb_eq. Qed.

Lemma Zs_order : order_laws Zs.
Proof. split; cbn; intros; lia. Qed.

Lemma Zs_abs : abs_laws Zs.
Proof. split; cbn; intros; lia. Qed.

Lemma Zs_sum_order : sum_order_laws Zs.
Proof. split; unfold sle; cbn; intros; lia. Qed.

Lemma Qcs_field : field_laws Qcs.
Proof.
  unfold field_laws. cbn.
  destruct Qcft as [Hr H10 Hd Hi]. constructor; auto.
  - intros p q. unfold Qcdiv. now rewrite Qcmult_1_l.
  - intros p Hp. unfold Qcdiv. rewrite Qcmult_1_l. now apply Qcmult_inv_l.
Qed.

Lemma field_ring S : field_laws S -> ring_laws S.
Proof. intros H. exact (F_R H). Qed.

Lemma Qcs_ring : ring_laws Qcs.
Proof. apply field_ring, Qcs_field. Qed.

Lemma Qcs_eqb : eqb_laws Qcs.
Proof. intros a b. cbn. destruct (Qc_eq_dec a b); split; intros; congruence. Qed.

Lemma Qcs_order : order_laws Qcs.
Proof.
  split; cbn.
  - intros a. destruct (Qclt_le_dec a a) as [H|]; [|reflexivity]. now apply Qclt_not_eq in H.
  - intros a b c. destruct (Qclt_le_dec a b), (Qclt_le_dec b c); try discriminate.
    intros _ _. destruct (Qclt_le_dec a c) as [|H]; [reflexivity|].
    exfalso. apply (Qcle_not_lt _ _ H). eapply Qclt_trans; eauto.
  - intros a b. destruct (Qclt_le_dec a b), (Qclt_le_dec b a); try discriminate.
    intros _ _. now apply Qcle_antisym.
Qed.

Lemma Qcs_abs : abs_laws Qcs.
Proof.
  split; cbn; intros a; destruct (Qclt_le_dec a 0) as [H|H].
  - split; intros E.
    + rewrite <- (Qcopp_involutive a), E. reflexivity.
    + subst. reflexivity.
  - reflexivity.
  - destruct (Qclt_le_dec (-a)%Qc 0) as [H1|]; [|reflexivity]. exfalso.
    apply (Qclt_not_le _ _ H1).
    apply Qclt_le_weak in H. apply Qcopp_le_compat in H. exact H.
  - destruct (Qclt_le_dec a 0); [|reflexivity]. exfalso. eapply Qcle_not_lt; eauto.
Qed.
