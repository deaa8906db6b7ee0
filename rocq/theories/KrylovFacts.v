(** Linear algebra behind the convergence theorems: more than n vectors of length n are linearly
    dependent, so an orthogonal family has at most n members. *)

From Coq Require Import ZArith List Bool Lia Ring Field_theory.
From Verif Require Import Base Scalar Spec SumFacts LoopFacts Solver SolverSpec SolverProofs SolverEnergy.
Import ListNotations.
Open Scope Z_scope.

Section Krylov.
Context {S : scalar}.
Notation T := (car S).
Context (F : field_laws S) (E : eqb_laws S) (O : order_laws S) (OS : sum_order_laws S) (OP : prod_order_laws S).
Let R : ring_laws S := field_ring S F.
Let Rth : ring_theory (@s0 S) s1 sadd smul ssub sopp (@eq (car S)) := R.
Add Ring SRingK : Rth.
Local Open Scope S_scope.

(* ---------------------------------------------------------------- linear combinations *)

Fixpoint lin (c : list T) (vs : list (vect S)) (i : Z) : T :=
  match c, vs with
  | a :: c, v :: vs => a * v i + lin c vs i
  | _, _ => s0
  end.

Definition dependent (n : Z) (vs : list (vect S)) : Prop :=
  exists c, length c = length vs /\ (exists a, In a c /\ a <> s0) /\ forall i, (0 <= i < n)%Z -> lin c vs i = s0.

Lemma lin_app c1 c2 l1 l2 i : length c1 = length l1 -> lin (c1 ++ c2) (l1 ++ l2) i = lin c1 l1 i + lin c2 l2 i.
Proof.
  revert l1. induction c1 as [|a c1 IH]; intros [|v l1] H; try discriminate; cbn [app lin]; [ring|].
  rewrite IH by (cbn in H; lia). ring.
Qed.

Lemma lin_reduce c ws (v : vect S) i0 i q :
  (forall w, In w ws -> q w * v i0 = w i0) ->
  lin c (map (fun w j => w j - q w * v j) ws) i0 = s0 /\
  exists k, lin c (map (fun w j => w j - q w * v j) ws) i = lin c ws i - k * v i /\ k * v i0 = lin c ws i0.
Proof.
  revert c. induction ws as [|w ws IH]; intros c H; destruct c as [|a c]; cbn [map lin];
    try (split; [reflexivity|exists s0; split; ring]).
  destruct (IH c (fun w' Hw => H w' (or_intror Hw))) as (H0 & k & Hk & Hk0). split.
  - rewrite H0. rewrite (H w (or_introl eq_refl)). ring.
  - exists (a * q w + k). rewrite Hk. split; [ring|]. rewrite <- Hk0, <- (H w (or_introl eq_refl)). ring.
Qed.

Lemma lin_zero c vs i : (forall v, In v vs -> v i = s0) -> lin c vs i = s0.
Proof.
  revert c. induction vs as [|v vs IH]; intros [|a c] H; cbn [lin]; try reflexivity.
  rewrite (H v (or_introl eq_refl)), IH by (intros w Hw; apply H; right; exact Hw). ring.
Qed.

Lemma find_nonzero (vs : list (vect S)) i :
  (forall v, In v vs -> v i = s0) \/ exists l1 v l2, vs = l1 ++ v :: l2 /\ v i <> s0.
Proof.
  induction vs as [|v vs IH]; [left; intros v []|].
  destruct (seqb (v i) s0) eqn:Hz.
  - apply E in Hz. destruct IH as [IH|(l1 & v' & l2 & -> & H)].
    + left. intros w [<-|Hw]; auto.
    + right. exists (v :: l1), v', l2. split; [reflexivity|exact H].
  - right. exists [], v, vs. split; [reflexivity|]. intros H. apply (E (v i) s0) in H. congruence.
Qed.

Theorem too_many_vectors : forall (n : nat) (vs : list (vect S)), (n < length vs)%nat -> dependent (Z.of_nat n) vs.
Proof.
  induction n as [|n IH]; intros vs Hl.
  - exists (map (fun _ => s1) vs). split; [apply map_length|]. split; [|intros i Hi; lia].
    destruct vs as [|v vs]; [cbn in Hl; lia|]. exists s1. split; [left; reflexivity|apply F].
  - destruct (find_nonzero vs (Z.of_nat n)) as [Hz|(l1 & v & l2 & -> & Hv)].
    + destruct (IH vs ltac:(lia)) as (c & Hc & Hnz & H). exists c. split; [exact Hc|]. split; [exact Hnz|].
      intros i Hi. destruct (Z.eq_dec i (Z.of_nat n)) as [->|Hne]; [apply lin_zero, Hz|apply H; lia].
    + set (i0 := Z.of_nat n) in *. set (q := fun w : vect S => w i0 / v i0).
      set (ws := l1 ++ l2). set (red := fun (w : vect S) j => w j - q w * v j).
      assert (Hws : (n < length (map red ws))%nat).
      { rewrite map_length. unfold ws. rewrite app_length in *. cbn [length] in Hl. lia. }
      assert (Hq : forall w, In w ws -> q w * v i0 = w i0) by (intros w _; apply (div_mul F); exact Hv).
      destruct (IH _ Hws) as (c & Hc & Hnz & H). rewrite map_length in Hc.
      set (c1 := firstn (length l1) c). set (c2 := skipn (length l1) c).
      assert (Ec : c = c1 ++ c2) by (symmetry; apply firstn_skipn).
      assert (Hl1 : length c1 = length l1).
      { unfold c1. rewrite firstn_length. unfold ws in Hc. rewrite app_length in Hc. lia. }
      assert (Hl2 : length c2 = length l2).
      { unfold c2. rewrite skipn_length. unfold ws in Hc. rewrite app_length in Hc. lia. }
      destruct (lin_reduce c ws v i0 i0 q Hq) as (Hi0 & k & _ & Hk0).
      exists (c1 ++ (- k) :: c2). split; [rewrite !app_length; cbn [length]; lia|]. split.
      * destruct Hnz as (a & Ha & Hane). exists a. split; [|exact Hane]. rewrite Ec in Ha.
        apply in_app_or in Ha. apply in_or_app. destruct Ha; [left; assumption|right; right; assumption].
      * intros i Hi. rewrite lin_app by exact Hl1. cbn [lin].
        destruct (lin_reduce c ws v i0 i q Hq) as (_ & k' & Hk' & Hk0').
        assert (Ek : k' = k).
        { transitivity (k' * v i0 / v i0).
          - pose proof (Fdiv_def F) as D. rewrite D. pose proof (Finv_l F (v i0) Hv) as Hi'. cbv beta in Hi'.
            transitivity (k' * (s1 / v i0 * v i0)); [rewrite Hi'; ring|ring].
          - rewrite Hk0', <- Hk0. pose proof (Fdiv_def F) as D. rewrite D.
            pose proof (Finv_l F (v i0) Hv) as Hi'. cbv beta in Hi'.
            transitivity (k * (s1 / v i0 * v i0)); [ring|rewrite Hi'; ring]. }
        subst k'.
        assert (El : lin c ws i = lin c1 l1 i + lin c2 l2 i) by (rewrite Ec; apply lin_app; exact Hl1).
        transitivity (lin c ws i - k * v i); [rewrite El; ring|]. rewrite <- Hk'.
        destruct (Z.eq_dec i i0) as [->|Hne]; [exact Hi0|]. apply H. unfold i0 in *. lia.
Qed.

(* ---------------------------------------------------------------- an inner product given by a matrix *)

Section Ip.
Context (n : Z) (G : mat S) (Gsym : mat_sym n G).

Definition ip (x y : vect S) : T := inner n x (mat_vec G n y).

Lemma ip_sym x y : ip x y = ip y x.
Proof. unfold ip. rewrite (inner_sym R) by exact Gsym. apply (inner_comm R). Qed.
Lemma ip_lin_l x y z c : ip (fun i => y i + c * z i) x = ip y x + c * ip z x.
Proof. apply (inner_lin_l R). Qed.
Lemma ip_lin_r x y z c : ip x (fun i => y i + c * z i) = ip x y + c * ip x z.
Proof. rewrite ip_sym, ip_lin_l, (ip_sym y), (ip_sym z). reflexivity. Qed.
Lemma ip_ext x x' y y' :
  (forall i, (0 <= i < n)%Z -> x i = x' i) -> (forall i, (0 <= i < n)%Z -> y i = y' i) -> ip x y = ip x' y'.
Proof.
  intros Hx Hy. apply inner_ext; [exact Hx|]. intros i _. apply mat_vec_ext; [reflexivity|]. exact Hy.
Qed.
Lemma ip_0_l x y : (forall i, (0 <= i < n)%Z -> x i = s0) -> ip x y = s0.
Proof. apply (inner_0_l R). Qed.
Lemma ip_0_r x y : (forall i, (0 <= i < n)%Z -> y i = s0) -> ip x y = s0.
Proof. intros H. rewrite ip_sym. apply ip_0_l, H. Qed.
Lemma ip_mul_l x y c : ip (fun i => c * y i) x = c * ip y x.
Proof.
  rewrite (ip_ext _ (fun i => s0 + c * y i) x x); [|intros; ring|reflexivity].
  rewrite (ip_lin_l x (fun _ => s0)), (ip_0_l (fun _ => s0)) by reflexivity. ring.
Qed.

(** Newest first: every vector is orthogonal to the later ones in the list. *)
Fixpoint ortho (vs : list (vect S)) : Prop :=
  match vs with
  | [] => True
  | v :: vs => (forall h, In h vs -> ip v h = s0) /\ ip v v <> s0 /\ ortho vs
  end.

Lemma ip_lin c vs y : length c = length vs -> (forall h, In h vs -> ip y h = s0) -> ip y (lin c vs) = s0.
Proof.
  revert c. induction vs as [|v vs IH]; intros [|a c] Hl H; try discriminate.
  - apply ip_0_r. reflexivity.
  - transitivity (ip y (fun i => lin c vs i + a * v i)).
    + apply ip_ext; [reflexivity|]. intros i _. cbn [lin]. ring.
    + rewrite ip_lin_r, IH, (H v (or_introl eq_refl)); [ring|cbn in Hl; lia|].
      intros h Hh. apply H. right. exact Hh.
Qed.

Lemma ortho_independent vs : ortho vs -> forall c, length c = length vs ->
  (forall i, (0 <= i < n)%Z -> lin c vs i = s0) -> forall a, In a c -> a = s0.
Proof.
  induction vs as [|v vs IH]; intros Ho c Hl Hz; destruct c as [|a c]; try discriminate; [intros a []|].
  destruct Ho as (H1 & H2 & H3).
  assert (Ha : a = s0).
  { assert (Hp : ip v (lin (a :: c) (v :: vs)) = s0) by (apply ip_0_r; exact Hz).
    assert (Hq : ip v (lin (a :: c) (v :: vs)) = a * ip v v).
    { transitivity (ip v (fun i => lin c vs i + a * v i)).
      - apply ip_ext; [reflexivity|]. intros i _. cbn [lin]. ring.
      - rewrite ip_lin_r, ip_lin; [ring|cbn in Hl; lia|exact H1]. }
    rewrite Hq in Hp. transitivity (a * ip v v * (s1 / ip v v)).
    - pose proof (Finv_l F (ip v v) H2) as Hi. cbv beta in Hi.
      transitivity (a * (s1 / ip v v * ip v v)); [rewrite Hi; ring|ring].
    - rewrite Hp. ring. }
  intros b [<-|Hb]; [exact Ha|]. apply (IH H3 c); auto.
  intros i Hi. pose proof (Hz i Hi) as H. cbn [lin] in H. rewrite Ha in H. transitivity (s0 * v i + lin c vs i); [ring|exact H].
Qed.

Theorem ortho_length vs : (0 <= n)%Z -> ortho vs -> (Z.of_nat (length vs) <= n)%Z.
Proof.
  intros Hn Ho. destruct (Z_le_gt_dec (Z.of_nat (length vs)) n) as [H|H]; [exact H|]. exfalso.
  destruct (too_many_vectors (Z.to_nat n) vs ltac:(lia)) as (c & Hc & (a & Ha & Hne) & Hz).
  rewrite Z2Nat.id in Hz by exact Hn. apply Hne. apply (ortho_independent vs Ho c Hc Hz a Ha).
Qed.

End Ip.

(* ---------------------------------------------------------------- the identity *)

Notation idm := (@id_mat S).

Lemma idm_vec n (x : vect S) i : (0 <= i < n)%Z -> mat_vec idm n x i = x i.
Proof.
  intros Hi. unfold mat_vec. rewrite (sum_range_ext 0 n _ (fun j => if (j =? i)%Z then x j else s0)).
  - rewrite (sum_range_delta R) by lia. reflexivity.
  - intros j _. unfold id_mat. rewrite (Z.eqb_sym j i). destruct (i =? j)%Z; ring.
Qed.

Lemma idm_list n (x : list T) : zlen x = n -> mat_list idm n x = x.
Proof.
  intros Hx. assert (Hn : (0 <= n)%Z) by (subst; unfold zlen; lia). apply (list_ext s0).
  - rewrite zlen_mat_list; lia.
  - intros i Hi. rewrite zlen_mat_list in Hi by lia. exact (eq_trans (mat_list_at idm n x i Hi) (idm_vec n _ i Hi)).
Qed.

Lemma idm_sym n : mat_sym n idm.
Proof. intros i j _ _. unfold id_mat. rewrite Z.eqb_sym. reflexivity. Qed.

Lemma mul_cancel (a b : T) : a * b = s0 -> b <> s0 -> a = s0.
Proof.
  intros H Hb. pose proof (Finv_l F b Hb) as Hi. cbv beta in Hi.
  transitivity (a * (s1 / b * b)); [rewrite Hi; ring|]. transitivity (a * b * (s1 / b)); [ring|]. rewrite H. ring.
Qed.

Lemma sle_neq_slt (a b : T) : sle a b -> a <> b -> slt a b = true.
Proof.
  intros H Hn. destruct (slt a b) eqn:Hl; [reflexivity|]. exfalso. apply Hn. apply (slt_total _ O); assumption.
Qed.

Lemma slt_sle_trans (a b c : T) : slt a b = true -> sle b c -> slt a c = true.
Proof.
  intros H1 H2. apply sle_neq_slt; [apply (sle_trans O _ b); [apply (slt_sle O)|]; assumption|].
  intros ->. unfold sle in H2. congruence.
Qed.

Lemma inner_self_pos n (x : vect S) : (exists i, (0 <= i < n)%Z /\ x i <> s0) -> slt s0 (inner n x x) = true.
Proof.
  intros (i & Hi & Hx). unfold inner.
  rewrite (sum_range_split R 0 i n), (sum_range_first i n) by lia.
  set (a := sum_range 0 i _). set (b := sum_range (i + 1) n _).
  assert (Ha : sle s0 a) by (apply (sum_nonneg R O OS); intros; apply (sq_nonneg R O OS OP)).
  assert (Hb : sle s0 b) by (apply (sum_nonneg R O OS); intros; apply (sq_nonneg R O OS OP)).
  assert (Hp : slt s0 (x i * x i) = true).
  { apply sle_neq_slt; [apply (sq_nonneg R O OS OP)|]. intros H. apply Hx. apply (mul_cancel (x i) (x i)); [symmetry; exact H|exact Hx]. }
  apply (slt_sle_trans _ _ _ Hp).
  pose proof (sle_add _ OS s0 a (x i * x i) (x i * x i) Ha (sle_refl O _)) as H1.
  pose proof (sle_add _ OS _ _ s0 b H1 Hb) as H2.
  replace (s0 + x i * x i + s0) with (x i * x i) in H2 by ring.
  replace (a + x i * x i + b) with (a + (x i * x i + b)) in H2 by ring. exact H2.
Qed.

Lemma idm_pos n : mat_pos_def n idm.
Proof.
  intros x Hx. rewrite (inner_ext n x x (mat_vec idm n x) x); [|reflexivity|intros; apply idm_vec; lia].
  apply inner_self_pos, Hx.
Qed.

End Krylov.
