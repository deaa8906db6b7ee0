(** What the factorisation gives, and when it exists. *)

From Coq Require Import ZArith List Bool Lia Ring Field_theory.
From Verif Require Import Base Scalar Spec SumFacts LoopFacts Dense DenseFacts DenseProofs Vec SolverSpec SolverEnergy KrylovFacts LuQr LuQrSpec LuProofs LuMore LuLinks QrHeap QrProofs.
Import ListNotations.
Open Scope Z_scope.

Section QrMore.
Context {S : scalar}.
Notation T := (car S).
Context (F : field_laws S) (E : eqb_laws S) (O : order_laws S) (OS : sum_order_laws S) (OP : prod_order_laws S).
Let R : ring_laws S := field_ring S F.
Let Rth : ring_theory (@s0 S) s1 sadd smul ssub sopp (@eq (car S)) := R.
Add Ring SRingQrM : Rth.

Lemma upper_mul_vec (n : Z) (Qa r A : mat S) (m : Z) (x : vect S) k : 0 <= k < m -> same_mat m n (mat_mul Qa r n) A ->
  mat_vec A n x k = mat_vec Qa n (mat_vec r n x) k.
Proof.
  intros Hk HM. rewrite <- (mat_vec_mul R). apply sum_range_ext. intros j Hj. rewrite <- (HM k j) by lia. reflexivity.
Qed.

(** An orthonormal matrix keeps inner products. *)
Lemma orthonormal_T (m n : Z) (Qa : mat S) (x : vect S) k : orthonormal m n Qa -> 0 <= k < n -> mat_vec (mat_T Qa) m (mat_vec Qa n x) k = x k.
Proof.
  intros HQ Hk. rewrite <- (mat_vec_mul R). unfold mat_vec. rewrite (sum_range_ext 0 n _ (fun j => if j =? k then x j else s0)).
  - rewrite (sum_range_delta R) by lia. reflexivity.
  - intros j Hj. rewrite (HQ k j) by lia. unfold id_mat. rewrite (Z.eqb_sym k j). destruct (j =? k); ring.
Qed.

Lemma product_independent (m n : Z) (Qa r A : mat S) : orthonormal m n Qa -> upper n r -> nonzero_diag n r -> same_mat m n (mat_mul Qa r n) A ->
  independent_columns m n A.
Proof.
  intros HQ HU HD HM x Hx. apply (upper_zero F n r x HU HD). intros k Hk. rewrite <- (orthonormal_T m n Qa (mat_vec r n x) k HQ Hk).
  unfold mat_vec at 1. apply (sum_range_0 R). intros j Hj. rewrite <- (upper_mul_vec n Qa r A m x j Hj HM). rewrite Hx by lia. ring.
Qed.

Lemma pos_nonzero n (r : mat S) : pos_diag n r -> nonzero_diag n r.
Proof. intros H c Hc K. pose proof (H c Hc) as P. rewrite K, (slt_irrefl _ O) in P. discriminate. Qed.

Context (root : T -> T) (Hroot : root_laws root).

Lemma qr_decomp_result (m n : Z) (A : dense S) : is_dense m n A ->
  match qr_decomp root A with
  | Ok (q, r) => is_dense m n q /\ is_dense n n r /\ qr_of m n (dense_mat A) (dense_mat q) (dense_mat r) /\ independent_columns m n (dense_mat A)
  | Fail e => e = FAssert /\ ~ independent_columns m n (dense_mat A)
  end.
Proof.
  intros HA. pose proof (qr_decomp_facts F E O OS OP root Hroot m n A HA) as H. destruct (qr_decomp root A) as [(q & r)|e]; [|exact H].
  destruct H as (h & K & Hq & Eq). assert (HH : qr_of m n (dense_mat A) (dense_mat q) (dense_mat r)).
  { destruct K as [K1 K2 K3 K4 K5 K6 K7]. split; [|split; [exact K6|split; [exact K7|]]].
    - intros i j Hi Hj. rewrite Eq. exact (K3 i j Hi Hj).
    - intros i j Hi Hj. rewrite Eq. rewrite <- (K4 j i) by lia. unfold mat_mul. rewrite (sum_range_split R 0 (j + 1) n) by lia.
      rewrite (sum_range_0 R (j + 1) n); [ring|]. intros l Hl. rewrite (K6 l j) by lia. ring. }
  split; [exact Hq|]. split; [exact (qf_R _ _ _ _ _ _ K)|]. split; [exact HH|]. destruct HH as (H3 & H4 & H5 & H6). apply (product_independent m n (dense_mat q) (dense_mat r)); try assumption. now apply pos_nonzero.
Qed.

Lemma qr_decomp_ok (m n : Z) (A : dense S) : is_dense m n A -> independent_columns m n (dense_mat A) ->
  exists q r, qr_decomp root A = Ok (q, r) /\ is_dense m n q /\ is_dense n n r /\ qr_of m n (dense_mat A) (dense_mat q) (dense_mat r).
Proof.
  intros HA HI. pose proof (qr_decomp_result m n A HA) as H. destruct (qr_decomp root A) as [(q & r)|e]; [|destruct H; contradiction].
  exists q, r. split; [reflexivity|]. destruct H as (H1 & H2 & H3 & _). auto.
Qed.
Lemma qr_decomp_fails (m n : Z) (A : dense S) : is_dense m n A -> (qr_decomp root A = Fail FAssert <-> ~ independent_columns m n (dense_mat A)).
Proof.
  intros HA. pose proof (qr_decomp_result m n A HA) as H. destruct (qr_decomp root A) as [(q & r)|e].
  - split; [discriminate|]. intros K. destruct H as (_ & _ & _ & H). contradiction.
  - destruct H as (-> & H). split; auto.
Qed.

(** More columns than rows. *)
Lemma lin_mat_vec (n : Z) (A : mat S) (c : list T) r : 0 <= n -> zlen c = n -> lin c (map (fun j i => A i j) (zrange 0 n)) r = mat_vec A n (fun j => zn s0 c j) r.
Proof.
  intros Hn Hc. unfold mat_vec. revert c Hc. enough (H : forall k lo (c : list T), zlen c = Z.of_nat k -> lin c (map (fun j i => A i j) (zrange lo (lo + Z.of_nat k))) r = sum_range lo (lo + Z.of_nat k) (fun j => smul (A r j) (zn s0 c (j - lo)))).
  { intros c Hc. specialize (H (Z.to_nat n) 0 c). rewrite Z2Nat.id in H by lia. rewrite Z.add_0_l in H. rewrite H by exact Hc. apply sum_range_ext. intros j _. now rewrite Z.sub_0_r. }
  induction k as [|k IH]; intros lo c Hc.
  - rewrite Z.add_0_r. rewrite sum_range_empty by lia. rewrite zrange_empty by lia. destruct c; reflexivity.
  - destruct c as [|t c]; [unfold zlen in Hc; cbn in Hc; lia|]. rewrite zlen_cons in Hc. rewrite zrange_cons by lia. cbn [map lin].
    rewrite (sum_range_first lo) by lia. replace (lo + Z.of_nat (Datatypes.S k)) with (lo + 1 + Z.of_nat k) by lia. rewrite IH by lia.
    replace (lo - lo) with 0 by lia. change (zn s0 (t :: c) 0) with t.
    rewrite (sum_range_ext (lo + 1) _ (fun j => smul (A r j) (zn s0 (t :: c) (j - lo))) (fun j => smul (A r j) (zn s0 c (j - (lo + 1))))); [ring|].
    intros j Hj. rewrite zn_cons_pos by lia. do 2 f_equal. lia.
Qed.
Lemma wide_dependent (m n : Z) (A : mat S) : 0 <= m < n -> ~ independent_columns m n A.
Proof.
  intros Hm HI. destruct (too_many_vectors F E (Z.to_nat m) (map (fun j i => A i j) (zrange 0 n))) as (c & Hc & (t & Ht & Nt) & Hz).
  { rewrite map_length. pose proof (zlen_zrange 0 n ltac:(lia)) as L. unfold zlen in L. lia. }
  rewrite Z2Nat.id in Hz by lia. assert (Lc : zlen c = n) by (unfold zlen; rewrite Hc, map_length; pose proof (zlen_zrange 0 n ltac:(lia)) as L; unfold zlen in L; lia).
  apply In_zn with (d := s0) in Ht. destruct Ht as (i & Hi & Et). apply Nt. rewrite <- Et. apply (HI (fun j => zn s0 c j)); [|lia].
  intros r Hr. rewrite <- lin_mat_vec by lia. now apply Hz.
Qed.
Lemma qr_decomp_wide (m n : Z) (A : dense S) : is_dense m n A -> m < n -> qr_decomp root A = Fail FAssert.
Proof. intros HA Hm. apply (qr_decomp_fails m n A HA). apply wide_dependent. destruct (sizes m n A HA) as (H1 & _). lia. Qed.

(** The factors are the only ones. *)
Lemma sq_pos_inj (x y : T) : slt s0 x = true -> slt s0 y = true -> smul x x = smul y y -> x = y.
Proof.
  intros Hx Hy H. assert (H0 : smul (ssub x y) (sadd x y) = s0) by (transitivity (ssub (smul x x) (smul y y)); [ring|rewrite H; ring]).
  assert (N : sadd x y <> s0).
  { intros K. pose proof (sle_add _ OS s0 x y y (slt_sle O _ _ Hx) (sle_refl O y)) as L. rewrite K in L. replace (sadd s0 y) with y in L by ring. unfold sle in L. congruence. }
  pose proof (mul_zero F _ _ H0 N) as K. transitivity (sadd (ssub x y) y); [ring|rewrite K; ring].
Qed.

Lemma qr_unique (m n : Z) (A Q1 R1 Q2 R2 : mat S) : qr_of m n A Q1 R1 -> qr_of m n A Q2 R2 ->
  same_mat m n Q1 Q2 /\ same_mat n n R1 R2.
Proof.
  intros (O1 & U1 & D1 & M1) (O2 & U2 & D2 & M2).
  assert (Hs : forall (Q R : mat S) c k, upper n R -> same_mat m n (mat_mul Q R n) A -> 0 <= c < n -> 0 <= k < m ->
     sadd (sum_range 0 c (fun l => smul (Q k l) (R l c))) (smul (Q k c) (R c c)) = A k c).
  { intros Q R' c k HU HM Hc Hk. rewrite <- (HM k c) by lia. unfold mat_mul. rewrite (sum_range_split R 0 (c + 1) n), (sum_range_last R 0 c) by lia.
    rewrite (sum_range_0 R (c + 1) n). 2:{ intros l Hl. rewrite HU by lia. ring. } ring. }
  assert (Hr : forall (Q R : mat S) l c, orthonormal m n Q -> same_mat m n (mat_mul Q R n) A -> 0 <= l < n -> 0 <= c < n -> inner m (fun k => Q k l) (fun k => A k c) = R l c).
  { intros Q R' l c HQ HM Hl Hc. transitivity (mat_vec (mat_T Q) m (mat_vec Q n (fun j => R' j c)) l); [|exact (orthonormal_T m n Q (fun j => R' j c) l HQ Hl)].
    unfold inner, mat_vec at 1, mat_T. apply sum_range_ext. intros k Hk. f_equal. rewrite <- (HM k c) by lia. reflexivity. }
  enough (H : forall i : nat, Z.of_nat i <= n -> same_mat m (Z.of_nat i) Q1 Q2).
  { assert (HQ : same_mat m n Q1 Q2) by (intros k c Hk Hc; apply (H (Z.to_nat n)); lia). split; [exact HQ|]. intros l c Hl Hc.
    rewrite <- (Hr Q1 R1 l c), <- (Hr Q2 R2 l c) by assumption. apply inner_ext; [|reflexivity]. intros k Hk. apply HQ; lia. }
  induction i as [|i IH]; intros Hi k c Hk Hc; [lia|]. specialize (IH ltac:(lia)). destruct (Z.eq_dec c (Z.of_nat i)) as [->|N]; [|apply IH; lia].
  set (c := Z.of_nat i) in *.
  assert (HR : forall l, 0 <= l < c -> R1 l c = R2 l c).
  { intros l Hl. rewrite <- (Hr Q1 R1 l c), <- (Hr Q2 R2 l c) by (try assumption; lia). apply inner_ext; [|reflexivity]. intros j Hj. apply IH; lia. }
  assert (HV : forall j, 0 <= j < m -> smul (Q1 j c) (R1 c c) = smul (Q2 j c) (R2 c c)).
  { intros j Hj. pose proof (Hs Q1 R1 c j U1 M1 ltac:(lia) Hj) as H1. pose proof (Hs Q2 R2 c j U2 M2 ltac:(lia) Hj) as H2. rewrite <- H2 in H1.
    rewrite (sum_range_ext 0 c (fun l => smul (Q1 j l) (R1 l c)) (fun l => smul (Q2 j l) (R2 l c))) in H1.
    2:{ intros l Hl. rewrite HR by lia. f_equal. apply IH; lia. }
    revert H1. generalize (sum_range 0 c (fun l => smul (Q2 j l) (R2 l c))). intros t H1.
    transitivity (ssub (sadd t (smul (Q1 j c) (R1 c c))) t); [ring|]. rewrite H1. ring. }
  assert (Hd : R1 c c = R2 c c).
  { apply sq_pos_inj; [apply D1; lia|apply D2; lia|].
    assert (G : forall (Q : mat S) (t : T), orthonormal m n Q -> inner m (fun j => smul (Q j c) t) (fun j => smul (Q j c) t) = smul t t).
    { intros Q t HQ. pose proof (HQ c c ltac:(lia) ltac:(lia)) as H. unfold id_mat in H. rewrite Z.eqb_refl in H. transitivity (smul (smul t t) (mat_mul (mat_T Q) Q m c c)); [|rewrite H; ring].
      unfold inner, mat_mul, mat_T. rewrite <- (sum_range_scale R). apply sum_range_ext. intros j _. ring. }
    rewrite <- (G Q1 (R1 c c) O1), <- (G Q2 (R2 c c) O2). apply inner_ext; exact HV. }
  specialize (HV k Hk). rewrite Hd in HV. apply (mul_eq F _ _ _ HV). apply (pos_nonzero n R2 D2). lia.
Qed.

(** Least squares. *)
Lemma solve_qr_ok (m n : Z) (A : mat S) (q r : dense S) (b : list T) : 0 <= n -> is_dense m n q -> is_dense n n r -> qr_of m n A (dense_mat q) (dense_mat r) ->
  zlen b = m -> exists x, solve_qr q r b = Ok x /\ zlen x = n /\
    forall i, 0 <= i < n -> mat_vec (dense_mat r) n (vec_of x) i = mat_vec (mat_T (dense_mat q)) m (vec_of b) i.
Proof.
  intros Hn Hq Hr (_ & HU & HD & _) Hb. unfold solve_qr. destruct Hq as (Kq & Rq & Cq). rewrite (d_multAT_new_eq q b Kq).
  destruct (d_multAT_spec R q b (repeat s0 (Z.to_nat (d_cols q))) Kq) as (y & -> & Ly & Hy); [lia|rewrite zlen_repeat; lia|]. cbn [bind].
  destruct (back_solves F n r y Hn Hr ltac:(lia) HU (pos_nonzero n _ HD)) as (x & Ex & Lx & Hx). exists x. split; [exact Ex|]. split; [exact Lx|].
  intros i Hi. rewrite Hx by lia. rewrite Hy by lia. now rewrite Rq.
Qed.

Lemma normal_equations (m n : Z) (A Qa r : mat S) (b : vect S) (x : vect S) : qr_of m n A Qa r ->
  (forall i, 0 <= i < n -> mat_vec r n x i = mat_vec (mat_T Qa) m b i) ->
  forall i, 0 <= i < n -> mat_vec (mat_T A) m (mat_vec A n x) i = mat_vec (mat_T A) m b i.
Proof.
  intros (HQ & HU & HD & HM) Hx i Hi.
  assert (HT : forall y : vect S, mat_vec (mat_T A) m y i = sum_range 0 n (fun l => smul (r l i) (mat_vec (mat_T Qa) m y l))).
  { intros y. unfold mat_vec, mat_T. rewrite (sum_range_ext 0 n _ (fun l => sum_range 0 m (fun k => smul (r l i) (smul (Qa k l) (y k))))).
    - rewrite (sum_range_swap R). apply sum_range_ext. intros k Hk. rewrite <- (HM k i) by lia. unfold mat_mul. rewrite <- (sum_range_scale_r R).
      apply sum_range_ext. intros l Hl. ring.
    - intros l Hl. now rewrite (sum_range_scale R). }
  rewrite !HT. apply sum_range_ext. intros l Hl. f_equal. rewrite <- Hx by lia. rewrite <- (orthonormal_T m n Qa (mat_vec r n x) l HQ Hl).
  unfold mat_vec at 1 3. apply sum_range_ext. intros k Hk. f_equal. now apply (upper_mul_vec n Qa r A m).
Qed.

(** |b - A y|^2 = |b - A x|^2 + |A (y - x)|^2 for a solution x of the normal equations. *)
Lemma misfit_split (m n : Z) (A : mat S) (b x y : list T) :
  (forall i, 0 <= i < n -> mat_vec (mat_T A) m (mat_vec A n (vec_of x)) i = mat_vec (mat_T A) m (vec_of b) i) ->
  let w := mat_vec A n (fun i => ssub (vec_of y i) (vec_of x i)) in misfit m n A b y = sadd (misfit m n A b x) (inner m w w).
Proof.
  intros H w. unfold misfit. set (rx := fun i => ssub (vec_of b i) (mat_vec A n (vec_of x) i)). set (ry := fun i => ssub (vec_of b i) (mat_vec A n (vec_of y) i)).
  assert (Ew : forall i, ry i = sadd (rx i) (smul (sopp s1) (w i))).
  { intros i. unfold ry, rx, w. replace (mat_vec A n (fun k => ssub (vec_of y k) (vec_of x k)) i) with (ssub (mat_vec A n (vec_of y) i) (mat_vec A n (vec_of x) i)); [ring|].
    unfold mat_vec. rewrite (sum_range_ext 0 n (fun j => smul (A i j) (ssub (vec_of y j) (vec_of x j))) (fun j => sadd (smul (A i j) (vec_of y j)) (smul (sopp s1) (smul (A i j) (vec_of x j))))) by (intros; ring).
    rewrite (sum_range_add R), (sum_range_scale R). ring. }
  assert (Hw : inner m w rx = s0).
  { unfold w. rewrite (inner_mat_vec_T R). apply (inner_0_r R). intros i Hi. transitivity (ssub (mat_vec (mat_T A) m (vec_of b) i) (mat_vec (mat_T A) m (mat_vec A n (vec_of x)) i)); [|rewrite H by lia; ring].
    unfold rx. unfold mat_vec at 1 3 4. rewrite (sum_range_ext 0 m _ (fun j => sadd (smul (mat_T A i j) (vec_of b j)) (smul (sopp s1) (smul (mat_T A i j) (mat_vec A n (vec_of x) j))))) by (intros; ring).
    rewrite (sum_range_add R), (sum_range_scale R). ring. }
  rewrite (inner_ext m ry (fun i => sadd (rx i) (smul (sopp s1) (w i))) ry (fun i => sadd (rx i) (smul (sopp s1) (w i)))) by (intros; apply Ew).
  rewrite (inner_lin_l R), !(inner_lin_r R). rewrite (inner_comm R m rx w), Hw. ring.
Qed.

Lemma qr_solve_ok (m n : Z) (A : dense S) (b : list T) : is_dense m n A -> zlen b = m -> independent_columns m n (dense_mat A) ->
  exists x, qr_solve root A b = Ok x /\ zlen x = n /\
    (forall i, 0 <= i < n -> mat_vec (mat_T (dense_mat A)) m (mat_vec (dense_mat A) n (vec_of x)) i = mat_vec (mat_T (dense_mat A)) m (vec_of b) i) /\
    (forall y, zlen y = n -> sle (misfit m n (dense_mat A) b x) (misfit m n (dense_mat A) b y)) /\
    (forall y, zlen y = n -> sle (misfit m n (dense_mat A) b y) (misfit m n (dense_mat A) b x) -> y = x).
Proof.
  intros HA Hb HI. destruct (sizes m n A HA) as (Hm & Hn & _). destruct (qr_decomp_ok m n A HA HI) as (q & r & Ok & Hq & Hr & HQR). unfold qr_solve. rewrite Ok. cbn [bind].
  destruct (solve_qr_ok m n (dense_mat A) q r b Hn Hq Hr HQR Hb) as (x & Ex & Lx & Hx). exists x. split; [exact Ex|]. split; [exact Lx|].
  pose proof (normal_equations m n (dense_mat A) (dense_mat q) (dense_mat r) (vec_of b) (vec_of x) HQR Hx) as HN. split; [exact HN|].
  assert (Hnn : forall w : vect S, sle s0 (inner m w w)) by (intros w; apply (sum_nonneg R O OS); intros i _; apply (sq_nonneg R O OS OP)).
  split; intros y Ly.
  - rewrite (misfit_split m n (dense_mat A) b x y HN). set (w := mat_vec _ _ _). pose proof (sub_nonneg_le R O OS (sadd (misfit m n (dense_mat A) b x) (inner m w w)) (inner m w w) (Hnn w)) as H.
    replace (ssub (sadd (misfit m n (dense_mat A) b x) (inner m w w)) (inner m w w)) with (misfit m n (dense_mat A) b x) in H by ring. exact H.
  - rewrite (misfit_split m n (dense_mat A) b x y HN). set (w := mat_vec _ _ _). intros Hle.
    destruct (zero_or_not E m w) as [Z|NZ].
    + apply (list_ext s0); [lia|]. rewrite Ly. intros i Hi. pose proof (HI _ Z i Hi) as K. cbv beta in K. unfold vec_of in K.
      transitivity (sadd (ssub (zn s0 y i) (zn s0 x i)) (zn s0 x i)); [ring|]. rewrite K. ring.
    + apply (inner_self_pos F O OS OP) in NZ. exfalso. set (t := misfit m n (dense_mat A) b x) in *.
      assert (K : sle (inner m w w) s0).
      { pose proof (sle_add _ OS _ _ (sopp t) (sopp t) Hle (sle_refl O (sopp t))) as L. replace (sadd (sadd t (inner m w w)) (sopp t)) with (inner m w w) in L by ring.
        replace (sadd t (sopp t)) with (@s0 S) in L by ring. exact L. }
      unfold sle in K. congruence.
Qed.

End QrMore.
