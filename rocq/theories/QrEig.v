(** The QR iteration for eigenvalues and symmetrize. *)

From Coq Require Import ZArith List Bool Lia Ring Field_theory.
From Verif Require Import Base Scalar Spec SumFacts LoopFacts Dense DenseFacts DenseProofs Vec SolverSpec SolverEnergy KrylovFacts LuQr LuQrSpec LuProofs LuMore LuLinks QrHeap QrProofs QrMore.
Import ListNotations.
Open Scope Z_scope.

Section Sym.
Context {S : scalar}.
Notation T := (car S).

Lemma symmetrize_ok n (A : dense S) : is_dense n n A ->
  exists B, symmetrize A = Ok B /\ is_dense n n B /\
    forall i j, 0 <= i < n -> 0 <= j < n -> dense_mat B i j = dense_mat A (Z.max i j) (Z.min i j).
Proof.
  intros HA. unfold symmetrize. assert (Hn : 0 <= n) by (destruct HA as ((H & _) & <- & _); exact H). pose proof HA as (_ & Hr & Hc). rewrite Hr.
  enough (K : returns (for_ 0 n A (fun i A => for_ i (d_cols A) A (fun j A => a <- d_get A j i ;; d_set A i j a)))
     (fun B => is_dense n n B /\ forall i j, 0 <= i < n -> 0 <= j < n -> dense_mat B i j = if i <? n then dense_mat A (Z.max i j) (Z.min i j) else dense_mat A i j)).
  { apply returns_exists in K. destruct K as (B & EB & HB & K). exists B. split; [exact EB|]. split; [exact HB|]. intros i j Hi Hj. rewrite K by lia. destruct (Z.ltb_spec i n); [reflexivity|lia]. }
  apply (returns_for (fun k B => is_dense n n B /\ forall i j, 0 <= i < n -> 0 <= j < n -> dense_mat B i j = if i <? k then dense_mat A (Z.max i j) (Z.min i j) else dense_mat A i j)); [lia| | |auto].
  - split; [exact HA|]. intros i j Hi Hj. destruct (Z.ltb_spec i 0); [lia|reflexivity].
  - intros k B Hk (HB & EB). pose proof HB as (_ & _ & CB). rewrite CB.
    apply (returns_for (fun l C => is_dense n n C /\ forall i j, 0 <= i < n -> 0 <= j < n -> dense_mat C i j = if (i =? k) && (j <? l) then dense_mat A (Z.max i j) (Z.min i j) else dense_mat B i j)); [lia| | |].
    + split; [exact HB|]. intros i j Hi Hj. destruct (Z.eqb_spec i k) as [->|]; [|reflexivity]. destruct (Z.ltb_spec j k); [|reflexivity]. cbn [andb].
      rewrite EB by lia. destruct (Z.ltb_spec k k); [lia|]. now rewrite Z.max_l, Z.min_r by lia.
    + intros l C Hl (HC & EC). rewrite (is_dense_get n n C l k HC) by lia. cbn [bind].
      destruct (is_dense_set n n C k l (dense_mat C l k) HC ltac:(lia) ltac:(lia)) as (D & ED & HD & VD). rewrite ED. split; [exact HD|].
      intros i j Hi Hj. rewrite VD by lia.
      destruct (Z.eqb_spec i k) as [->|Ni]; cbn [andb]; [|rewrite EC by lia; destruct (Z.eqb_spec i k); [contradiction|reflexivity]].
      destruct (Z.eqb_spec j l) as [->|Nj].
      * destruct (Z.ltb_spec l (l + 1)); [|lia]. rewrite (Z.max_r k l), (Z.min_l k l) by lia. rewrite EC by lia.
        destruct (Z.eqb_spec l k) as [->|N]; cbn [andb].
        -- destruct (Z.ltb_spec k k); [lia|]. rewrite EB by lia. destruct (Z.ltb_spec k k); [lia|reflexivity].
        -- rewrite EB by lia. destruct (Z.ltb_spec l k); [lia|reflexivity].
      * rewrite EC by lia. rewrite Z.eqb_refl. cbn [andb]. destruct (Z.ltb_spec j l), (Z.ltb_spec j (l + 1)); try reflexivity; lia.
    + intros C (HC & EC). split; [exact HC|]. intros i j Hi Hj. rewrite EC by lia. destruct (Z.eqb_spec i k) as [->|N]; cbn [andb].
      * destruct (Z.ltb_spec j n), (Z.ltb_spec k (k + 1)); try lia. reflexivity.
      * rewrite EB by lia. destruct (Z.ltb_spec i k), (Z.ltb_spec i (k + 1)); try lia; reflexivity.
Qed.
End Sym.

Section QrEig.
Context {S : scalar}.
Notation T := (car S).
Context (F : field_laws S) (E : eqb_laws S) (O : order_laws S) (OS : sum_order_laws S) (OP : prod_order_laws S).
Let R : ring_laws S := field_ring S F.
Let Rth : ring_theory (@s0 S) s1 sadd smul ssub sopp (@eq (car S)) := R.
Add Ring SRingQrE : Rth.
Context (root : T -> T) (Hroot : root_laws root).

Lemma mat_mul_assoc (A B C : mat S) n k i j : mat_mul (mat_mul A B n) C k i j = mat_mul A (mat_mul B C k) n i j.
Proof. exact (mat_vec_mul R A B n k (fun l => C l j) i). Qed.
Lemma mat_mul_ext (A A' B B' : mat S) n i j : (forall k, 0 <= k < n -> A i k = A' i k) -> (forall k, 0 <= k < n -> B k j = B' k j) -> mat_mul A B n i j = mat_mul A' B' n i j.
Proof. intros H1 H2. apply sum_range_ext. intros k Hk. now rewrite H1, H2. Qed.
Lemma mat_mul_id (B : mat S) n i j : 0 <= i < n -> mat_mul id_mat B n i j = B i j.
Proof.
  intros Hi. unfold mat_mul, id_mat. rewrite (sum_range_ext 0 n _ (fun k => if k =? i then B k j else s0)).
  - now rewrite (sum_range_delta R) by lia.
  - intros k _. rewrite (Z.eqb_sym k i). destruct (i =? k); ring.
Qed.
Lemma mat_mul_id_r (B : mat S) n i j : 0 <= j < n -> mat_mul B id_mat n i j = B i j.
Proof.
  intros Hi. unfold mat_mul, id_mat. rewrite (sum_range_ext 0 n _ (fun k => if k =? j then B i k else s0)).
  - now rewrite (sum_range_delta R) by lia.
  - intros k _. destruct (k =? j); ring.
Qed.

Lemma matmul_ok n (A B : dense S) : 0 < n -> is_dense n n A -> is_dense n n B ->
  exists C, d_matmul A B = Ok C /\ is_dense n n C /\ same_mat n n (dense_mat C) (mat_mul (dense_mat A) (dense_mat B) n).
Proof.
  intros Hn (KA & RA & CA) (KB & RB & CB). unfold d_matmul. rewrite CA, RB, Z.eqb_refl. cbn [assert_ bind].
  destruct (d_dgemm_spec A B false false KA KB) as (C & EC & KC & RC & CC & H); cbn; try lia. exists C. split; [exact EC|].
  cbn in *. split; [split; [exact KC|split; lia]|]. intros i j Hi Hj. rewrite H by lia. rewrite CA. reflexivity.
Qed.

Definition eig_facts (n : Z) (A0 : mat S) (B U : dense S) : Prop :=
  is_dense n n B /\ is_dense n n U /\ independent_columns n n (dense_mat B) /\ orthonormal n n (dense_mat U) /\
  same_mat n n (mat_mul A0 (dense_mat U) n) (mat_mul (dense_mat U) (dense_mat B) n).

Lemma eig_step n (A0 : mat S) (B U : dense S) : 0 < n -> eig_facts n A0 B U ->
  returns ('(Q, R) <- qr_decomp root B ;; A <- d_matmul R Q ;; U <- d_matmul U Q ;; Ok (A, U)) (fun AU => eig_facts n A0 (fst AU) (snd AU)).
Proof.
  intros Hn (HB & HU & HI & HO & HS). destruct (qr_decomp_ok F E O OS OP root Hroot n n B HB HI) as (q & r & Eq & Hq & Hr & QO & RU & RD & M). rewrite Eq. cbn [bind].
  destruct (matmul_ok n r q Hn Hr Hq) as (B' & EB & HB' & VB). rewrite EB. cbn [bind].
  destruct (matmul_ok n U q Hn HU Hq) as (U' & EU & HU' & VU). rewrite EU. cbn [bind returns fst snd].
  split; [exact HB'|]. split; [exact HU'|]. split; [|split].
  - intros x Hx. assert (H1 : forall i, 0 <= i < n -> mat_vec (dense_mat q) n x i = s0).
    { apply (upper_zero F n (dense_mat r)); [exact RU|now apply (pos_nonzero O)|]. intros i Hi. rewrite <- (Hx i Hi). rewrite <- (mat_vec_mul R).
      apply sum_range_ext. intros j Hj. now rewrite VB by lia. }
    intros i Hi. rewrite <- (orthonormal_T F n n (dense_mat q) x i QO Hi). apply (sum_range_0 R). intros j Hj. rewrite H1 by lia. ring.
  - intros i j Hi Hj. rewrite <- (QO i j) by lia.
    rewrite (mat_mul_ext (mat_T (dense_mat U')) (mat_mul (mat_T (dense_mat q)) (mat_T (dense_mat U)) n) (dense_mat U') (mat_mul (dense_mat U) (dense_mat q) n)).
    + rewrite mat_mul_assoc. apply mat_mul_ext; [reflexivity|]. intros k Hk. rewrite <- mat_mul_assoc. rewrite (mat_mul_ext _ id_mat _ (dense_mat q)); [now apply mat_mul_id| |reflexivity].
      intros l Hl. apply HO; lia.
    + intros k Hk. unfold mat_T at 1. rewrite VU by lia. unfold mat_mul, mat_T. apply sum_range_ext. intros. ring.
    + intros k Hk. apply VU; lia.
  - intros i j Hi Hj.
    rewrite (mat_mul_ext A0 A0 (dense_mat U') (mat_mul (dense_mat U) (dense_mat q) n)) by (try reflexivity; intros; apply VU; lia).
    rewrite (mat_mul_ext (dense_mat U') (mat_mul (dense_mat U) (dense_mat q) n) (dense_mat B') (mat_mul (dense_mat r) (dense_mat q) n)) by (intros; (apply VU || apply VB); lia).
    rewrite <- mat_mul_assoc. rewrite (mat_mul_ext _ (mat_mul (dense_mat U) (dense_mat B) n) _ (dense_mat q)) by (try reflexivity; intros; apply HS; lia).
    rewrite !mat_mul_assoc. apply mat_mul_ext; [reflexivity|]. intros k Hk. rewrite <- mat_mul_assoc. apply mat_mul_ext; [|reflexivity]. intros l Hl. symmetry. apply M; lia.
Qed.

Lemma identity_loop n (U0 : dense S) : 0 <= n -> is_dense n n U0 -> (forall i j, 0 <= i < n -> 0 <= j < n -> dense_mat U0 i j = s0) ->
  exists U, for_ 0 n U0 (fun i U => d_set U i i s1) = Ok U /\ is_dense n n U /\ same_mat n n (dense_mat U) id_mat.
Proof.
  intros Hn H0 Z0. apply returns_exists.
  apply (returns_for (fun k U => is_dense n n U /\ forall i j, 0 <= i < n -> 0 <= j < n -> dense_mat U i j = if (i =? j) && (i <? k) then s1 else s0)); [exact Hn| | |].
  - split; [exact H0|]. intros i j Hi Hj. destruct (Z.ltb_spec i 0); [lia|]. rewrite andb_false_r. now apply Z0.
  - intros k U Hk (HU & VU). destruct (is_dense_set n n U k k s1 HU Hk Hk) as (U' & EU & HU' & V). rewrite EU. split; [exact HU'|].
    intros i j Hi Hj. rewrite V, VU by lia. destruct (Z.eqb_spec i k), (Z.eqb_spec j k), (Z.eqb_spec i j), (Z.ltb_spec i k), (Z.ltb_spec i (k + 1)); cbn [andb]; try reflexivity; lia.
  - intros U (HU & VU). split; [exact HU|]. intros i j Hi Hj. rewrite VU by lia. unfold id_mat. destruct (Z.ltb_spec i n); [|lia]. now rewrite andb_true_r.
Qed.

Lemma qr_eig_ok n (A : dense S) (passes : Z) : 0 < n -> is_dense n n A -> mat_nonsingular n (dense_mat A) -> 0 <= passes ->
  exists B U, qr_eig root passes A = Ok (B, U) /\ is_dense n n B /\ is_dense n n U /\ orthonormal n n (dense_mat U) /\
    same_mat n n (mat_mul (dense_mat A) (dense_mat U) n) (mat_mul (dense_mat U) (dense_mat B) n) /\ mat_nonsingular n (dense_mat B).
Proof.
  intros Hn HA HI Hp. unfold qr_eig. pose proof HA as (_ & HR & _). rewrite HR. destruct (@d_zeros_ok S n n ltac:(lia) ltac:(lia)) as (U0 & -> & K0 & R0 & C0 & Z0). cbn [bind]. rewrite R0.
  destruct (identity_loop n U0 ltac:(lia)) as (U1 & EU & HU & VU); [split; [exact K0|split; assumption]|intros; now apply Z0|]. rewrite EU. cbn [bind].
  enough (K : returns (for_ 0 passes (A, U1) (fun _ AU => let '(A, U) := AU in '(Q, R) <- qr_decomp root A ;; A <- d_matmul R Q ;; U <- d_matmul U Q ;; Ok (A, U)))
     (fun AU => eig_facts n (dense_mat A) (fst AU) (snd AU))).
  { apply returns_exists in K. destruct K as ((B & U) & EO & H1 & H2 & H3 & H4 & H5). exists B, U. repeat (split; [assumption|]). exact H3. }
  apply (returns_for (fun _ AU => eig_facts n (dense_mat A) (fst AU) (snd AU))); [exact Hp| | |auto].
  - cbn. split; [exact HA|]. split; [exact HU|]. split; [exact HI|]. split.
    + intros i j Hi Hj. rewrite (mat_mul_ext _ id_mat _ id_mat); [now apply mat_mul_id| |]; intros k Hk; [unfold mat_T; rewrite VU by lia; unfold id_mat; now rewrite Z.eqb_sym|now apply VU].
    + intros i j Hi Hj. rewrite (mat_mul_ext _ (dense_mat A) _ id_mat) by (try reflexivity; intros; now apply VU). rewrite (mat_mul_ext (dense_mat U1) id_mat _ (dense_mat A)) by (try reflexivity; intros; now apply VU).
      rewrite mat_mul_id, mat_mul_id_r by lia. reflexivity.
  - intros p (B, U) _ K. apply eig_step; [exact Hn|exact K].
Qed.

(** A symmetric matrix stays symmetric. *)
Lemma similar_sym n (A B U : mat S) : orthonormal n n U -> same_mat n n (mat_mul A U n) (mat_mul U B n) -> mat_sym n A -> mat_sym n B.
Proof.
  intros HO HS HA. assert (H : forall i j, 0 <= i < n -> 0 <= j < n -> B i j = inner n (fun k => U k i) (mat_vec A n (fun k => U k j))).
  { intros i j Hi Hj. rewrite <- (orthonormal_T F n n U (fun k => B k j) i HO Hi). unfold mat_vec at 1, inner, mat_T. apply sum_range_ext. intros k Hk. f_equal.
    symmetry. exact (HS k j Hk Hj). }
  intros i j Hi Hj. rewrite (H i j), (H j i) by lia. rewrite (inner_sym R n A _ _ HA). apply (inner_comm R).
Qed.

(** Eigenvectors. *)
Lemma similar_eigen n (A B U : mat S) (l : T) (y : vect S) : orthonormal n n U -> same_mat n n (mat_mul A U n) (mat_mul U B n) ->
  (forall i, 0 <= i < n -> mat_vec B n y i = smul l (y i)) -> forall i, 0 <= i < n -> mat_vec A n (mat_vec U n y) i = smul l (mat_vec U n y i).
Proof.
  intros HO HS Hy i Hi. rewrite <- (mat_vec_mul R). transitivity (mat_vec (mat_mul U B n) n y i); [apply sum_range_ext; intros j Hj; now rewrite HS by lia|].
  rewrite (mat_vec_mul R). unfold mat_vec at 1 3. rewrite <- (sum_range_scale R). apply sum_range_ext. intros j Hj. rewrite Hy by lia. ring.
Qed.

(** A vector orthogonal to n orthonormal vectors of length n is zero: otherwise there would be n + 1
    independent ones. *)
Lemma square_T (Qa : mat S) (w : vect S) n : 0 <= n -> orthonormal n n Qa -> (forall k, 0 <= k < n -> mat_vec (mat_T Qa) n w k = s0) ->
  forall i, 0 <= i < n -> w i = s0.
Proof.
  intros Hn HQ Hw. destruct (zero_or_not E n w) as [Z|NZ]; [exact Z|]. exfalso. pose proof (inner_self_pos F O OS OP n w NZ) as Hp.
  apply (wide_dependent F E n (n + 1) (fun i j => if j <? n then Qa i j else w i)); [lia|]. intros x Hx.
  assert (Hx' : forall r, 0 <= r < n -> sadd (mat_vec Qa n x r) (smul (w r) (x n)) = s0).
  { intros r Hr. rewrite <- (Hx r Hr). unfold mat_vec. rewrite (sum_range_last R) by lia. destruct (Z.ltb_spec n n); [lia|]. f_equal.
    apply sum_range_ext. intros j Hj. destruct (Z.ltb_spec j n); [reflexivity|lia]. }
  assert (H1 : x n = s0).
  { assert (H : inner n w (fun r => sadd (mat_vec Qa n x r) (smul (w r) (x n))) = s0) by (apply (inner_0_r R); exact Hx').
    rewrite (inner_ext n w w _ (fun r => sadd (mat_vec Qa n x r) (smul (x n) (w r)))) in H by (intros; ring). rewrite (inner_lin_r R) in H.
    rewrite (inner_comm R n w (mat_vec Qa n x)), (inner_mat_vec_T R) in H. rewrite (inner_0_r R n x) in H by exact Hw.
    apply (mul_zero F _ (inner n w w)); [|intros K; rewrite K, (slt_irrefl _ O) in Hp; discriminate]. rewrite <- H. ring. }
  intros i Hi. destruct (Z.eq_dec i n) as [->|N]; [exact H1|]. rewrite <- (orthonormal_T F n n Qa x i HQ ltac:(lia)).
  apply (sum_range_0 R). intros j Hj. specialize (Hx' j Hj). rewrite H1 in Hx'. replace (mat_vec Qa n x j) with (@s0 S); [ring|]. rewrite <- Hx'. ring.
Qed.

Lemma similar_both (n : Z) (A B U : mat S) :
  orthonormal n n U -> same_mat n n (mat_mul A U n) (mat_mul U B n) ->
  (mat_sym n A -> mat_sym n B) /\
  forall (l : T) (y : vect S), (forall i, 0 <= i < n -> mat_vec B n y i = smul l (y i)) ->
  forall i, 0 <= i < n -> mat_vec A n (mat_vec U n y) i = smul l (mat_vec U n y i).
Proof. intros HO HS. split; [now apply similar_sym with (U := U)|]. intros l y. now apply similar_eigen. Qed.

Lemma qr_eig_singular n (A : dense S) (passes : Z) : 0 < n -> is_dense n n A -> ~ mat_nonsingular n (dense_mat A) -> 0 < passes ->
  qr_eig root passes A = Fail FAssert.
Proof.
  intros Hn HA HI Hp. unfold qr_eig. pose proof HA as (_ & HR & _). rewrite HR. destruct (@d_zeros_ok S n n ltac:(lia) ltac:(lia)) as (U0 & -> & K0 & R0 & C0 & Z0). cbn [bind]. rewrite R0.
  destruct (identity_loop n U0 ltac:(lia)) as (U1 & EU & HU & VU); [split; [exact K0|split; assumption]|intros; now apply Z0|]. rewrite EU. cbn [bind].
  unfold for_. rewrite zrange_cons by lia. cbn [foldM]. rewrite (proj2 (qr_decomp_fails F E O OS OP root Hroot n n A HA) HI). reflexivity.
Qed.

Lemma qr_solve_square (n : Z) (A : dense S) (b : list T) : is_dense n n A -> zlen b = n -> mat_nonsingular n (dense_mat A) ->
  exists x, qr_solve root A b = Ok x /\ solves n (dense_mat A) b x.
Proof.
  intros HA Hb HI. destruct (sizes n n A HA) as (Hn & _). destruct (qr_decomp_ok F E O OS OP root Hroot n n A HA HI) as (q & r & EO & Hq & Hr & HQR). unfold qr_solve. rewrite EO. cbn [bind].
  destruct (solve_qr_ok F O n n (dense_mat A) q r b Hn Hq Hr HQR Hb) as (x & Ex & Lx & Hx). exists x. split; [exact Ex|]. split; [exact Lx|].
  destruct HQR as (QO & RU & RD & M).
  (* the columns of Q^T: Q is square, so Q Q^T = I *)
  intros i Hi. rewrite (upper_mul_vec F n (dense_mat q) (dense_mat r) (dense_mat A) n (vec_of x) i Hi M).
  transitivity (mat_vec (dense_mat q) n (mat_vec (mat_T (dense_mat q)) n (vec_of b)) i); [apply sum_range_ext; intros j Hj; now rewrite Hx|].
  assert (G : forall i, 0 <= i < n -> ssub (mat_vec (dense_mat q) n (mat_vec (mat_T (dense_mat q)) n (vec_of b)) i) (vec_of b i) = s0).
  { set (w := fun i => ssub (mat_vec (dense_mat q) n (mat_vec (mat_T (dense_mat q)) n (vec_of b)) i) (vec_of b i)).
    assert (HT : forall k, 0 <= k < n -> mat_vec (mat_T (dense_mat q)) n w k = s0).
    { intros k Hk. unfold w. transitivity (ssub (mat_vec (mat_T (dense_mat q)) n (mat_vec (dense_mat q) n (mat_vec (mat_T (dense_mat q)) n (vec_of b))) k) (mat_vec (mat_T (dense_mat q)) n (vec_of b) k)).
      - unfold mat_vec at 1 4 7. rewrite (sum_range_ext 0 n _ (fun j => sadd (smul (mat_T (dense_mat q) k j) (mat_vec (dense_mat q) n (mat_vec (mat_T (dense_mat q)) n (vec_of b)) j)) (smul (sopp s1) (smul (mat_T (dense_mat q) k j) (vec_of b j))))) by (intros; ring).
        rewrite (sum_range_add R), (sum_range_scale R). ring.
      - rewrite (orthonormal_T F n n (dense_mat q) _ k QO Hk). ring. }
    intros j Hj. change (w j = s0). apply (square_T (dense_mat q) w n Hn QO HT). exact Hj. }
  specialize (G i Hi). revert G. generalize (mat_vec (dense_mat q) n (mat_vec (mat_T (dense_mat q)) n (vec_of b)) i). intros t G.
  transitivity (sadd (ssub t (vec_of b i)) (vec_of b i)); [ring|]. rewrite G. ring.
Qed.

End QrEig.
