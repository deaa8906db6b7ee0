(** The Gram-Schmidt factorisation of qr_decomp. *)

From Coq Require Import ZArith List Bool Lia Ring Field_theory.
From Verif Require Import Base Scalar Spec SumFacts LoopFacts Dense DenseFacts DenseProofs Vec VecSpec VecProofs VecState SolverSpec SolverEnergy KrylovFacts LuQr LuQrSpec LuProofs LuMore LuLinks QrHeap.
Import ListNotations.
Open Scope Z_scope.

Lemma for_either {X : Type} (I : Z -> X -> Prop) (B : fault -> Prop) (n : Z) (x : X) (f : Z -> X -> res X) : 0 <= n -> I 0 x ->
  (forall i y, 0 <= i < n -> I i y -> match f i y with Ok z => I (i + 1) z | Fail e => B e end) ->
  match for_ 0 n x f with Ok z => I n z | Fail e => B e end.
Proof.
  intros Hn H0 Hs. assert (H : forall k : nat, Z.of_nat k <= n -> match for_ 0 (Z.of_nat k) x f with Ok z => I (Z.of_nat k) z | Fail e => B e end).
  { induction k as [|k IH]; intros Hk; [rewrite for_empty by lia; exact H0|].
    specialize (IH ltac:(lia)). rewrite (for_split 0 (Z.of_nat k)) by lia. destruct (for_ 0 (Z.of_nat k) x f) as [y|e]; [|exact IH]. cbn [bind].
    unfold for_. rewrite zrange_cons by lia. rewrite zrange_empty by lia. cbn [foldM bind]. specialize (Hs (Z.of_nat k) y ltac:(lia) IH).
    replace (Z.of_nat (S k)) with (Z.of_nat k + 1) by lia. destruct (f (Z.of_nat k) y) as [z|e]; exact Hs. }
  specialize (H (Z.to_nat n) ltac:(lia)). now rewrite Z2Nat.id in H by lia.
Qed.

Section QrProofs.
Context {S : scalar}.
Notation T := (car S).
Context (F : field_laws S) (E : eqb_laws S) (O : order_laws S) (OS : sum_order_laws S) (OP : prod_order_laws S).
Let R : ring_laws S := field_ring S F.
Let Rth : ring_theory (@s0 S) s1 sadd smul ssub sopp (@eq (car S)) := R.
Add Ring SRingQr : Rth.
Context (root : T -> T) (Hroot : root_laws root).

Variables m n : Z.
Variable A : dense S.
Hypothesis HA : is_dense m n A.
Notation a := (dense_mat A).
Notation Q := (Qm m).
Notation ac := (acl A).
Notation qc := (qcl m).
Notation two := (two m n A).

Let Hmn : 0 <= m /\ 0 <= n := conj (proj1 (sizes m n A HA)) (proj1 (proj2 (sizes m n A HA))).

(** What holds when i columns are done. *)
Record qr_facts (i : Z) (h : heap S) (r : dense S) : Prop := {
  qf_two : two h;
  qf_R : is_dense n n r;
  qf_orth : forall c d, 0 <= c < i -> 0 <= d < i -> inner m (qc h c) (qc h d) = if c =? d then s1 else s0;
  qf_prod : forall c k, 0 <= c < i -> 0 <= k < m -> sum_range 0 (c + 1) (fun j => smul (Q h k j) (dense_mat r j c)) = a k c;
  qf_rest : forall c k, i <= c < n -> 0 <= k < m -> Q h k c = a k c;
  qf_upper : upper n (dense_mat r);
  qf_diag : forall c, 0 <= c < i -> slt s0 (dense_mat r c c) = true }.

(** What holds in column i when the components along the first j columns are taken off. *)
Record col_facts (i : Z) (h0 : heap S) (r0 : dense S) (j : Z) (h : heap S) (r : dense S) : Prop := {
  cf_two : two h;
  cf_R : is_dense n n r;
  cf_other : forall c k, 0 <= c < n -> 0 <= k < m -> c <> i -> Q h k c = Q h0 k c;
  cf_col : forall k, 0 <= k < m -> Q h k i = ssub (a k i) (sum_range 0 j (fun l => smul (inner m (ac i) (qc h0 l)) (Q h0 k l)));
  cf_r : forall c d, 0 <= c < n -> 0 <= d < n -> dense_mat r c d = if (d =? i) && (c <? j) then inner m (ac i) (qc h0 c) else dense_mat r0 c d }.

Definition col_body (i : Z) (j : Z) (st : heap S * dense S) : res (heap S * dense S) :=
  let '(h, r) := st in
  q_j <- col_view m n 1 j ;;
  ae_i <- v_inner h (View 0 (i * m) m) q_j ;;
  r <- d_set r j i ae_i ;;
  h <- v_axpby h s1 (View 1 (i * m) m) (sopp ae_i) q_j s0 (View 1 (i * m) m) ;;
  Ok (h, r).

Lemma inner_ac_ext i (x y : vect S) : (forall k, 0 <= k < m -> x k = y k) -> inner m (ac i) x = inner m (ac i) y.
Proof. intros H. apply inner_ext; [reflexivity|exact H]. Qed.

Lemma col_step i h0 r0 j h r : 0 <= i < n -> 0 <= j < i -> col_facts i h0 r0 j h r ->
  exists h' r', col_body i j (h, r) = Ok (h', r') /\ col_facts i h0 r0 (j + 1) h' r'.
Proof.
  intros Hi Hj [C1 C2 C3 C4 C5]. unfold col_body. rewrite (col_view_ok m n A HA) by lia. cbn [bind]. rewrite (inner_aq R m n A HA) by (try exact C1; lia). cbn [bind].
  assert (Ei : inner m (ac i) (qc h j) = inner m (ac i) (qc h0 j)) by (apply inner_ac_ext; intros k Hk; apply C3; lia).
  destruct (is_dense_set n n r j i (inner m (ac i) (qc h j)) C2 ltac:(lia) Hi) as (r' & Er & D & V). rewrite Er. cbn [bind].
  destruct (axpy_column R m n A HA h i j (sopp (inner m (ac i) (qc h j))) C1 Hi ltac:(lia)) as (h' & Eh & T' & W). rewrite Eh. cbn [bind].
  exists h', r'. split; [reflexivity|]. split; [exact T'|exact D| | |].
  - intros c k Hc Hk N. rewrite W by lia. destruct (Z.eqb_spec c i); [contradiction|]. now apply C3.
  - intros k Hk. rewrite W by lia. rewrite Z.eqb_refl, C4 by lia. rewrite (sum_range_last R) by lia. rewrite Ei. rewrite (C3 j k) by lia. ring.
  - intros c d Hc Hd. rewrite V by lia. rewrite C5 by lia. rewrite Ei. destruct (Z.eqb_spec c j) as [->|Nc], (Z.eqb_spec d i) as [->|Nd]; cbn [andb]; try reflexivity.
    + destruct (Z.ltb_spec j (j + 1)); [reflexivity|lia].
    + destruct (Z.ltb_spec c j), (Z.ltb_spec c (j + 1)); try reflexivity; lia.
Qed.

Lemma col_loop i h0 r0 : 0 <= i < n -> qr_facts i h0 r0 ->
  exists h r, for_ 0 i (h0, r0) (col_body i) = Ok (h, r) /\ col_facts i h0 r0 i h r.
Proof.
  intros Hi Q0. enough (K : returns (for_ 0 i (h0, r0) (col_body i)) (fun st => col_facts i h0 r0 i (fst st) (snd st))).
  { apply returns_exists in K. destruct K as ((h & r) & Eq & K). exists h, r. auto. }
  apply (returns_for (fun j st => col_facts i h0 r0 j (fst st) (snd st))); [lia| | |auto].
  - cbn. destruct Q0. split; auto.
    + intros k Hk. rewrite sum_range_empty by lia. rewrite qf_rest0 by lia. ring.
    + intros c d Hc Hd. destruct (Z.ltb_spec c 0); [lia|]. now rewrite andb_false_r.
  - intros j (h, r) Hj K. destruct (col_step i h0 r0 j h r Hi Hj K) as (h' & r' & Eq & K'). rewrite Eq. exact K'.
Qed.

(** The column that is left, v = a_i - sum_l <a_i, q_l> q_l, is orthogonal to the columns done. *)
Definition rem (i : Z) (h0 : heap S) : vect S := fun k => ssub (a k i) (sum_range 0 i (fun l => smul (inner m (ac i) (qc h0 l)) (Q h0 k l))).

Lemma inner_sum_l (j : Z) (f : Z -> T) (g : Z -> vect S) (y : vect S) :
  inner m (fun k => sum_range 0 j (fun l => smul (f l) (g l k))) y = sum_range 0 j (fun l => smul (f l) (inner m (g l) y)).
Proof.
  unfold inner. rewrite (sum_range_ext 0 m _ (fun k => sum_range 0 j (fun l => smul (f l) (smul (g l k) (y k))))).
  - rewrite (sum_range_swap R). apply sum_range_ext. intros l _. now rewrite (sum_range_scale R).
  - intros k _. rewrite <- (sum_range_scale_r R). apply sum_range_ext. intros l _. ring.
Qed.
Lemma inner_sub_l (x y z : vect S) : inner m (fun k => ssub (x k) (y k)) z = ssub (inner m x z) (inner m y z).
Proof.
  transitivity (inner m (fun k => sadd (x k) (smul (sopp s1) (y k))) z); [apply inner_ext; [intros; ring|reflexivity]|]. rewrite (inner_lin_l R). ring.
Qed.
Lemma inner_div_r (x y : vect S) (d : T) : inner m x (fun k => sdiv (y k) d) = sdiv (inner m x y) d.
Proof.
  assert (D : forall b, sdiv b d = smul (sdiv s1 d) b) by (intros b; rewrite (Fdiv_def F b d); ring).
  rewrite D. unfold inner. rewrite <- (sum_range_scale R). apply sum_range_ext. intros k _. rewrite D. ring.
Qed.

Lemma rem_orth i h r d : 0 <= i < n -> qr_facts i h r -> 0 <= d < i -> inner m (rem i h) (qc h d) = s0.
Proof.
  intros Hi K Hd. unfold rem. rewrite inner_sub_l. rewrite (inner_sum_l i (fun l => inner m (ac i) (qc h l)) (fun l k => Q h k l)).
  rewrite (sum_range_ext 0 i _ (fun l => if l =? d then inner m (ac i) (qc h l) else s0)).
  - rewrite (sum_range_delta R) by lia. change (fun k => a k i) with (ac i). ring.
  - intros l Hl. change (fun k => Q h k l) with (qc h l). rewrite (qf_orth i h r K) by lia. destruct (l =? d); ring.
Qed.
Lemma rem_a i h r : 0 <= i < n -> qr_facts i h r -> inner m (ac i) (rem i h) = inner m (rem i h) (rem i h).
Proof.
  intros Hi K. transitivity (inner m (fun k => sadd (rem i h k) (smul s1 (sum_range 0 i (fun l => smul (inner m (ac i) (qc h l)) (Q h k l))))) (rem i h)).
  - apply inner_ext; [|reflexivity]. intros k _. unfold rem, acl. ring.
  - rewrite (inner_lin_l R). rewrite (inner_sum_l i (fun l => inner m (ac i) (qc h l)) (fun l k => Q h k l)).
    rewrite (sum_range_0 R 0 i); [ring|]. intros l Hl. change (fun k => Q h k l) with (qc h l). rewrite (inner_comm R m (qc h l) (rem i h)), (rem_orth i h r) by assumption. ring.
Qed.

(** If it vanishes, the columns of A are dependent. *)
Lemma rem_zero i h r : 0 <= i < n -> qr_facts i h r -> (forall k, 0 <= k < m -> rem i h k = s0) -> ~ independent_columns m n a.
Proof.
  intros Hi K Hz HI. destruct (upper_exists F i (dense_mat r) (fun l => inner m (ac i) (qc h l))) as (y & Hy); [lia| |].
  { intros c Hc H. pose proof (qf_diag i h r K c Hc) as P. rewrite H, (slt_irrefl _ O) in P. discriminate. }
  set (x := fun c => if c <? i then y c else if c =? i then sopp s1 else s0).
  assert (Hx : x i = s0).
  { apply HI; [|exact Hi]. intros k Hk. unfold mat_vec. rewrite (sum_range_split R 0 i n), (sum_range_first i n) by lia.
    rewrite (sum_range_0 R (i + 1) n). 2:{ intros c Hc. unfold x. destruct (Z.ltb_spec c i), (Z.eqb_spec c i); try lia. ring. }
    rewrite (sum_range_ext 0 i _ (fun c => sum_range 0 i (fun l => smul (Q h k l) (smul (dense_mat r l c) (y c))))).
    - rewrite (sum_range_swap R). rewrite (sum_range_ext 0 i _ (fun l => smul (inner m (ac i) (qc h l)) (Q h k l))).
      + specialize (Hz k Hk). unfold rem in Hz. unfold x. destruct (Z.ltb_spec i i), (Z.eqb_spec i i); try lia. revert Hz. generalize (sum_range 0 i (fun l => smul (inner m (ac i) (qc h l)) (Q h k l))). intros t Hz. transitivity (sopp (ssub (a k i) t)); [ring|]. rewrite Hz. ring.
      + intros l Hl. rewrite (sum_range_scale R). rewrite <- (Hy l Hl). rewrite (sum_range_split R 0 l i) by lia.
        rewrite (sum_range_0 R 0 l); [ring|]. intros c Hc. rewrite (qf_upper i h r K) by lia. ring.
    - intros c Hc. unfold x. destruct (Z.ltb_spec c i); [|lia]. rewrite <- (qf_prod i h r K c k) by lia. rewrite <- (sum_range_scale_r R).
      rewrite (sum_range_split R 0 (c + 1) i) by lia. rewrite (sum_range_0 R (c + 1) i).
      + rewrite (sum_range_ext 0 (c + 1) _ (fun l => smul (Q h k l) (smul (dense_mat r l c) (y c)))) by (intros; ring). ring.
      + intros l Hl. rewrite (qf_upper i h r K) by lia. ring. }
  unfold x in Hx. destruct (Z.ltb_spec i i), (Z.eqb_spec i i); try lia. apply (F_1_neq_0 F). transitivity (sopp (sopp (@s1 S))); [ring|]. rewrite Hx. ring.
Qed.

Lemma root_zero (t : T) : sle s0 t -> (root t = s0 <-> t = s0).
Proof.
  intros Ht. destruct (Hroot t Ht) as (H1 & H2). split; intros H.
  - rewrite <- H2, H. ring.
  - destruct (zero_dec E (root t)) as [K|K]; [exact K|]. apply (mul_zero F _ _ (eq_trans H2 H) K).
Qed.
Lemma inner_nonneg (x : vect S) : sle s0 (inner m x x).
Proof. apply (sum_nonneg R O OS). intros i _. apply (sq_nonneg R O OS OP). Qed.

Lemma qr_step i h r : 0 <= i < n -> qr_facts i h r ->
  match qr_column root m n i (h, r) with
  | Ok st => qr_facts (i + 1) (fst st) (snd st)
  | Fail e => e = FAssert /\ ~ independent_columns m n a
  end.
Proof.
  intros Hi K. unfold qr_column. rewrite !(col_view_ok m n A HA) by lia. cbn [bind].
  destruct (col_loop i h r Hi K) as (h1 & r1 & E1 & C). unfold col_body in E1. rewrite E1. clear E1. cbn [bind].
  pose proof (cf_two _ _ _ _ _ _ C) as T1. unfold v_l2norm. rewrite (inner_qq R m n A HA) by (try exact T1; lia). cbn [bind].
  assert (Ev : forall k, 0 <= k < m -> qc h1 i k = rem i h k) by (intros k Hk; exact (cf_col _ _ _ _ _ _ C k Hk)).
  rewrite (inner_ext m (qc h1 i) (rem i h) (qc h1 i) (rem i h)) by exact Ev.
  set (nv := inner m (rem i h) (rem i h)). pose proof (inner_nonneg (rem i h)) as Hnn. fold nv in Hnn.
  destruct (Hroot nv Hnn) as (Rp & Rsq). set (d := root nv) in *.
  destruct (seqb d s0) eqn:Hd.
  { unfold v_div_scalar. rewrite Hd. cbn [negb assert_ bind]. split; [reflexivity|]. apply E in Hd. apply (rem_zero i h r Hi K).
    apply (root_zero nv Hnn) in Hd. intros k Hk. destruct (zero_or_not E m (rem i h)) as [Z|NZ]; [now apply Z|].
    apply (inner_self_pos F O OS OP) in NZ. fold nv in NZ. rewrite Hd, (slt_irrefl _ O) in NZ. discriminate. }
  assert (Nd : d <> s0) by (intros H; apply E in H; congruence).
  destruct (div_column m n A HA h1 i d T1 Hi Hd) as (h2 & Eh & T2 & W). rewrite Eh. cbn [bind].
  rewrite (inner_aq R m n A HA) by (try exact T2; lia). cbn [bind].
  assert (Eq : forall k, 0 <= k < m -> qc h2 i k = sdiv (rem i h k) d).
  { intros k Hk. unfold qcl at 1. rewrite W by lia. rewrite Z.eqb_refl. f_equal. exact (Ev k Hk). }
  assert (Eo : forall c k, 0 <= c < n -> 0 <= k < m -> c <> i -> qc h2 c k = qc h c k).
  { intros c k Hc Hk N. unfold qcl at 1. rewrite W by lia. destruct (Z.eqb_spec c i); [contradiction|]. apply (cf_other _ _ _ _ _ _ C); assumption. }
  assert (Er : inner m (ac i) (qc h2 i) = d).
  { rewrite (inner_ac_ext i _ (fun k => sdiv (rem i h k) d) Eq). rewrite inner_div_r, (rem_a i h r Hi K). fold nv. rewrite <- Rsq. apply (mul_eq F _ _ d); [|exact Nd]. apply (div_mul F). exact Nd. }
  rewrite Er. destruct (is_dense_set n n r1 i i d (cf_R _ _ _ _ _ _ C) Hi Hi) as (r2 & E2 & D2 & V2). rewrite E2. cbn [bind fst snd].
  assert (Orth : forall c, 0 <= c < i -> inner m (qc h2 i) (qc h2 c) = s0).
  { intros c Hc. rewrite (inner_comm R). rewrite (inner_ext m _ (qc h c) _ (fun k => sdiv (rem i h k) d)); [|intros k Hk; apply Eo; lia|exact Eq].
    rewrite inner_div_r, (inner_comm R), (rem_orth i h r) by assumption. rewrite (Fdiv_def F s0 d). ring. }
  assert (V : forall c e, 0 <= c < n -> 0 <= e < n -> dense_mat r2 c e = if e =? i then (if c <? i then inner m (ac i) (qc h c) else if c =? i then d else dense_mat r c e) else dense_mat r c e).
  { intros c e Hc He. rewrite V2 by lia. rewrite (cf_r _ _ _ _ _ _ C) by lia. destruct (Z.eqb_spec e i), (Z.eqb_spec c i), (Z.ltb_spec c i); cbn [andb]; try reflexivity; lia. }
  split; [exact T2|exact D2| | | | |].
  - intros c e Hc He. destruct (Z.eqb_spec c e) as [->|N].
    + destruct (Z.eq_dec e i) as [->|Ne].
      * rewrite (inner_ext m _ (qc h2 i) _ (fun k => sdiv (rem i h k) d)); [|reflexivity|exact Eq]. rewrite inner_div_r.
        rewrite (inner_comm R). rewrite (inner_ext m _ (rem i h) _ (fun k => sdiv (rem i h k) d)); [|reflexivity|exact Eq]. rewrite inner_div_r. fold nv.
        rewrite <- Rsq. apply (mul_eq F _ _ d); [|exact Nd]. rewrite (div_mul F) by exact Nd. apply (mul_eq F _ _ d); [|exact Nd]. rewrite (div_mul F) by exact Nd. ring.
      * rewrite (inner_ext m _ (qc h e) _ (qc h e)) by (intros k Hk; apply Eo; lia). rewrite (qf_orth i h r K) by lia. now rewrite Z.eqb_refl.
    + destruct (Z.eq_dec c i) as [->|Nc]; [apply Orth; lia|]. destruct (Z.eq_dec e i) as [->|Ne]; [rewrite (inner_comm R); apply Orth; lia|].
      rewrite (inner_ext m _ (qc h c) _ (qc h e)) by (intros k Hk; apply Eo; lia). rewrite (qf_orth i h r K) by lia. destruct (Z.eqb_spec c e); [contradiction|reflexivity].
  - intros c k Hc Hk. destruct (Z.eq_dec c i) as [->|Nc].
    + rewrite (sum_range_last R) by lia. rewrite V by lia. rewrite Z.eqb_refl. destruct (Z.ltb_spec i i); [lia|].
      change (Q h2 k i) with (qc h2 i k). rewrite Eq by lia. rewrite (div_mul F) by exact Nd.
      rewrite (sum_range_ext 0 i _ (fun l => smul (inner m (ac i) (qc h l)) (Q h k l))); [unfold rem; ring|].
      intros l Hl. rewrite V by lia. rewrite Z.eqb_refl. destruct (Z.ltb_spec l i); [|lia]. change (Q h2 k l) with (qc h2 l k). rewrite Eo by lia. unfold qcl. ring.
    + rewrite <- (qf_prod i h r K c k) by lia. apply sum_range_ext. intros l Hl. rewrite V by lia. destruct (Z.eqb_spec c i); [contradiction|].
      change (Q h2 k l) with (qc h2 l k). rewrite Eo by lia. reflexivity.
  - intros c k Hc Hk. change (Q h2 k c) with (qc h2 c k). rewrite Eo by lia. apply (qf_rest i h r K); lia.
  - intros c e Hc He Hlt. rewrite V by lia. destruct (Z.eqb_spec e i), (Z.ltb_spec c i), (Z.eqb_spec c i); try lia; apply (qf_upper i h r K); lia.
  - intros c Hc. rewrite V by lia. destruct (Z.eqb_spec c i) as [->|N].
    + destruct (Z.ltb_spec i i); [lia|]. apply (sle_neq_slt O); [exact Rp|]. intros H'. apply Nd. symmetry. exact H'.
    + apply (qf_diag i h r K). lia.
Qed.

Lemma qr_start : exists r, d_zeros n n = Ok r /\ qr_facts 0 [Some (Block (d_data A) (zlen (d_data A))); Some (Block (d_data A) (zlen (d_data A)))] r.
Proof.
  destruct (@d_zeros_ok S n n ltac:(lia) ltac:(lia)) as (r & Er & K & Hr & Hc & Z). exists r. split; [exact Er|].
  destruct (start_two m n A HA) as (H2 & HQ). split; try (intros; lia).
  - exact H2.
  - split; [exact K|]. split; assumption.
  - intros c k Hc' Hk. now apply HQ.
  - intros i j Hi Hj _. now apply Z.
Qed.

Lemma qr_decomp_facts :
  match qr_decomp root A with
  | Ok (q, r) => exists h, qr_facts n h r /\ is_dense m n q /\ dense_mat q = Qm m h
  | Fail e => e = FAssert /\ ~ independent_columns m n a
  end.
Proof.
  unfold qr_decomp. destruct qr_start as (r0 & E0 & K0). pose proof HA as (_ & Hr & Hc). rewrite Hr, Hc, E0. cbn [bind].
  pose proof (for_either (fun i st => qr_facts i (fst st) (snd st)) (fun e => e = FAssert /\ ~ independent_columns m n a) n (_, r0)
    (qr_column root m n) (proj2 Hmn) K0) as H. cbv beta in H.
  specialize (H ltac:(intros i (h, r) Hi K; exact (qr_step i h r Hi K))). cbn [fst snd] in H.
  destruct (for_ 0 n _ _) as [(h & r)|e]; [|exact H]. cbn [fst snd bind] in *. destruct (qf_two n h r H) as (_ & k & Ek & Lk). rewrite Ek. cbn [bind].
  exists h. split; [exact H|]. split.
  - split; [|split; reflexivity]. split; [|split]; cbn; lia.
  - unfold dense_mat, Qm, cells. cbn. rewrite Ek. reflexivity.
Qed.

End QrProofs.
