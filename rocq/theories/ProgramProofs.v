(** Every statement on stored matrices does what it does on mathematical matrices. *)

From Coq Require Import ZArith List Bool Lia.
From Verif Require Import Base Scalar Spec Sparse SparseHistory CsrFacts SumFacts SparseProofs SparseMore EntrywiseProofs EntrywiseMat
  SubProofs ProductProofs TransposeProofs SortProofs Rows HistoryProofs LifeProofs ProgramSpec.
Import ListNotations.
Open Scope Z_scope.

Lemma within_iff n k : within n k = true <-> 0 <= k < n.
Proof. unfold within. rewrite andb_true_iff, Z.leb_le, Z.ltb_lt. reflexivity. Qed.

Lemma when_Some {X} b (x y : X) : when b x = Some y -> b = true /\ x = y.
Proof. destruct b; cbn; [|discriminate]. intros [= ->]. now split. Qed.

Lemma andthen_Some {X Y} (x : option X) (f : X -> option Y) y : andthen x f = Some y -> exists a, x = Some a /\ f a = Some y.
Proof. destruct x as [a|]; cbn; [|discriminate]. intros H. now exists a. Qed.

Section Program.
Context {S : scalar}.
Notation T := (car S).
Hypothesis F : field_laws S.
Hypothesis E : eqb_laws S.
Hypothesis O : order_laws S.
Hypothesis Ab : abs_laws S.
Variable srt : sorter.
Hypothesis Hs : sorts srt.
Implicit Types (A B : csr S) (M N : matrix S) (st : list (csr S)) (ms : list (option (matrix S))).

Let R : ring_laws S := field_ring S F.

Lemma refines_length st ms : refines st ms -> zlen st = zlen ms.
Proof. intros H. unfold zlen. f_equal. induction H; cbn; congruence. Qed.

Lemma look_get st ms k M : refines st ms -> look ms k = Some M -> exists A, get st k = Ok A /\ represents A M.
Proof.
  intros H. unfold look. destruct (within (zlen ms) k) eqn:W; [|discriminate]. apply within_iff in W. intros L.
  pose proof (refines_length _ _ H) as Z.
  exists (zn sp_empty st k). split; [apply get_ok; lia|].
  unfold zn in *. destruct W as (W0 & W1). assert (LT : (Z.to_nat k < length ms)%nat) by (unfold zlen in W1; lia).
  clear W0 W1 Z. revert L LT. generalize (Z.to_nat k) as n. clear k.
  induction H as [|A m st ms HA H IH]; intros n L LT; [cbn in LT; lia|]. destruct n as [|n]; cbn in *.
  - subst m. exact HA.
  - apply IH; [exact L|lia].
Qed.

Lemma put_set st ms k v ms' A : refines st ms -> put ms k v = Some ms' -> holds A v ->
  exists st', set st k A = Ok st' /\ refines st' ms'.
Proof.
  intros H P HA. apply when_Some in P as (W & <-). apply within_iff in W. pose proof (refines_length _ _ H) as Z.
  exists (upd st (Z.to_nat k) A). split; [apply set_ok; lia|].
  generalize (Z.to_nat k) as n. clear W Z k.
  induction H as [|B m st ms HB H IH]; intros n; destruct n as [|n]; cbn; try constructor; auto; apply IH.
Qed.

Lemma shape_equal A B M N : represents A M -> csr_valid B -> c_rows B = c_rows A -> c_cols B = c_cols A ->
  m_rows N = m_rows M -> m_cols N = m_cols M ->
  (forall i j, 0 <= i < m_rows M -> 0 <= j < m_cols M -> csr_mat B i j = m_at N i j) -> represents B N.
Proof.
  intros (V & HR & HC & H) VB ER EC MR MC HN. split; [exact VB|]. split; [congruence|]. split; [congruence|].
  intros i j Hi Hj. apply HN; congruence.
Qed.

Lemma nowhere_zero_spec (w : list T) i : nowhere_zero w = true -> 0 <= i < zlen w -> seqb (vec_of w i) s0 = false.
Proof.
  intros H Hi. unfold nowhere_zero in H. rewrite forallb_forall in H. specialize (H (vec_of w i)).
  apply negb_true_iff. apply H. apply zn_In. exact Hi.
Qed.

Ltac from H := let B := fresh "B" in let EB := fresh "EB" in let VB := fresh "VB" in let P := fresh "P" in let HB := fresh "HB" in
  destruct H as (B & EB & VB & P & HB).

Lemma change_ok A M o N : represents A M -> change M o = Some N -> exists B, run_inplace srt A o = Ok B /\ represents B N.
Proof.
  intros HA HN. pose proof HA as (V & HR & HC & H). destruct o; cbn [change run_inplace] in *; try discriminate HN.
  - injection HN as <-. destruct (sp_sort_spec srt Hs A V) as (B & EB & VB & _ & SE). exists B. split; [exact EB|].
    destruct SE as (SR & SC & _). apply (shape_equal A B M M HA VB); auto; try congruence.
    intros i j Hi Hj. rewrite (sp_sort_mat R srt A B Hs V EB). now apply H.
  - injection HN as <-. destruct (sp_scale_mat R A v V) as (VB & (PR & PC & _) & HB). eexists; split; [reflexivity|].
    eapply shape_equal; eauto. intros i j Hi Hj. rewrite HB, H; auto.
  - apply when_Some in HN as (Hv & <-). apply negb_true_iff in Hv. from (sp_div_mat F A v V Hv).
    destruct P as (PR & PC & _). exists B. split; [exact EB|]. eapply shape_equal; eauto. intros i j Hi Hj. rewrite HB, H; auto.
  - apply when_Some in HN as (Hv & <-). apply Z.eqb_eq in Hv. from (sp_scale_rows_mat_spec R A w V ltac:(congruence)).
    destruct P as (PR & PC & _). exists B. split; [exact EB|]. eapply shape_equal; eauto. intros i j Hi Hj. rewrite HB, H; auto.
  - apply when_Some in HN as (Hv & <-). apply Z.eqb_eq in Hv. from (sp_scale_cols_mat_spec R A w V ltac:(congruence)).
    destruct P as (PR & PC & _). exists B. split; [exact EB|]. eapply shape_equal; eauto. intros i j Hi Hj. rewrite HB, H; auto.
  - apply when_Some in HN as (Hv & <-). apply andb_true_iff in Hv as (Hv & NZ). apply Z.eqb_eq in Hv.
    from (sp_inv_scale_rows_mat_spec F A w V ltac:(congruence) ltac:(intros i Hi; apply nowhere_zero_spec; [exact NZ|lia])).
    destruct P as (PR & PC & _). exists B. split; [exact EB|]. eapply shape_equal; eauto. intros i j Hi Hj. rewrite HB, H; auto.
  - apply when_Some in HN as (Hv & <-). apply andb_true_iff in Hv as (Hv & NZ). apply Z.eqb_eq in Hv.
    from (sp_inv_scale_cols_mat_spec F A w V ltac:(congruence) ltac:(intros i Hi; apply nowhere_zero_spec; [exact NZ|lia])).
    destruct P as (PR & PC & _). exists B. split; [exact EB|]. eapply shape_equal; eauto. intros i j Hi Hj. rewrite HB, H; auto.
  - apply when_Some in HN as (Hv & <-). apply andb_true_iff in Hv as (Hv & HP). apply Z.eqb_eq in Hv.
    rewrite forallb_forall in HP.
    destruct (sp_permute_cols_spec R A perm V) as (B & EB & VB & PR & PC & HB & _); [congruence| |].
    { intros j Hj. rewrite HC. apply within_iff, HP, zn_In. lia. }
    exists B. split; [exact EB|]. eapply shape_equal; eauto. intros i k Hi Hk. rewrite HB, HC. cbn.
    apply sum_range_ext. intros j Hj. destruct (zn 0 perm j =? k); [|reflexivity]. now apply H.
  - apply when_Some in HN as (Hv & <-). apply within_iff in Hv. from (sp_elim_row_mat R A k V ltac:(lia)).
    destruct P as (PR & PC & _). exists B. split; [exact EB|]. eapply shape_equal; eauto. intros i j Hi Hj. rewrite HB, H; auto.
  - apply when_Some in HN as (Hv & <-). apply within_iff in Hv. from (sp_elim_col_mat R A k V ltac:(lia)).
    destruct P as (PR & PC & _). exists B. split; [exact EB|]. eapply shape_equal; eauto. intros i j Hi Hj. rewrite HB, H; auto.
  - apply when_Some in HN as (Hv & <-). apply Z.leb_le in Hv. from (sp_elim_col_marker_mat R A m V ltac:(lia)).
    destruct P as (PR & PC & _). exists B. split; [exact EB|]. eapply shape_equal; eauto. intros i j Hi Hj. rewrite HB, H; auto.
  - apply when_Some in HN as (Hv & <-). apply andb_true_iff in Hv as (Hv & Hb). apply andb_true_iff in Hv as (Hv & Hx).
    apply Z.leb_le in Hv. apply Z.eqb_eq in Hx, Hb.
    destruct (sp_elim_col_bc_spec R A m x b E V) as (B & b' & EB & VB & (PR & PC & _) & _ & HB & _); [lia|congruence|congruence|].
    exists B. rewrite EB. split; [reflexivity|]. eapply shape_equal; eauto. intros i j Hi Hj. rewrite HB, H; auto.
  - apply when_Some in HN as (Hv & <-). apply E in Hv. subst tol.
    destruct (sp_elim_zeros_default A O Ab V) as (B & EB & VB & PR & PC & _ & HB). exists B. split; [exact EB|].
    eapply shape_equal; eauto. intros i j Hi Hj. rewrite HB, H; auto.
Qed.

Lemma no_entries r c p : csr_valid (@CSR S r c p [] []) -> represents (@CSR S r c p [] []) (Matrix r c (fun _ _ => s0)).
Proof.
  intros V. split; [exact V|]. split; [reflexivity|]. split; [reflexivity|]. intros i j _ _. cbn.
  unfold csr_mat. assert (EN : entries (@CSR S r c p [] []) = []).
  { pose proof (entries_values _ V) as H. cbn in H. now apply map_eq_nil in H. }
  rewrite EN. reflexivity.
Qed.

Lemma zero_ok r c : 0 <= r -> 0 <= c -> exists A, @sp_zero S r c = Ok A /\ represents A (Matrix r c (fun _ _ => s0)).
Proof.
  intros Hr Hc. unfold sp_zero. rewrite (proj2 (Z.leb_le 0 r) Hr), (proj2 (Z.leb_le 0 c) Hc). cbn [assert_ bind].
  rewrite vec_ok by lia. cbn [bind]. eexists. split; [reflexivity|].
  assert (V : csr_valid (@CSR S r c (repeat 0 (Z.to_nat (r + 1))) [] [])).
  { apply (sp_zero_valid r c). unfold sp_zero. rewrite (proj2 (Z.leb_le 0 r) Hr), (proj2 (Z.leb_le 0 c) Hc). cbn [assert_ bind].
    rewrite vec_ok by lia. reflexivity. }
  now apply no_entries.
Qed.

Lemma last_mention_iff cols j : last_mention cols j = true <-> forall k, j < k < zlen cols -> zn 0 cols k <> zn 0 cols j.
Proof.
  unfold last_mention. rewrite forallb_forall. split; intros H k Hk.
  - specialize (H k). rewrite In_zrange in H. apply Z.eqb_neq, negb_true_iff, H. lia.
  - apply In_zrange in Hk. apply negb_true_iff, Z.eqb_neq, H. lia.
Qed.

Lemma last_mention_false cols j : last_mention cols j = false -> exists k, j < k < zlen cols /\ zn 0 cols k = zn 0 cols j.
Proof.
  intros H. unfold last_mention in H. assert (G : exists k, In k (zrange (j + 1) (zlen cols)) /\ zn 0 cols k =? zn 0 cols j = true).
  { induction (zrange (j + 1) (zlen cols)) as [|k l IH]; cbn in H; [discriminate|].
    destruct (zn 0 cols k =? zn 0 cols j) eqn:Q.
    - exists k. split; [now left|exact Q].
    - destruct (IH H) as (k' & I' & Q'). exists k'. split; [now right|exact Q']. }
  destruct G as (k & I' & Q). apply In_zrange in I'. apply Z.eqb_eq in Q. exists k. split; [lia|exact Q].
Qed.

Lemma step_ok st ms o ms' : op_args_ok o -> refines st ms -> step ms o = Some ms' ->
  exists st', run_op srt st o = Ok st' /\ refines st' ms'.
Proof.
  intros HO HR HS. destruct o; cbn [step run_op] in *.
  - injection HS as <-. eexists. split; [reflexivity|]. apply Forall2_app; [exact HR|]. constructor; [|constructor].
    apply no_entries. apply (sp_zero_valid 0 0). reflexivity.
  - destruct (_ && _) eqn:W; [|discriminate]. injection HS as <-. apply andb_true_iff in W as (W1 & W2). apply Z.leb_le in W1, W2.
    destruct (zero_ok rows cols W1 W2) as (A & EA & HA). rewrite EA. cbn. eexists. split; [reflexivity|].
    apply Forall2_app; [exact HR|]. constructor; [exact HA|constructor].
  - injection HS as <-. eexists. split; [reflexivity|]. apply Forall2_app; [exact HR|]. constructor; [|constructor].
    split; [apply sp_diag_valid|]. split; [reflexivity|]. split; [reflexivity|]. cbn. intros i j Hi Hj.
    rewrite (sp_diag_mat R). assert (W : (0 <=? i) && (i <? zlen d) = true) by (apply within_iff; exact Hi). now rewrite W.
  - injection HS as <-. cbn in HO. pose proof (sp_make_valid _ HO) as EA. cbn in EA. rewrite EA. cbn.
    eexists. split; [reflexivity|]. apply Forall2_app; [exact HR|]. constructor; [|constructor].
    split; [exact HO|]. now split.
  - apply andthen_Some in HS as (M & L & P). destruct (look_get _ _ _ _ HR L) as (A & EA & HA). rewrite EA. cbn [bind].
    eapply put_set; eauto.
  - apply andthen_Some in HS as (M & L & P). apply andthen_Some in P as (ms1 & P1 & P2).
    destruct (look_get _ _ _ _ HR L) as (A & EA & HA). rewrite EA. cbn [bind]. destruct (sp_move A) as (N1 & O1) eqn:EM.
    injection EM as <- <-.
    destruct (put_set st ms src None ms1 (CSR 0 0 [] [] []) HR P1 I) as (st1 & E1 & H1). rewrite E1. cbn [bind].
    eapply put_set; eauto.
  - apply andthen_Some in HS as (M & L & P). apply andthen_Some in P as (N & L2 & P). apply andthen_Some in P as (ms1 & P1 & P2).
    destruct (look_get _ _ _ _ HR L) as (A & EA & HA). rewrite EA. cbn [bind].
    destruct (look_get _ _ _ _ HR L2) as (B & EB & HB). rewrite EB. cbn [bind]. destruct (sp_swap A B) as (N1 & O1) eqn:EM.
    injection EM as <- <-.
    destruct (put_set st ms _ _ ms1 _ HR P1 HB) as (st1 & E1 & H1). rewrite E1. cbn [bind].
    eapply put_set; eauto.
  - apply andthen_Some in HS as (M & L & P). apply andthen_Some in P as (ms1 & P1 & P2). injection P2 as <-.
    destruct (look_get _ _ _ _ HR L) as (A & EA & HA). rewrite EA. cbn [bind]. destruct (sp_move A) as (N1 & O1) eqn:EM.
    injection EM as <- <-.
    destruct (put_set st ms src None ms1 (CSR 0 0 [] [] []) HR P1 I) as (st1 & E1 & H1). rewrite E1. cbn [bind].
    eexists. split; [reflexivity|]. apply Forall2_app; [exact H1|]. constructor; [|constructor]. now destruct A.
  - apply andthen_Some in HS as (M & L & P). apply andthen_Some in P as (N & HN & P).
    destruct (look_get _ _ _ _ HR L) as (A & EA & HA). rewrite EA. cbn [bind].
    destruct (change_ok A M o N HA HN) as (B & EB & HB). rewrite EB. cbn [bind]. eapply put_set; eauto.
  - apply andthen_Some in HS as (M & L & P). destruct (look_get _ _ _ _ HR L) as (A & EA & HA). rewrite EA. cbn [bind].
    destruct HA as (V & R1 & C1 & H1).
    destruct (sp_transpose_full A V) as (B & EB & VB & PR & PC & _). rewrite EB. cbn [bind]. eapply put_set; eauto.
    split; [exact VB|]. split; [cbn; congruence|]. split; [cbn; congruence|]. cbn. intros i j Hi Hj.
    rewrite (sp_transpose_mat R A B V EB). now apply H1.
  - apply andthen_Some in HS as (M & L & P). apply andthen_Some in P as (N & L2 & P).
    destruct (look_get _ _ _ _ HR L) as (A & EA & HA). rewrite EA. cbn [bind].
    destruct (look_get _ _ _ _ HR L2) as (B & EB & HB). rewrite EB. cbn [bind].
    destruct (m_rows N =? m_cols M) eqn:W; [|discriminate]. apply Z.eqb_eq in W.
    destruct HA as (V & R1 & C1 & H1). destruct HB as (VB & R2 & C2 & H2).
    destruct (sp_spmult_spec R A B V VB ltac:(congruence)) as (C & EC & VC & PR & PC & _ & HC). rewrite EC. cbn [bind].
    eapply put_set; eauto. split; [exact VC|]. split; [cbn; congruence|]. split; [cbn; congruence|]. cbn. intros i j Hi Hj.
    rewrite HC by congruence. unfold mat_mul. rewrite C1. apply sum_range_ext. intros k Hk. rewrite H1, H2; try lia. reflexivity.
  - apply andthen_Some in HS as (M & L & P). destruct (look_get _ _ _ _ HR L) as (A & EA & HA). rewrite EA. cbn [bind].
    destruct (_ && _) eqn:W; [|discriminate]. apply andb_true_iff in W as (W & W4). apply andb_true_iff in W as (W & W3).
    apply andb_true_iff in W as (W1 & W2). rewrite forallb_forall in W1, W2, W4. apply Z.leb_le in W3.
    destruct HA as (V & R1 & C1 & H1).
    destruct (sp_submatrix_spec R A rows cols marker V) as (B & EB & VB & PR & PC & HB).
    { intros r Hr. rewrite R1. now apply within_iff, W1. } { intros c Hc. rewrite C1. now apply within_iff, W2. }
    { lia. } { intros m Hm. now apply Z.eqb_eq, W4. }
    rewrite EB. cbn [bind fst]. eapply put_set; eauto. split; [exact VB|]. split; [exact PR|]. split; [exact PC|].
    cbn. intros i j Hi Hj. destruct (HB i j Hi Hj) as (HB1 & HB2). destruct (last_mention cols j) eqn:LM.
    + rewrite HB1 by now apply last_mention_iff. apply H1; apply within_iff; [apply W1|apply W2]; now apply zn_In.
    + apply HB2. now apply last_mention_false.
Qed.

(** Whole programs. *)
Lemma program_ok ops : forall st ms ms', Forall op_args_ok ops -> refines st ms -> program ops ms = Some ms' ->
  exists st', run srt ops st = Ok st' /\ refines st' ms'.
Proof.
  unfold program, run. induction ops as [|o ops IH]; intros st ms ms' HO HR HP.
  - injection HP as <-. exists st. now split.
  - apply Forall_cons_iff in HO as (HO1 & HO). cbn in HP. destruct (step ms o) as [ms1|] eqn:E1.
    + destruct (step_ok st ms o ms1 HO1 HR E1) as (st1 & ER & H1). cbn [foldM]. rewrite ER. cbn [bind].
      apply (IH st1 ms1 ms' HO H1 HP).
    + exfalso. clear IH. induction ops as [|o' ops IH]; cbn in HP; [discriminate|]. apply IH; [|exact HP].
      now apply Forall_cons_iff in HO as (_ & HO).
Qed.

End Program.

Section Observe.
Context {S : scalar}.
Notation T := (car S).
Implicit Types (A B C : csr S) (M N : matrix S) (st : list (csr S)) (ms : list (option (matrix S))).

Lemma same_of_represents A B M : represents A M -> represents B M -> same_matrix A B.
Proof.
  intros (_ & R1 & C1 & H1) (_ & R2 & C2 & H2). split; [congruence|]. split; [congruence|].
  intros i j Hi Hj. rewrite H1, H2; congruence.
Qed.

Definition table A := map (fun i => map (fun j => csr_mat A i j) (zrange 0 (c_cols A))) (zrange 0 (c_rows A)).

Lemma small_same A B : (c_rows A, c_cols A, table A) = (c_rows B, c_cols B, table B) -> same_matrix A B.
Proof.
  unfold table. intros [= HR HC H]. split; [exact HR|]. split; [exact HC|]. intros i j Hi Hj. rewrite <- HR, <- HC in H.
  assert (G : map (fun j => csr_mat A i j) (zrange 0 (c_cols A)) = map (fun j => csr_mat B i j) (zrange 0 (c_cols A))).
  { assert (I' : In i (zrange 0 (c_rows A))) by now apply In_zrange. revert H I'. clear. induction (zrange 0 (c_rows A)) as [|k l IH]; cbn; [tauto|].
    intros [= E1 E2] [<-|I']; [exact E1|]. now apply IH. }
  assert (I' : In j (zrange 0 (c_cols A))) by now apply In_zrange. revert G I'. clear. induction (zrange 0 (c_cols A)) as [|k l IH]; cbn; [tauto|].
  intros [= E1 E2] [<-|I']; [exact E1|]. now apply IH.
Qed.

Lemma represents_self A : csr_valid A -> represents A (Matrix (c_rows A) (c_cols A) (csr_mat A)).
Proof. intros V. split; [exact V|]. split; [reflexivity|]. split; reflexivity. Qed.

Lemma observed_mult (R : ring_laws S) A M x out : represents A M -> zlen x = m_cols M -> zlen out = m_rows M ->
  exists y, sp_mult A x out = Ok y /\ zlen y = m_rows M /\
    forall i, 0 <= i < m_rows M -> vec_of y i = sum_range 0 (m_cols M) (fun j => smul (m_at M i j) (vec_of x j)).
Proof.
  intros (V & HR & HC & H) Hx Ho. destruct (sp_mult_spec R A x out V) as (y & EY & ZY & HY); [congruence|congruence|].
  exists y. split; [exact EY|]. split; [congruence|]. intros i Hi. rewrite HY by congruence. unfold mat_vec. rewrite HC.
  apply sum_range_ext. intros j Hj. now rewrite H.
Qed.

Lemma observed_multAT (R : ring_laws S) A M x out : represents A M -> zlen x = m_rows M -> zlen out = m_cols M ->
  exists y, sp_multAT A x out = Ok y /\ zlen y = m_cols M /\
    forall j, 0 <= j < m_cols M -> vec_of y j = sum_range 0 (m_rows M) (fun i => smul (m_at M i j) (vec_of x i)).
Proof.
  intros (V & HR & HC & H) Hx Ho. destruct (sp_multAT_spec R A x out V) as (y & EY & ZY & HY); [congruence|congruence|].
  exists y. split; [exact EY|]. split; [congruence|]. intros j Hj. rewrite HY by congruence. unfold mat_vec. rewrite HR.
  apply sum_range_ext. intros i Hi. unfold mat_T. now rewrite H.
Qed.

Section Laws.
Hypothesis R : ring_laws S.
Let Rth : ring_theory (s0 (s := S)) s1 sadd smul ssub sopp eq := R.
Add Ring Sring : Rth.

Lemma product_assoc A B C : csr_valid A -> csr_valid B -> csr_valid C -> c_rows B = c_cols A -> c_rows C = c_cols B ->
  exists AB BC L Q, sp_spmult A B = Ok AB /\ sp_spmult B C = Ok BC /\ sp_spmult AB C = Ok L /\ sp_spmult A BC = Ok Q /\ same_matrix L Q.
Proof.
  intros VA VB VC E1 E2.
  destruct (sp_spmult_spec R A B VA VB E1) as (AB & EAB & VAB & RAB & CAB & _ & HAB).
  destruct (sp_spmult_spec R B C VB VC E2) as (BC & EBC & VBC & RBC & CBC & _ & HBC).
  destruct (sp_spmult_spec R AB C VAB VC ltac:(congruence)) as (L & EL & VL & RL & CL & _ & HL).
  destruct (sp_spmult_spec R A BC VA VBC ltac:(congruence)) as (Q & EQ & VQ & RQ & CQ & _ & HQ).
  exists AB, BC, L, Q. repeat (split; [assumption|]). split; [congruence|]. split; [congruence|]. intros i j Hi Hj.
  rewrite HL, HQ by congruence. unfold mat_mul. rewrite CAB.
  transitivity (sum_range 0 (c_cols B) (fun l => sum_range 0 (c_cols A) (fun k => smul (smul (csr_mat A i k) (csr_mat B k l)) (csr_mat C l j)))).
  { apply sum_range_ext. intros l Hl. rewrite HAB by congruence. unfold mat_mul. now rewrite <- (sum_range_scale_r R). }
  rewrite (sum_range_swap R). apply sum_range_ext. intros k Hk. rewrite HBC by congruence. unfold mat_mul. rewrite <- (sum_range_scale R).
  apply sum_range_ext. intros l Hl. ring.
Qed.

Lemma product_transpose A B : csr_valid A -> csr_valid B -> c_rows B = c_cols A ->
  exists AB At Bt L Q, sp_spmult A B = Ok AB /\ sp_transpose A = Ok At /\ sp_transpose B = Ok Bt /\
    sp_transpose AB = Ok L /\ sp_spmult Bt At = Ok Q /\ same_matrix L Q.
Proof.
  intros VA VB E1.
  destruct (sp_spmult_spec R A B VA VB E1) as (AB & EAB & VAB & RAB & CAB & _ & HAB).
  destruct (sp_transpose_full A VA) as (At & EAt & VAt & RAt & CAt & _).
  destruct (sp_transpose_full B VB) as (Bt & EBt & VBt & RBt & CBt & _).
  destruct (sp_transpose_full AB VAB) as (L & EL & VL & RL & CL & _).
  destruct (sp_spmult_spec R Bt At VBt VAt ltac:(congruence)) as (Q & EQ & VQ & RQ & CQ & _ & HQ).
  exists AB, At, Bt, L, Q. repeat (split; [assumption|]). split; [congruence|]. split; [congruence|]. intros i j Hi Hj.
  rewrite (sp_transpose_mat R AB L VAB EL), HQ, HAB by congruence. unfold mat_mul. rewrite CBt, E1.
  apply sum_range_ext. intros k Hk. rewrite (sp_transpose_mat R A At VA EAt), (sp_transpose_mat R B Bt VB EBt). ring.
Qed.

Lemma product_scaled A B v : csr_valid A -> csr_valid B -> c_rows B = c_cols A ->
  exists AB L Q, sp_spmult A B = Ok AB /\ sp_spmult (sp_scale A v) B = Ok L /\ sp_spmult A (sp_scale B v) = Ok Q /\
    same_matrix L (sp_scale AB v) /\ same_matrix Q (sp_scale AB v).
Proof.
  intros VA VB E1.
  destruct (sp_spmult_spec R A B VA VB E1) as (AB & EAB & VAB & RAB & CAB & _ & HAB).
  destruct (sp_scale_mat R A v VA) as (VsA & (RsA & CsA & _) & HsA).
  destruct (sp_scale_mat R B v VB) as (VsB & (RsB & CsB & _) & HsB).
  destruct (sp_scale_mat R AB v VAB) as (VsP & (RsP & CsP & _) & HsP).
  destruct (sp_spmult_spec R (sp_scale A v) B VsA VB ltac:(congruence)) as (L & EL & VL & RL & CL & _ & HL).
  destruct (sp_spmult_spec R A (sp_scale B v) VA VsB ltac:(congruence)) as (Q & EQ & VQ & RQ & CQ & _ & HQ).
  exists AB, L, Q. repeat (split; [assumption|]). split; (split; [congruence|]; split; [congruence|]); intros i j Hi Hj.
  - rewrite HL, HsP, HAB by congruence. unfold mat_mul. rewrite CsA, <- (sum_range_scale_r R). apply sum_range_ext. intros k _. rewrite HsA. ring.
  - rewrite HQ, HsP, HAB by congruence. unfold mat_mul. rewrite <- (sum_range_scale_r R). apply sum_range_ext. intros k _. rewrite HsB. ring.
Qed.
End Laws.
Lemma program_observed srt ops st ms ms' k M :
  field_laws S -> eqb_laws S -> order_laws S -> abs_laws S -> sorts srt ->
  Forall op_args_ok ops -> refines st ms -> program ops ms = Some ms' -> look ms' k = Some M ->
  exists st' A, run srt ops st = Ok st' /\ get st' k = Ok A /\ c_rows A = m_rows M /\ c_cols A = m_cols M /\
  (forall x out, zlen x = m_cols M -> zlen out = m_rows M ->
     exists y, sp_mult A x out = Ok y /\ zlen y = m_rows M /\
     forall i, 0 <= i < m_rows M -> vec_of y i = sum_range 0 (m_cols M) (fun j => smul (m_at M i j) (vec_of x j))) /\
  (forall x out, zlen x = m_rows M -> zlen out = m_cols M ->
     exists y, sp_multAT A x out = Ok y /\ zlen y = m_cols M /\
     forall j, 0 <= j < m_cols M -> vec_of y j = sum_range 0 (m_rows M) (fun i => smul (m_at M i j) (vec_of x i))).
Proof.
  intros F E O Ab Hs HO HR HP HL. destruct (program_ok F E O Ab srt Hs ops st ms ms' HO HR HP) as (st' & ER & H').
  destruct (look_get st' ms' k M H' HL) as (A & EA & HA). exists st', A. split; [exact ER|]. split; [exact EA|].
  pose proof HA as (_ & HA1 & HA2 & _). split; [exact HA1|]. split; [exact HA2|]. split; intros x out Hx Ho.
  - apply observed_mult; auto. now apply field_ring.
  - apply observed_multAT; auto. now apply field_ring.
Qed.

Lemma program_independent srt1 srt2 ops st1 st2 ms ms' :
  field_laws S -> eqb_laws S -> order_laws S -> abs_laws S -> sorts srt1 -> sorts srt2 ->
  Forall op_args_ok ops -> refines st1 ms -> refines st2 ms -> program ops ms = Some ms' ->
  exists st1' st2', run srt1 ops st1 = Ok st1' /\ run srt2 ops st2 = Ok st2' /\ zlen st1' = zlen ms' /\ zlen st2' = zlen ms' /\
  forall k, look ms' k <> None -> exists A1 A2, get st1' k = Ok A1 /\ get st2' k = Ok A2 /\ same_matrix A1 A2.
Proof.
  intros F E O Ab Hs1 Hs2 HO HR1 HR2 HP.
  destruct (program_ok F E O Ab srt1 Hs1 ops st1 ms ms' HO HR1 HP) as (st1' & E1 & H1).
  destruct (program_ok F E O Ab srt2 Hs2 ops st2 ms ms' HO HR2 HP) as (st2' & E2 & H2).
  exists st1', st2'. split; [exact E1|]. split; [exact E2|]. split; [now apply refines_length|]. split; [now apply refines_length|].
  intros k Hk. destruct (look ms' k) as [M|] eqn:L; [|now destruct Hk].
  destruct (look_get _ _ _ _ H1 L) as (A1 & G1 & P1). destruct (look_get _ _ _ _ H2 L) as (A2 & G2 & P2).
  exists A1, A2. split; [exact G1|]. split; [exact G2|]. eapply same_of_represents; eauto.
Qed.
End Observe.
