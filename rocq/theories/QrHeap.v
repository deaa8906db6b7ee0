(** The columns of the two matrices of qr_decomp in memory. *)

From Coq Require Import ZArith List Bool Lia Ring Field_theory.
From Verif Require Import Base Scalar Spec SumFacts LoopFacts Dense DenseFacts DenseProofs Vec VecSpec VecProofs VecState SolverSpec LuQr LuQrSpec LuProofs.
Import ListNotations.
Open Scope Z_scope.

Section QrHeap.
Context {S : scalar}.
Notation T := (car S).
Context (R : ring_laws S).
Let Rth : ring_theory (@s0 S) s1 sadd smul ssub sopp (@eq (car S)) := R.
Add Ring SRingQh : Rth.

Variables m n : Z.
Variable A : dense S.
Hypothesis HA : is_dense m n A.

(** Buffer 0 holds A, buffer 1 an m x n matrix, Qm. *)
Definition Qm (h : heap S) : mat S := fun r c => zn s0 (cells h 1) (r + c * m).
Definition two (h : heap S) : Prop := cells h 0 = d_data A /\ exists k, h_block h 1 = Ok k /\ zlen (b_cells k) = m * n.

Notation acol c := (View 0 (c * m) m).
Notation qcol c := (View 1 (c * m) m).

Lemma sizes : 0 <= m /\ 0 <= n /\ zlen (d_data A) = m * n.
Proof. destruct HA as ((H1 & H2 & H3) & <- & <-). auto. Qed.

Lemma two_cells h : two h -> zlen (cells h 1) = m * n.
Proof. intros (_ & k & E & H). unfold cells. now rewrite E. Qed.
Lemma a_ok h c : two h -> 0 <= c < n -> view_ok h (acol c).
Proof. intros (E & _) Hc. destruct sizes as (Hm & Hn & Hl). apply cells_view_ok; [nia|lia|]. rewrite E, Hl. nia. Qed.
Lemma q_ok h c : two h -> 0 <= c < n -> view_ok h (qcol c).
Proof. intros H Hc. destruct sizes as (Hm & Hn & Hl). apply cells_view_ok; [nia|lia|]. rewrite (two_cells h H). nia. Qed.
Lemma a_vat h c r : two h -> 0 <= c < n -> 0 <= r < m -> vat h (acol c) r = dense_mat A r c.
Proof.
  intros (E & _) Hc Hr. destruct sizes as (Hm & Hn & Hl). rewrite vat_cells by (rewrite E, Hl; nia). rewrite E.
  unfold dense_mat. destruct HA as (_ & -> & _). f_equal. lia.
Qed.
Lemma q_vat h c r : two h -> 0 <= c < n -> 0 <= r < m -> vat h (qcol c) r = Qm h r c.
Proof.
  intros H Hc Hr. destruct sizes as (Hm & Hn & Hl). rewrite vat_cells by (rewrite (two_cells h H); nia). unfold Qm. f_equal. lia.
Qed.

Lemma col_view_ok b c : 0 <= b -> 0 <= c < n -> col_view m n b c = Ok (View b (c * m) m).
Proof.
  intros Hb Hc. destruct sizes as (Hm & _). unfold col_view, v_make. destruct (Z.leb_spec 0 c), (Z.ltb_spec c n), (Z.leb_spec 0 m), (Z.eqb_spec b (-1)); try lia.
  cbn. rewrite orb_true_r. reflexivity.
Qed.

(** Writing a column of Q. *)
Lemma write_column h c g h' : two h -> 0 <= c < n -> hw h 1 (c * m) m g h' ->
  two h' /\ forall r j, 0 <= r < m -> 0 <= j < n -> Qm h' r j = if j =? c then g r else Qm h r j.
Proof.
  intros H Hc Hw. destruct sizes as (Hm & Hn & Hl). split.
  - destruct H as (E & k & Ek & Hk). split.
    + unfold cells. rewrite (hw_blocks _ _ _ _ _ _ 0 Hw) by (left; discriminate). exact E.
    + destruct Hw as ((_ & B) & _). specialize (B 1). rewrite Ek in B. destruct (h_block h' 1) as [k'|]; [|contradiction]. exists k'. split; [reflexivity|]. lia.
  - intros r j Hr Hj. unfold Qm. rewrite (hw_cells _ _ _ _ _ _ Hw). rewrite (two_cells h H). rewrite zn_map_zrange by nia.
    destruct (Z.eqb_spec j c) as [->|N].
    + destruct (Z.leb_spec (c * m) (r + c * m)), (Z.ltb_spec (r + c * m) (c * m + m)); try lia. cbn. f_equal. lia.
    + destruct (Z.leb_spec (c * m) (r + j * m)), (Z.ltb_spec (r + j * m) (c * m + m)); cbn; try reflexivity. exfalso. nia.
Qed.

Lemma inner_vat h v w (f g : vect S) : view_ok h v -> view_ok h w -> v_len v = m -> v_len w = m ->
  (forall r, 0 <= r < m -> vat h v r = f r) -> (forall r, 0 <= r < m -> vat h w r = g r) -> v_inner h v w = Ok (inner m f g).
Proof.
  intros Hv Hw Lv Lw Ef Eg. rewrite (v_inner_ok h v w Hv Hw) by lia. f_equal. rewrite Lv. rewrite (fold_left_range R (fun i => smul (vat h v i) (vat h w i))).
  unfold inner. apply sum_range_ext. intros r Hr. now rewrite Ef, Eg.
Qed.

Definition acl (c : Z) : vect S := fun r => dense_mat A r c.
Definition qcl (h : heap S) (c : Z) : vect S := fun r => Qm h r c.

Lemma inner_aq h i j : two h -> 0 <= i < n -> 0 <= j < n -> v_inner h (acol i) (qcol j) = Ok (inner m (acl i) (qcl h j)).
Proof.
  intros H Hi Hj. apply inner_vat; [now apply a_ok|now apply q_ok|reflexivity|reflexivity| |]; intros r Hr; [now apply a_vat|now apply q_vat].
Qed.
Lemma inner_qq h i j : two h -> 0 <= i < n -> 0 <= j < n -> v_inner h (qcol i) (qcol j) = Ok (inner m (qcl h i) (qcl h j)).
Proof.
  intros H Hi Hj. apply inner_vat; [now apply q_ok|now apply q_ok|reflexivity|reflexivity| |]; intros r Hr; now apply q_vat.
Qed.

Lemma columns_not_behind i j : 0 <= i < n -> 0 <= j < n -> ~ reads_behind (qcol i) (qcol j).
Proof.
  intros Hi Hj (_ & H). cbn in H. destruct sizes as (Hm & _). destruct (Z.le_gt_cases i j) as [K|K]; [nia|]. assert (j + 1 <= i) by lia. nia.
Qed.

(** q_i += beta * q_j, as linalgcpp::Add(1.0, q_i, beta, q_j, 0.0, q_i) *)
Lemma axpy_column h i j beta : two h -> 0 <= i < n -> 0 <= j < n ->
  exists h', v_axpby h s1 (qcol i) beta (qcol j) s0 (qcol i) = Ok h' /\ two h' /\
    forall r c, 0 <= r < m -> 0 <= c < n -> Qm h' r c = if c =? i then sadd (Qm h r i) (smul beta (Qm h r j)) else Qm h r c.
Proof.
  intros H Hi Hj. destruct (v_axpby_hw h s1 (qcol i) beta (qcol j) s0 (qcol i)) as (h' & E & Hw);
    [now apply q_ok|now apply q_ok|now apply q_ok|reflexivity|reflexivity|apply not_behind_self|now apply columns_not_behind|].
  exists h'. split; [exact E|]. destruct (write_column h i _ h' H Hi Hw) as (H' & EQ). split; [exact H'|]. intros r c Hr Hc. rewrite EQ by assumption.
  destruct (c =? i); [|reflexivity]. rewrite !q_vat by assumption. ring.
Qed.

(** q_i /= d *)
Lemma div_column h i (d : T) : two h -> 0 <= i < n -> seqb d s0 = false ->
  exists h', v_div_scalar h (qcol i) d = Ok h' /\ two h' /\
    forall r c, 0 <= r < m -> 0 <= c < n -> Qm h' r c = if c =? i then sdiv (Qm h r i) d else Qm h r c.
Proof.
  intros H Hi Hd. unfold v_div_scalar. rewrite Hd. cbn [negb assert_ bind]. destruct (v_map_hw (fun a => sdiv a d) h (qcol i)) as (h' & E & Hw); [now apply q_ok|].
  exists h'. split; [exact E|]. destruct (write_column h i _ h' H Hi Hw) as (H' & EQ). split; [exact H'|]. intros r c Hr Hc. rewrite EQ by assumption.
  destruct (c =? i); [|reflexivity]. rewrite q_vat by assumption. reflexivity.
Qed.

(** The heap qr_decomp starts with. *)
Lemma start_two : let data := Some (Block (d_data A) (zlen (d_data A))) in
  two [data; data] /\ forall r c, 0 <= r < m -> 0 <= c < n -> Qm [data; data] r c = dense_mat A r c.
Proof.
  cbv zeta. split.
  - split; [reflexivity|]. exists (Block (d_data A) (zlen (d_data A))). split; [reflexivity|]. apply sizes.
  - intros r c Hr Hc. unfold Qm, dense_mat. destruct HA as (_ & -> & _). reflexivity.
Qed.

End QrHeap.
