(** What the value-only members do to the represented matrix. *)

From Coq Require Import ZArith List Lia Bool Permutation Ring Field.
From Verif Require Import Base Scalar Spec Dense Sparse LoopFacts CsrFacts SumFacts Rows EntrywiseProofs.
Import ListNotations.
Open Scope Z_scope.

(** ** Unique coordinates *)

Section NoDup.
Context {S : scalar}.
Notation T := (car S).


Lemma no_dup_unique (l : list (entry S)) i j v w :
  no_dup_coords l -> In (i, j, v) l -> In (i, j, w) l -> v = w.
Proof.
  unfold no_dup_coords. induction l as [|e l IH]; cbn; [contradiction|].
  intros H. inversion H; subst. intros [->|Hv] [E|Hw].
  - congruence.
  - exfalso. apply H2. cbn. apply in_map_iff. exists (i, j, w). auto.
  - subst. exfalso. apply H2. cbn. apply in_map_iff. exists (i, j, v). auto.
  - apply IH; auto.
Qed.

Lemma filter_no_dup (l : list (entry S)) i j v :
  no_dup_coords l -> In (i, j, v) l -> filter (at_pos i j) l = [(i, j, v)].
Proof.
  unfold no_dup_coords. induction l as [|e l IH]; cbn; [contradiction|].
  intros H. inversion H; subst. intros [->|Hv].
  - unfold at_pos at 1. cbn. rewrite !Z.eqb_refl. cbn. f_equal. apply filter_none.
    intros [[r c] w] Hw. unfold at_pos. cbn. destruct (Z.eqb_spec r i), (Z.eqb_spec c j); auto. subst.
    exfalso. apply H2. cbn. apply in_map_iff. exists (i, j, w). auto.
  - destruct e as [[r c] w]. unfold at_pos at 1. cbn. destruct (Z.eqb_spec r i), (Z.eqb_spec c j); cbn; auto.
    subst. exfalso. apply H2. cbn. apply in_map_iff. exists (i, j, v). auto.
Qed.

Lemma map_values_fst h (l : list (entry S)) : map fst (map_values h l) = map fst l.
Proof. unfold map_values. rewrite map_map. apply map_ext. intros [[r c] v]. reflexivity. Qed.

Lemma map_values_no_dup h (l : list (entry S)) : no_dup_coords l -> no_dup_coords (map_values h l).
Proof. unfold no_dup_coords. now rewrite map_values_fst. Qed.

Lemma stored_dec (l : list (entry S)) i j : (exists v, In (i, j, v) l) \/ ~ (exists v, In (i, j, v) l).
Proof.
  induction l as [|[[r c] v] l IH]; [right; intros (v & []) |].
  destruct (Z.eq_dec r i) as [->|]; [destruct (Z.eq_dec c j) as [->|]|].
  - left. exists v. left; reflexivity.
  - destruct IH as [(w & H)|H]; [left; exists w; right; exact H|].
    right. intros (w & [E|Hw]); [congruence|]. apply H. eauto.
  - destruct IH as [(w & H)|H]; [left; exists w; right; exact H|].
    right. intros (w & [E|Hw]); [congruence|]. apply H. eauto.
Qed.

Hypothesis R : ring_laws S.

Lemma mat_of_no_dup (l : list (entry S)) i j v :
  no_dup_coords l -> In (i, j, v) l -> mat_of l i j = v.
Proof.
  intros H Hi. unfold mat_of. rewrite (filter_no_dup l i j v H Hi). cbn. apply sadd_0_r. exact R.
Qed.

Lemma mat_of_not_stored (l : list (entry S)) i j : ~ (exists v, In (i, j, v) l) -> mat_of l i j = s0.
Proof.
  intros H. unfold mat_of. rewrite filter_none; [reflexivity|]. intros [[r c] v] Hv. unfold at_pos. cbn.
  destruct (Z.eqb_spec r i), (Z.eqb_spec c j); auto. subst. exfalso. apply H. eauto.
Qed.

Lemma mat_of_values_no_dup h (l : list (entry S)) i j :
  no_dup_coords l -> (exists v, In (i, j, v) l) -> mat_of (map_values h l) i j = h i j (mat_of l i j).
Proof.
  intros H (v & Hv). rewrite (mat_of_no_dup l i j v H Hv). apply mat_of_no_dup; [now apply map_values_no_dup|].
  unfold map_values. apply in_map_iff. exists (i, j, v). auto.
Qed.

Lemma map_values_in h (l : list (entry S)) i j v : In (i, j, v) (map_values h l) -> exists w, In (i, j, w) l /\ v = h i j w.
Proof.
  unfold map_values. rewrite in_map_iff. intros ([[r c] w] & E & Hw). cbn in E. injection E as -> -> <-. eauto.
Qed.

(** additive changes need no uniqueness *)
Lemma mat_of_values_add h (l : list (entry S)) i j :
  h i j s0 = s0 -> (forall a b, h i j (sadd a b) = sadd (h i j a) (h i j b)) ->
  mat_of (map_values h l) i j = h i j (mat_of l i j).
Proof. intros. now apply mat_of_map_value. Qed.

Lemma mat_of_values_zero h (l : list (entry S)) i j :
  (forall a, h i j a = s0) -> mat_of (map_values h l) i j = s0.
Proof.
  intros H. apply mat_of_zero; [exact R|]. intros [[r c] v] He E1 E2. cbn in *. subst.
  apply map_values_in in He. destruct He as (w & _ & ->). apply H.
Qed.

Lemma mat_of_values_id h (l : list (entry S)) i j :
  (forall a, h i j a = a) -> mat_of (map_values h l) i j = mat_of l i j.
Proof.
  intros H. rewrite (mat_of_values_add h l i j); [apply H|apply H|]. intros. now rewrite !H.
Qed.

End NoDup.

Section Mats.
Context {S : scalar}.
Notation T := (car S).
Hypothesis R : ring_laws S.
Implicit Types (A B : csr S).

Let Rth : ring_theory (@s0 S) s1 sadd smul ssub sopp (@eq (car S)) := R.
Add Ring rS : Rth.

Lemma sp_scale_mat A v : csr_valid A ->
  csr_valid (sp_scale A v) /\ same_pattern A (sp_scale A v) /\
  forall i j, csr_mat (sp_scale A v) i j = smul (csr_mat A i j) v.
Proof.
  intros V. destruct (sp_scale_updates A v V) as (B & E & VB & P & HE). injection E as <-.
  split; [exact VB|]. split; [exact P|]. intros i j. unfold csr_mat. rewrite HE.
  apply (mat_of_values_add R (fun _ _ a => smul a v)); intros; ring.
Qed.

Lemma sp_scale_rows_mat_spec A values : csr_valid A -> zlen values = c_rows A ->
  exists B, sp_scale_rows A values = Ok B /\ csr_valid B /\ same_pattern A B /\
  forall i j, csr_mat B i j = smul (csr_mat A i j) (vec_of values i).
Proof.
  intros V H. destruct (sp_scale_rows_updates A values V H) as (B & E & VB & P & HE). exists B.
  split; [exact E|]. split; [exact VB|]. split; [exact P|]. intros i j. unfold csr_mat. rewrite HE.
  apply (mat_of_values_add R (fun i _ a => smul a (vec_of values i))); intros; ring.
Qed.

Lemma sp_scale_cols_mat_spec A values : csr_valid A -> zlen values = c_cols A ->
  exists B, sp_scale_cols A values = Ok B /\ csr_valid B /\ same_pattern A B /\
  forall i j, csr_mat B i j = smul (csr_mat A i j) (vec_of values j).
Proof.
  intros V H. destruct (sp_scale_cols_updates A values V H) as (B & E & VB & P & HE). exists B.
  split; [exact E|]. split; [exact VB|]. split; [exact P|]. intros i j. unfold csr_mat. rewrite HE.
  apply (mat_of_values_add R (fun _ j a => smul a (vec_of values j))); intros; ring.
Qed.

Lemma sp_elim_row_mat A index : csr_valid A -> 0 <= index < c_rows A ->
  exists B, sp_elim_row A index = Ok B /\ csr_valid B /\ same_pattern A B /\
  forall i j, csr_mat B i j = if i =? index then s0 else csr_mat A i j.
Proof.
  intros V H. destruct (sp_elim_row_updates A index V H) as (B & E & VB & P & HE). exists B.
  split; [exact E|]. split; [exact VB|]. split; [exact P|]. intros i j. unfold csr_mat. rewrite HE.
  apply (mat_of_values_add R (fun i _ a => if i =? index then s0 else a)); intros; destruct (i =? index); auto; ring.
Qed.

Lemma sp_elim_col_mat A index : csr_valid A -> 0 <= index < c_cols A ->
  exists B, sp_elim_col A index = Ok B /\ csr_valid B /\ same_pattern A B /\
  forall i j, csr_mat B i j = if j =? index then s0 else csr_mat A i j.
Proof.
  intros V H. destruct (sp_elim_col_updates A index V ltac:(lia)) as (B & E & VB & P & HE). exists B.
  split; [exact E|]. split; [exact VB|]. split; [exact P|]. intros i j. unfold csr_mat. rewrite HE.
  apply (mat_of_values_add R (fun _ j a => if j =? index then s0 else a)); intros; destruct (j =? index); auto; ring.
Qed.

Lemma sp_elim_col_marker_mat A marker : csr_valid A -> c_cols A <= zlen marker ->
  exists B, sp_elim_col_marker A marker = Ok B /\ csr_valid B /\ same_pattern A B /\
  forall i j, csr_mat B i j = if zn false marker j then s0 else csr_mat A i j.
Proof.
  intros V H. destruct (sp_elim_col_marker_updates A marker V H) as (B & E & VB & P & HE). exists B.
  split; [exact E|]. split; [exact VB|]. split; [exact P|]. intros i j. unfold csr_mat. rewrite HE.
  apply (mat_of_values_add R (fun _ j a => if zn false marker j then s0 else a)); intros; destruct (zn false marker j); auto; ring.
Qed.

(** the common part of the two EliminateRowCol *)
Lemma elim_row_col_common A B (hit : Z -> bool) :
  entries B = map_values (fun i j a => if hit i || hit j then (if i =? j then s1 else s0) else a) (entries A) ->
  (forall i j, hit i || hit j = false -> csr_mat B i j = csr_mat A i j) /\
  (forall i j, hit i || hit j = true -> i <> j -> csr_mat B i j = s0) /\
  (forall i, hit i = true -> no_dup_coords (entries A) -> stored A i i -> csr_mat B i i = s1) /\
  (forall i, hit i = true -> ~ stored A i i -> csr_mat B i i = s0).
Proof.
  intros HE. unfold csr_mat. rewrite HE. split; [|split; [|split]].
  - intros i j H. apply (mat_of_values_id R). intros a. now rewrite H.
  - intros i j H Hn. apply (mat_of_values_zero R). intros a. rewrite H. destruct (Z.eqb_spec i j); [contradiction|reflexivity].
  - intros i H ND St. rewrite (mat_of_values_no_dup R); auto. now rewrite H, Z.eqb_refl.
  - intros i H St. apply mat_of_not_stored. intros (v & Hv). apply map_values_in in Hv.
    destruct Hv as (w & Hw & _). apply St. exists w. exact Hw.
Qed.

Lemma sp_elim_row_col_mat A index : csr_valid A -> 0 <= index < c_rows A -> index < c_cols A ->
  exists B, sp_elim_row_col A index = Ok B /\ csr_valid B /\ same_pattern A B /\
  (forall i j, i <> index -> j <> index -> csr_mat B i j = csr_mat A i j) /\
  (forall j, j <> index -> csr_mat B index j = s0 /\ csr_mat B j index = s0) /\
  (no_dup_coords (entries A) -> stored A index index -> csr_mat B index index = s1) /\
  (~ stored A index index -> csr_mat B index index = s0).
Proof.
  intros V H Hc. destruct (sp_elim_row_col_updates A index V H Hc) as (B & E & VB & P & HE). exists B.
  split; [exact E|]. split; [exact VB|]. split; [exact P|].
  destruct (elim_row_col_common A B (fun i => i =? index) HE) as (H1 & H2 & H3 & H4). split; [|split; [|split]].
  - intros i j Hi Hj. apply H1. lia.
  - intros j Hj. split; apply H2; lia.
  - intros. apply H3; auto. apply Z.eqb_refl.
  - intros. apply H4; auto. apply Z.eqb_refl.
Qed.

Lemma sp_elim_row_col_marker_mat A marker : csr_valid A -> c_rows A = c_cols A -> c_cols A <= zlen marker ->
  exists B, sp_elim_row_col_marker A marker = Ok B /\ csr_valid B /\ same_pattern A B /\
  (forall i j, zn false marker i = false -> zn false marker j = false -> csr_mat B i j = csr_mat A i j) /\
  (forall i j, zn false marker i = true \/ zn false marker j = true -> i <> j -> csr_mat B i j = s0) /\
  (forall i, zn false marker i = true -> no_dup_coords (entries A) -> stored A i i -> csr_mat B i i = s1) /\
  (forall i, zn false marker i = true -> ~ stored A i i -> csr_mat B i i = s0).
Proof.
  intros V Hs Hc. destruct (sp_elim_row_col_marker_updates A marker V Hs Hc) as (B & E & VB & P & HE). exists B.
  split; [exact E|]. split; [exact VB|]. split; [exact P|].
  destruct (elim_row_col_common A B (zn false marker) HE) as (H1 & H2 & H3 & H4). split; [|split; [|split]]; auto.
  - intros i j Hi Hj. apply H1. now rewrite Hi, Hj.
  - intros i j H. apply H2. destruct H as [->| ->]; [reflexivity|apply orb_true_r].
Qed.

(** AddDiag: adds to the diagonal where it is stored (once). *)
Lemma add_diag_common A B (d : Z -> T) :
  entries B = map_values (fun i j a => if j =? i then sadd a (d i) else a) (entries A) ->
  (forall i j, i <> j -> csr_mat B i j = csr_mat A i j) /\
  (forall i, no_dup_coords (entries A) -> stored A i i -> csr_mat B i i = sadd (csr_mat A i i) (d i)) /\
  (forall i, ~ stored A i i -> csr_mat B i i = csr_mat A i i).
Proof.
  intros HE. unfold csr_mat. rewrite HE. split; [|split].
  - intros i j H. apply (mat_of_values_id R). intros a. destruct (Z.eqb_spec j i); [lia|reflexivity].
  - intros i ND St. rewrite (mat_of_values_no_dup R); auto. now rewrite Z.eqb_refl.
  - intros i St. rewrite (mat_of_not_stored (entries A)) by exact St. apply mat_of_not_stored. intros (v & Hv).
    apply map_values_in in Hv. destruct Hv as (w & Hw & _). apply St. exists w. exact Hw.
Qed.

Lemma sp_add_diag_mat A diag : csr_valid A -> c_rows A = c_cols A -> zlen diag = c_rows A ->
  exists B, sp_add_diag A diag = Ok B /\ csr_valid B /\ same_pattern A B /\
  (forall i j, i <> j -> csr_mat B i j = csr_mat A i j) /\
  (forall i, no_dup_coords (entries A) -> stored A i i -> csr_mat B i i = sadd (csr_mat A i i) (vec_of diag i)) /\
  (forall i, ~ stored A i i -> csr_mat B i i = csr_mat A i i).
Proof.
  intros V Hs Hl. destruct (sp_add_diag_updates A diag V Hs Hl) as (B & E & VB & P & HE). exists B.
  split; [exact E|]. split; [exact VB|]. split; [exact P|]. now apply add_diag_common.
Qed.

Lemma sp_add_diag_val_mat A v : csr_valid A -> c_rows A = c_cols A ->
  exists B, sp_add_diag_val A v = Ok B /\ csr_valid B /\ same_pattern A B /\
  (forall i j, i <> j -> csr_mat B i j = csr_mat A i j) /\
  (forall i, no_dup_coords (entries A) -> stored A i i -> csr_mat B i i = sadd (csr_mat A i i) v) /\
  (forall i, ~ stored A i i -> csr_mat B i i = csr_mat A i i).
Proof.
  intros V Hs. destruct (sp_add_diag_val_updates A v V Hs) as (B & E & VB & P & HE). exists B.
  split; [exact E|]. split; [exact VB|]. split; [exact P|]. now apply (add_diag_common A B (fun _ => v)).
Qed.

End Mats.

Section FieldMats.
Context {S : scalar}.
Notation T := (car S).
Hypothesis F : field_laws S.
Implicit Types (A B : csr S).

Let R : ring_laws S := field_ring S F.
Let Rth2 : ring_theory (@s0 S) s1 sadd smul ssub sopp (@eq (car S)) := R.
Add Ring rSF : Rth2.

Lemma sdiv_add (a b c : T) : sdiv (sadd a b) c = sadd (sdiv a c) (sdiv b c).
Proof. rewrite (Fdiv_def F (sadd a b)), (Fdiv_def F a), (Fdiv_def F b). ring. Qed.
Lemma sdiv_0 (c : T) : sdiv s0 c = (s0 : T).
Proof. rewrite (Fdiv_def F). ring. Qed.

Lemma sp_div_mat A v : csr_valid A -> seqb v s0 = false ->
  exists B, sp_div A v = Ok B /\ csr_valid B /\ same_pattern A B /\
  forall i j, csr_mat B i j = sdiv (csr_mat A i j) v.
Proof.
  intros V H. destruct (sp_div_updates A v V H) as (B & E & VB & P & HE). exists B.
  split; [exact E|]. split; [exact VB|]. split; [exact P|]. intros i j. unfold csr_mat. rewrite HE.
  apply (mat_of_values_add R (fun _ _ a => sdiv a v)); intros; [apply sdiv_0|apply sdiv_add].
Qed.

Lemma sp_inv_scale_rows_mat_spec A values : csr_valid A -> zlen values = c_rows A ->
  (forall i, 0 <= i < c_rows A -> seqb (vec_of values i) s0 = false) ->
  exists B, sp_inv_scale_rows A values = Ok B /\ csr_valid B /\ same_pattern A B /\
  forall i j, csr_mat B i j = sdiv (csr_mat A i j) (vec_of values i).
Proof.
  intros V H Hn. destruct (sp_inv_scale_rows_updates A values V H Hn) as (B & E & VB & P & HE). exists B.
  split; [exact E|]. split; [exact VB|]. split; [exact P|]. intros i j. unfold csr_mat. rewrite HE.
  apply (mat_of_values_add R (fun i _ a => sdiv a (vec_of values i))); intros; [apply sdiv_0|apply sdiv_add].
Qed.

Lemma sp_inv_scale_cols_mat_spec A values : csr_valid A -> zlen values = c_cols A ->
  (forall j, 0 <= j < c_cols A -> seqb (vec_of values j) s0 = false) ->
  exists B, sp_inv_scale_cols A values = Ok B /\ csr_valid B /\ same_pattern A B /\
  forall i j, csr_mat B i j = sdiv (csr_mat A i j) (vec_of values j).
Proof.
  intros V H Hn. destruct (sp_inv_scale_cols_updates A values V H Hn) as (B & E & VB & P & HE). exists B.
  split; [exact E|]. split; [exact VB|]. split; [exact P|]. intros i j. unfold csr_mat. rewrite HE.
  apply (mat_of_values_add R (fun _ j a => sdiv a (vec_of values j))); intros; [apply sdiv_0|apply sdiv_add].
Qed.

(** Scaling by rows and scaling back. *)
Lemma smul_sdiv (a c : T) : c <> s0 -> sdiv (smul a c) c = a.
Proof.
  intros H. rewrite (Fdiv_def F). pose proof (Finv_l F c H) as I.
  transitivity (smul a (smul (sdiv s1 c) c)); [ring|]. rewrite I. ring.
Qed.

End FieldMats.
