(** Rounding errors of the products on doubles. *)

From Coq Require Import ZArith Reals List Bool Lia Lra Floats.SpecFloat.
From Flocq Require Import Core.
From Verif Require Import Base Scalar ScalarR Spec Double RoundSpec RoundFacts SumFacts LoopFacts CsrFacts Sparse SparseProofs Coo CooSpec CooProofs CooMore Dense DenseFacts DenseProofs Vec VecSpec VecProofs SparseMore.
Import ListNotations.

Lemma computed_weaken n exact size (f f' i i' : Prop) y : (f' -> f) -> (i' -> i) -> computed n exact size f i y -> computed n exact size f' i' y.
Proof. intros Hf Hi [C1 C2 C3 C4]. split; auto. Qed.

(** Doubles out of lists *)
Lemma Forall_zn {A} (P : A -> Prop) (d : A) l i : Forall P l -> P d -> P (zn d l i).
Proof.
  intros F D. unfold zn. destruct (nth_in_or_default (Z.to_nat i) l d) as [I| ->]; [|exact D]. rewrite Forall_forall in F. now apply F.
Qed.

Lemma double_0 : double (s0 (s := SFs)).
Proof. reflexivity. Qed.
Lemma finite_0 : finite (s0 (s := SFs)).
Proof. reflexivity. Qed.
Lemma integral_0 : integral (s0 (s := SFs)).
Proof. split; [reflexivity|]. exists 0%Z. reflexivity. Qed.

(** A loop that adds products *)
Lemma products_computed {X} (f g : X -> spec_float) (l : list X) :
  (forall e, In e l -> double (f e) /\ double (g e)) ->
  computed (length l) (sum_list (S := Rs) (map (fun e => rv (f e) * rv (g e))%R l)) (sum_list (S := Rs) (map (fun e => Rabs (rv (f e)) * Rabs (rv (g e)))%R l))
    (forall e, In e l -> finite (f e) /\ finite (g e)) (forall e, In e l -> integral (f e) /\ integral (g e))
    (fold_left (fun (s : car SFs) e => sadd s (smul (s := SFs) (f e) (g e))) l s0).
Proof.
  intros D. pose (ps := map (fun e => (f e, g e)) l).
  assert (Dp : doubles ps) by (apply Forall_forall; intros p Hp; apply in_map_iff in Hp as (e & <- & He); now apply D).
  pose proof (fold_computed ps Dp) as C.
  assert (E1 : length ps = length l) by apply map_length.
  assert (E2 : exact_sum ps = sum_list (S := Rs) (map (fun e => rv (f e) * rv (g e))%R l)).
  { unfold ps, exact_sum, sum_list. clear. induction l as [|e l IH]; [reflexivity|]. cbn [map fold_right fst snd]. rewrite IH. reflexivity. }
  assert (E3 : abs_sum ps = sum_list (S := Rs) (map (fun e => Rabs (rv (f e)) * Rabs (rv (g e)))%R l)).
  { unfold ps, abs_sum, sum_list. clear. induction l as [|e l IH]; [reflexivity|]. cbn [map fold_right fst snd]. rewrite IH. reflexivity. }
  assert (E4 : forall v, fold_left step ps v = fold_left (fun (s : car SFs) e => sadd s (smul (s := SFs) (f e) (g e))) l v).
  { unfold ps. clear. induction l as [|e l IH]; intros v; [reflexivity|]. cbn [map fold_left]. rewrite IH. reflexivity. }
  rewrite E1, E2, E3, E4 in C. revert C. apply computed_weaken; intros H; apply Forall_forall; intros p Hp; apply in_map_iff in Hp as (e & <- & He); now apply H.
Qed.

(** Entries *)
Lemma values_filter (h : spec_float -> R) (l : list (entry SFs)) i :
  filter (fun e : entry Rs => (erow e =? i)%Z) (values_of h l) = values_of h (filter (fun e : entry SFs => (erow e =? i)%Z) l).
Proof.
  unfold values_of. induction l as [|e l IH]; [reflexivity|]. cbn [map filter]. change (erow (S := Rs) (erow e, ecol e, h (evalue e))) with (erow e).
  destruct (erow e =? i)%Z; cbn [map]; now rewrite IH.
Qed.

Lemma row_sum (h : spec_float -> R) (l : list (entry SFs)) (x : vect Rs) cols i :
  (forall e, In e l -> erow e = i -> (0 <= ecol e < cols)%Z) ->
  sum_list (S := Rs) (map (fun e : entry SFs => h (evalue (S := SFs) e) * x (ecol e))%R (filter (fun e : entry SFs => (erow e =? i)%Z) l)) = mat_vec (mat_of (S := Rs) (values_of h l)) cols x i.
Proof.
  intros H. rewrite <- (sum_entries_row_filter (field_ring _ Rs_field)).
  - rewrite values_filter. unfold values_of. rewrite map_map. reflexivity.
  - intros e He. apply in_map_iff in He as (e' & <- & He). exact (H e' He).
Qed.

(** All factors of the products of a row *)
Lemma row_computed (l : list (entry SFs)) (x : vect SFs) cols i :
  (forall e, In e l -> erow e = i -> (0 <= ecol e < cols)%Z) ->
  (forall e : entry SFs, In e l -> double (evalue (S := SFs) e)) -> (forall k, (0 <= k < cols)%Z -> double (x k)) ->
  accurate_row l cols x i (fold_left (fun (s : car SFs) (e : entry SFs) => sadd s (smul (evalue e) (x (ecol e)))) (filter (fun e : entry SFs => (erow e =? i)%Z) l) s0).
Proof.
  intros H Dl Dx. pose proof (products_computed (fun e : entry SFs => evalue (S := SFs) e) (fun e : entry SFs => x (ecol e)) (filter (fun e : entry SFs => (erow e =? i)%Z) l)) as C.
  unfold accurate_row, real_mat, abs_mat. rewrite <- !row_sum by exact H. unfold reals, absolutes.
  assert (I : forall e : entry SFs, In e (filter (fun e : entry SFs => (erow e =? i)%Z) l) -> In e l /\ (0 <= ecol e < cols)%Z).
  { intros e He. apply filter_In in He as (He & E). apply Z.eqb_eq in E. split; [exact He|now apply H]. }
  refine (computed_weaken _ _ _ _ _ _ _ _ _ _ (C _)).
  - intros (F1 & F2) e He. apply I in He as (He & Hc). split; [now apply F1|now apply F2].
  - intros (F1 & F2) e He. apply I in He as (He & Hc). split; [now apply F1|now apply F2].
  - intros e He. apply I in He as (He & Hc). split; [now apply Dl|now apply Dx].
Qed.

Lemma entries_values (A : csr SFs) (P : spec_float -> Prop) : P (s0 (s := SFs)) -> Forall P (c_val A) -> forall e : entry SFs, In e (entries A) -> P (evalue (S := SFs) e).
Proof.
  intros P0 F e He. unfold entries in He. apply in_flat_map in He as (i & _ & He). unfold row_entries in He. apply in_map_iff in He as (k & <- & _). exact (Forall_zn P _ _ k F P0).
Qed.

Lemma swap_values (h : spec_float -> R) (l : list (entry SFs)) : values_of h (map (swap_entry (S := SFs)) l) = map (swap_entry (S := Rs)) (values_of h l).
Proof. unfold values_of. rewrite !map_map. reflexivity. Qed.

Lemma swap_filter (l : list (entry SFs)) j :
  filter (fun e : entry SFs => (erow e =? j)%Z) (map (swap_entry (S := SFs)) l) = map (swap_entry (S := SFs)) (filter (fun e : entry SFs => (ecol e =? j)%Z) l).
Proof.
  induction l as [|e l IH]; [reflexivity|]. cbn [map filter]. change (erow (S := SFs) (swap_entry (S := SFs) e)) with (ecol e). destruct (ecol e =? j)%Z; cbn [map]; now rewrite IH.
Qed.

Lemma col_computed (l : list (entry SFs)) (x : vect SFs) rows j :
  (forall e, In e l -> ecol e = j -> (0 <= erow e < rows)%Z) ->
  (forall e : entry SFs, In e l -> double (evalue (S := SFs) e)) -> (forall k, (0 <= k < rows)%Z -> double (x k)) ->
  accurate_col l rows x j (fold_left (fun (s : car SFs) (e : entry SFs) => sadd s (smul (evalue e) (x (erow e)))) (filter (fun e : entry SFs => (ecol e =? j)%Z) l) s0).
Proof.
  intros H Dl Dx. pose proof (row_computed (map (swap_entry (S := SFs)) l) x rows j) as C. unfold accurate_row in C. rewrite swap_filter, map_length in C. unfold real_mat, abs_mat in C. rewrite !swap_values in C.
  assert (E : forall (h : spec_float -> R) (z : vect Rs), mat_vec (mat_of (S := Rs) (map (swap_entry (S := Rs)) (values_of h l))) rows z j = mat_vec (mat_T (mat_of (S := Rs) (values_of h l))) rows z j).
  { intros h z. apply (mat_vec_ext (S := Rs)). - intros k _. apply (mat_of_swap (field_ring _ Rs_field)). - reflexivity. }
  rewrite !E in C. rewrite fold_left_map in C.
  refine (computed_weaken _ _ _ _ _ _ _ _ _ _ (C _ _ Dx)).
  - intros (F1 & F2). split; [|exact F2]. intros e He. apply in_map_iff in He as (e' & <- & He). exact (F1 e' He).
  - intros (F1 & F2). split; [|exact F2]. intros e He. apply in_map_iff in He as (e' & <- & He). exact (F1 e' He).
  - intros e He. apply in_map_iff in He as (e' & <- & He). exact (H e' He).
  - intros e He. apply in_map_iff in He as (e' & <- & He). exact (Dl e' He).
Qed.

Lemma vec_double x : Forall double x -> forall n k, (0 <= k < n)%Z -> double (vec_of (S := SFs) x k).
Proof. intros D n k _. exact (Forall_zn double _ _ _ D double_0). Qed.
Lemma dense_double (X : dense SFs) : Forall double (d_data X) -> forall i j, double (dense_mat X i j).
Proof. intros D i j. exact (Forall_zn double _ _ _ D double_0). Qed.

Lemma sp_row_rounds (A : csr SFs) (x : vect SFs) i : csr_valid A -> Forall double (c_val A) -> (forall k, (0 <= k < c_cols A)%Z -> double (x k)) -> (0 <= i < c_rows A)%Z ->
  accurate_row (entries A) (c_cols A) x i (fold_left (fun (s : car SFs) (e : entry SFs) => sadd s (smul (evalue e) (x (ecol e)))) (row_entries A i) s0).
Proof.
  intros V DA Dx Hi. rewrite <- filter_row_entries by assumption. apply row_computed.
  - intros e He _. pose proof (entries_in_shape A V) as Sh. unfold in_shape in Sh. rewrite Forall_forall in Sh. apply Sh in He. tauto.
  - now apply (entries_values A double double_0).
  - exact Dx.
Qed.

Lemma sp_mult_rounds (A : csr SFs) x out : csr_valid A -> zlen x = c_cols A -> zlen out = c_rows A -> Forall double (c_val A) -> Forall double x ->
  exists y, sp_mult A x out = Ok y /\ zlen y = c_rows A /\
    forall i, (0 <= i < c_rows A)%Z -> accurate_row (entries A) (c_cols A) (vec_of (S := SFs) x) i (vec_of (S := SFs) y i).
Proof.
  intros V Hx Ho DA Dx. eexists. split; [now apply sp_mult_exact|]. pose proof (cv_rows V). split; [apply zlen_map_zrange; lia|]. intros i Hi.
  unfold vec_of at 2. rewrite zn_map_zrange by exact Hi. apply sp_row_rounds; auto. now apply vec_double.
Qed.

Lemma sp_mult_dense_rounds (A : csr SFs) (X out : dense SFs) : csr_valid A -> dense_ok X -> d_rows X = c_cols A -> Forall double (c_val A) -> Forall double (d_data X) ->
  exists D, sp_mult_dense A X out = Ok D /\ dense_ok D /\ d_rows D = c_rows A /\ d_cols D = d_cols X /\
    forall i k, (0 <= i < c_rows A)%Z -> (0 <= k < d_cols X)%Z -> accurate_row (entries A) (c_cols A) (fun j => dense_mat X j k) i (dense_mat D i k).
Proof.
  intros V HX Hr DA DX. destruct (sp_mult_dense_exact A X out V HX Hr) as (D & E & HD & Er & Ec & Hv). exists D. do 4 (split; [assumption|]).
  intros i k Hi Hk. rewrite Hv by assumption. apply sp_row_rounds; auto. intros j _. now apply dense_double.
Qed.

Lemma sp_col_rounds (A : csr SFs) (x : vect SFs) j : csr_valid A -> Forall double (c_val A) -> (forall k, (0 <= k < c_rows A)%Z -> double (x k)) ->
  accurate_col (entries A) (c_rows A) x j (fold_left (fun (s : car SFs) (e : entry SFs) => sadd s (smul (evalue e) (x (erow e)))) (filter (fun e : entry SFs => (ecol e =? j)%Z) (entries A)) s0).
Proof.
  intros V DA Dx. apply col_computed.
  - intros e He _. pose proof (entries_in_shape A V) as Sh. unfold in_shape in Sh. rewrite Forall_forall in Sh. apply Sh in He. tauto.
  - now apply (entries_values A double double_0).
  - exact Dx.
Qed.

Lemma sp_multAT_rounds (A : csr SFs) x out : csr_valid A -> zlen x = c_rows A -> zlen out = c_cols A -> Forall double (c_val A) -> Forall double x ->
  exists y, sp_multAT A x out = Ok y /\ zlen y = c_cols A /\
    forall j, (0 <= j < c_cols A)%Z -> accurate_col (entries A) (c_rows A) (vec_of (S := SFs) x) j (vec_of (S := SFs) y j).
Proof.
  intros V Hx Ho DA Dx. destruct (sp_multAT_exact A x out V Hx Ho) as (y & E & L & Hy). exists y. split; [exact E|]. split; [exact L|]. intros j Hj.
  unfold vec_of at 2. rewrite Hy by exact Hj. apply sp_col_rounds; auto. now apply vec_double.
Qed.

Lemma coo_mult_rounds (M : coo SFs) x out : coo_ok M -> o_set M = true -> zlen x = o_cols M -> zlen out = o_rows M ->
  (forall e : entry SFs, In e (o_entries M) -> double (evalue (S := SFs) e)) -> Forall double x ->
  exists y, coo_mult M x out = Ok y /\ zlen y = o_rows M /\
    forall i, (0 <= i < o_rows M)%Z -> accurate_row (o_entries M) (o_cols M) (vec_of (S := SFs) x) i (vec_of (S := SFs) y i).
Proof.
  intros OK Es Hx Ho DA Dx. destruct (coo_mult_exact M x out OK Es Hx Ho) as (y & E & L & Hy). exists y. split; [exact E|]. split; [exact L|]. intros i Hi.
  unfold vec_of at 2. rewrite Hy by exact Hi. destruct OK as (_ & _ & Sh). rewrite Es in Sh. unfold in_shape in Sh. rewrite Forall_forall in Sh.
  apply row_computed; [|exact DA|now apply vec_double]. intros e He _. apply Sh in He. tauto.
Qed.

(** Sums over ranges of indices *)
Lemma range_computed n (f g : vect SFs) : (forall j, (0 <= j < n)%Z -> double (f j) /\ double (g j)) ->
  accurate_sum n f g (fold_left (fun (s : car SFs) j => sadd s (smul (s := SFs) (f j) (g j))) (zrange 0 n) s0).
Proof.
  intros D. pose proof (products_computed f g (zrange 0 n)) as C. assert (E : length (zrange 0 n) = Z.to_nat n) by (unfold zrange; rewrite map_length, seq_length; f_equal; lia).
  rewrite E in C. refine (computed_weaken _ _ _ _ _ _ _ _ _ _ (C _)).
  - intros H j Hj. apply In_zrange in Hj. now apply H.
  - intros H j Hj. apply In_zrange in Hj. now apply H.
  - intros j Hj. apply In_zrange in Hj. now apply D.
Qed.

Lemma d_mult_rounds (D : dense SFs) x out : dense_ok D -> zlen x = d_cols D -> zlen out = d_rows D -> Forall double (d_data D) -> Forall double x ->
  exists y, d_mult D x out = Ok y /\ zlen y = d_rows D /\
    forall i, (0 <= i < d_rows D)%Z -> accurate_sum (d_cols D) (dense_mat D i) (vec_of (S := SFs) x) (vec_of (S := SFs) y i).
Proof.
  intros OK Hx Ho DA Dx. eexists. split; [now apply d_mult_exact|]. destruct OK as (Hr & Hc & HL). split; [apply zlen_map_zrange; lia|]. intros i Hi.
  unfold vec_of at 2. rewrite zn_map_zrange by exact Hi. apply (range_computed (d_cols D) (dense_mat D i) (vec_of (S := SFs) x)).
  intros j _. split; [exact (Forall_zn double _ _ _ DA double_0)|exact (Forall_zn double _ _ _ Dx double_0)].
Qed.

Lemma d_multAT_rounds (D : dense SFs) x out : dense_ok D -> zlen x = d_rows D -> zlen out = d_cols D -> Forall double (d_data D) -> Forall double x ->
  exists y, d_multAT D x out = Ok y /\ zlen y = d_cols D /\
    forall j, (0 <= j < d_cols D)%Z -> accurate_sum (d_rows D) (fun i => dense_mat D i j) (vec_of (S := SFs) x) (vec_of (S := SFs) y j).
Proof.
  intros OK Hx Ho DA Dx. eexists. split; [now apply d_multAT_exact|]. destruct OK as (Hr & Hc & HL). split; [apply zlen_map_zrange; lia|]. intros j Hj.
  unfold vec_of at 2. rewrite zn_map_zrange by exact Hj. apply (range_computed (d_rows D) (fun i => dense_mat D i j) (vec_of (S := SFs) x)).
  intros i _. split; [exact (Forall_zn double _ _ _ DA double_0)|exact (Forall_zn double _ _ _ Dx double_0)].
Qed.

Lemma v_inner_rounds (h : heap SFs) v w : view_ok h v -> view_ok h w -> v_len w = v_len v ->
  (forall k, (0 <= k < v_len v)%Z -> double (vat h v k) /\ double (vat h w k)) ->
  exists p, v_inner h v w = Ok p /\ accurate_sum (v_len v) (vat h v) (vat h w) p.
Proof. intros Hv Hw L D. eexists. split; [now apply v_inner_ok|]. now apply range_computed. Qed.

(** The usual form of the factor *)
Lemma gamma_bound n : (INR n * unit_roundoff < 1 -> (1 + unit_roundoff) ^ n - 1 <= INR n * unit_roundoff / (1 - INR n * unit_roundoff))%R.
Proof.
  intros H. pose proof u_pos as U. assert (P : forall m, (m <= n)%nat -> ((1 + unit_roundoff) ^ m * (1 - INR m * unit_roundoff) <= 1)%R).
  { induction m as [|m IH]; intros Hm; [simpl; lra|]. rewrite S_INR. simpl (_ ^ _)%R. specialize (IH ltac:(lia)). pose proof (pow_ge m). pose proof (pos_INR m).
    assert (0 <= (1 + unit_roundoff) ^ m * (unit_roundoff * unit_roundoff * (INR m + 1)))%R by (apply Rmult_le_pos; [lra|]; apply Rmult_le_pos; [apply Rmult_le_pos; lra|lra]). nra. }
  specialize (P n (le_n n)). apply Rmult_le_reg_r with (1 - INR n * unit_roundoff)%R; [lra|]. unfold Rdiv. rewrite Rmult_assoc, Rinv_l by lra. lra.
Qed.

Lemma small_in_range n a : (INR n * unit_roundoff <= / 2 -> a <= bpow radix2 1022 -> no_overflow n a)%R.
Proof.
  intros H A. pose proof u_pos as U. pose proof eta_pos as T. pose proof (pos_INR n) as N. assert (G : ((1 + unit_roundoff) ^ n <= 2)%R).
  { pose proof (gamma_bound n ltac:(lra)) as G. assert (Q : (INR n * unit_roundoff / (1 - INR n * unit_roundoff) <= 1)%R); [|lra].
    apply Rmult_le_reg_r with (1 - INR n * unit_roundoff)%R; [lra|]. unfold Rdiv. rewrite Rmult_assoc, Rinv_l by lra. lra. }
  unfold no_overflow. assert (E : (bpow radix2 1024 = 4 * bpow radix2 1022)%R) by (change 1024%Z with (2 + 1022)%Z; rewrite bpow_plus; reflexivity).
  assert (E2 : (underflow = unit_roundoff * bpow radix2 (-1022))%R) by (unfold underflow, unit_roundoff; rewrite <- bpow_plus; reflexivity).
  assert (B1 : (0 < bpow radix2 (-1022) < 1)%R). { split; [apply bpow_gt_0|]. change 1%R with (bpow radix2 0). apply bpow_lt. lia. }
  assert (B2 : (1 < bpow radix2 1022)%R). { change 1%R with (bpow radix2 0) at 1. apply bpow_lt. lia. }
  assert (Q : (0 <= INR n * underflow <= / 2)%R).
  { split; [apply Rmult_le_pos; lra|]. rewrite E2. rewrite <- Rmult_assoc. assert (0 <= INR n * unit_roundoff)%R by (apply Rmult_le_pos; lra). nra. }
  pose proof (pow_ge n) as P. rewrite E. destruct (Rle_or_lt 0 (a + INR n * underflow)) as [L|L]; [nra|]. assert (0 < 1 + unit_roundoff)%R by lra. nra.
Qed.

Lemma sp_multAT_dense_rounds (A : csr SFs) (X out : dense SFs) : csr_valid A -> dense_ok X -> d_rows X = c_rows A -> Forall double (c_val A) -> Forall double (d_data X) ->
  exists D, sp_multAT_dense A X out = Ok D /\ dense_ok D /\ d_rows D = c_cols A /\ d_cols D = d_cols X /\
    forall j k, (0 <= j < c_cols A)%Z -> (0 <= k < d_cols X)%Z -> accurate_col (entries A) (c_rows A) (fun i => dense_mat X i k) j (dense_mat D j k).
Proof.
  intros V HX Hr DA DX. destruct (sp_multAT_dense_exact A X out V HX Hr) as (D & E & HD & Er & Ec & Hv). exists D. do 4 (split; [assumption|]).
  intros j k Hj Hk. rewrite Hv by assumption. apply sp_col_rounds; auto. intros i _. now apply dense_double.
Qed.

Lemma sp_multCT_dense_rounds (A : csr SFs) (X out : dense SFs) : csr_valid A -> dense_ok X -> d_rows X = c_cols A -> Forall double (c_val A) -> Forall double (d_data X) ->
  exists D, sp_multCT_dense A X out = Ok D /\ dense_ok D /\ d_rows D = d_cols X /\ d_cols D = c_rows A /\
    forall i k, (0 <= i < c_rows A)%Z -> (0 <= k < d_cols X)%Z -> accurate_row (entries A) (c_cols A) (fun j => dense_mat X j k) i (dense_mat D k i).
Proof.
  intros V HX Hr DA DX. destruct (sp_multCT_dense_exact A X out V HX Hr) as (D & E & HD & Er & Ec & Hv). exists D. do 4 (split; [assumption|]).
  intros i k Hi Hk. rewrite Hv by assumption. apply sp_row_rounds; auto. intros j _. now apply dense_double.
Qed.
