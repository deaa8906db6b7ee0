(** The short forms of the interface: proofs. *)

From Coq Require Import ZArith List Lia Bool Ring Field.
From Verif Require Import Base Scalar Spec Dense Sparse LoopFacts CsrFacts SumFacts Rows EntrywiseProofs EntrywiseMat SparseProofs SparseMore
  HistoryProofs Coo CooSpec CooMore Lil LilSpec LilMore LilProofs ShortSpec.
Import ListNotations.
Open Scope Z_scope.

Section Rows.
Context {S : scalar}.
Notation T := (car S).
Implicit Types (A D : csr S).

Lemma sub_list {X} (d : X) l lo hi : 0 <= lo <= hi -> hi <= zlen l ->
  firstn (Z.to_nat (hi - lo)) (skipn (Z.to_nat lo) l) = map (zn d l) (zrange lo hi).
Proof.
  intros H Hh. rewrite <- (map_zn_zrange d l) at 1. rewrite skipn_map, firstn_map. f_equal.
  rewrite (zrange_app 0 lo (zlen l)) by lia. rewrite skipn_app.
  assert (L : forall a b, a <= b -> List.length (zrange a b) = Z.to_nat (b - a)).
  { intros a b Hab. pose proof (zlen_zrange a b Hab). unfold zlen in H0. lia. }
  rewrite L by lia. rewrite skipn_all2 by (rewrite L; lia). cbn [app]. replace (Z.to_nat lo - Z.to_nat (lo - 0))%nat with 0%nat by lia. cbn [skipn].
  rewrite (zrange_app lo hi (zlen l)) by lia. rewrite firstn_app, L by lia.
  rewrite firstn_all2 by (rewrite L; lia). rewrite Nat.sub_diag. cbn [firstn]. apply app_nil_r.
Qed.

Lemma row_range_exact {X} (d : X) A (l : list X) i : csr_valid A -> zlen l = nnz A -> 0 <= i < c_rows A ->
  sp_row_range A l i = Ok (map (zn d l) (zrange (ptr A i) (ptr A (i + 1)))).
Proof.
  intros V Hl Hi. unfold sp_row_range. replace ((0 <=? i) && (i <? c_rows A)) with true by lia. cbn [assert_ bind].
  rewrite !get_ptr by (assumption || lia). cbn [bind].
  pose proof (ptr_bounds A i V ltac:(lia)). pose proof (ptr_bounds A (i + 1) V ltac:(lia)). pose proof (cv_mono V i Hi).
  rewrite Hl. replace ((0 <=? ptr A i) && (ptr A i <=? ptr A (i + 1)) && (ptr A (i + 1) <=? nnz A)) with true by lia.
  f_equal. apply sub_list; lia.
Qed.

Lemma row_access A i : csr_valid A -> 0 <= i < c_rows A ->
  sp_get_indices A i = Ok (map ecol (stored_in_row A i)) /\
  sp_get_data A i = Ok (map evalue (stored_in_row A i)) /\
  sp_row_size A i = Ok (zlen (stored_in_row A i)).
Proof.
  intros V Hi. unfold stored_in_row. rewrite (filter_row_entries A i V Hi). unfold row_entries.
  split; [|split].
  - unfold sp_get_indices. rewrite (row_range_exact 0) by (assumption || exact (cv_len V)). now rewrite map_map.
  - unfold sp_get_data. rewrite (row_range_exact s0) by (assumption || reflexivity). now rewrite map_map.
  - unfold sp_row_size. replace ((0 <=? i) && (i <? c_rows A)) with true by lia. cbn [assert_ bind].
    rewrite !get_ptr by (assumption || lia). cbn [bind]. rewrite zlen_map, zlen_zrange by exact (cv_mono V i Hi). reflexivity.
Qed.

Lemma row_access_outside A i : i < 0 \/ c_rows A <= i ->
  sp_get_indices A i = Fail FAssert /\ sp_get_data A i = Fail FAssert /\ sp_row_size A i = Fail FAssert.
Proof.
  intros H. unfold sp_get_indices, sp_get_data, sp_row_range, sp_row_size.
  replace ((0 <=? i) && (i <? c_rows A)) with false by lia. auto.
Qed.

(** The rows one after the other are the whole matrix. *)
Lemma rows_are_all A : csr_valid A -> flat_map (stored_in_row A) (zrange 0 (c_rows A)) = entries A.
Proof.
  intros V. transitivity (flat_map (row_entries A) (zrange 0 (c_rows A))); [|reflexivity]. apply flat_map_ext_in. intros i Hi. apply In_zrange in Hi. now apply filter_row_entries.
Qed.

(** ** Diagonal matrices *)

Lemma diagonal_entries D n : stored_diagonal D n -> entries D = entries (sp_diag (c_val D)) /\ zlen (c_val D) = n.
Proof.
  intros (V & Er & Ec & E). pose proof (entries_values D V) as EV.
  assert (Hn : 0 <= n) by (rewrite <- Er; apply (cv_rows V)).
  assert (L : zlen (c_val D) = n).
  { rewrite <- EV, zlen_map. transitivity (zlen (map fst (entries D))); [symmetry; apply zlen_map|]. rewrite E, zlen_map, zlen_zrange by lia. lia. }
  split; [|exact L].
  rewrite sp_diag_rows, csr_of_rows_entries, L. cbn [row_to_entries map fst snd].
  assert (G : forall (l : list (entry S)) (a : list (Z * Z)) b, map fst l = a -> map evalue l = b -> l = combine a b).
  { induction l as [|((i, j), v) l IH]; intros a b <- <-; cbn; [reflexivity|]. now rewrite <- (IH _ _ eq_refl eq_refl). }
  rewrite (G _ _ _ E EV). rewrite <- (map_zn_zrange s0 (c_val D)) at 1. rewrite L. clear.
  induction (zrange 0 n) as [|i l IH]; cbn; [reflexivity|]. now rewrite IH.
Qed.

Lemma diagonal_mat (R : ring_laws S) D n i : stored_diagonal D n -> 0 <= i < n -> csr_mat D i i = vec_of (c_val D) i.
Proof.
  intros H Hi. destruct (diagonal_entries D n H) as (E & L). unfold csr_mat. rewrite E. fold (csr_mat (sp_diag (c_val D))).
  rewrite (sp_diag_mat R), L. replace ((0 <=? i) && (i <? n) && (i =? i)) with true by lia. reflexivity.
Qed.

Lemma diagonal_is D n i j : stored_diagonal D n -> csr_mat D i j = csr_mat (sp_diag (c_val D)) i j.
Proof. intros H. unfold csr_mat. now rewrite (proj1 (diagonal_entries D n H)). Qed.

Lemma scale_rows_by (R : ring_laws S) A D : csr_valid A -> stored_diagonal D (c_rows A) ->
  exists B, sp_scale_rows_mat A D = Ok B /\ csr_valid B /\ same_pattern A B /\
  forall i j, csr_mat B i j = mat_mul (csr_mat D) (csr_mat A) (c_rows A) i j.
Proof.
  intros V H. destruct (sp_scale_rows_diag R A (c_val D) V (proj2 (diagonal_entries _ _ H))) as (B & E & VB & P & HB).
  exists B. split; [exact E|]. split; [exact VB|]. split; [exact P|]. intros i j. rewrite HB. unfold mat_mul.
  apply sum_range_ext. intros k Hk. now rewrite (diagonal_is D _ i k H).
Qed.

Lemma scale_cols_by (R : ring_laws S) A D : csr_valid A -> stored_diagonal D (c_cols A) ->
  exists B, sp_scale_cols_mat A D = Ok B /\ csr_valid B /\ same_pattern A B /\
  forall i j, csr_mat B i j = mat_mul (csr_mat A) (csr_mat D) (c_cols A) i j.
Proof.
  intros V H. destruct (sp_scale_cols_diag R A (c_val D) V (proj2 (diagonal_entries _ _ H))) as (B & E & VB & P & HB).
  exists B. split; [exact E|]. split; [exact VB|]. split; [exact P|]. intros i j. rewrite HB. unfold mat_mul.
  apply sum_range_ext. intros k Hk. now rewrite (diagonal_is D _ k j H).
Qed.

End Rows.

Section Inverse.
Context {S : scalar}.
Notation T := (car S).
Hypothesis F : field_laws S.
Hypothesis Q : eqb_laws S.
Implicit Types (A B D : csr S).

Let R : ring_laws S := field_ring S F.
Let Rth2 : ring_theory (@s0 S) s1 sadd smul ssub sopp (@eq (car S)) := R.
Add Ring rSI : Rth2.

Lemma sdiv_smul (a c : T) : seqb c s0 = false -> smul (sdiv a c) c = a.
Proof.
  intros H. assert (Hc : c <> s0) by (intros E; apply Q in E; congruence). rewrite (Fdiv_def F a). pose proof (Finv_l F c Hc) as I.
  transitivity (smul a (smul (sdiv s1 c) c)); [ring|]. rewrite I. ring.
Qed.

Lemma diagonal_left D A n i j : stored_diagonal D n -> 0 <= i < n -> mat_mul (csr_mat D) (csr_mat A) n i j = smul (vec_of (c_val D) i) (csr_mat A i j).
Proof.
  intros H Hi. destruct (diagonal_entries D n H) as (_ & L). unfold mat_mul.
  rewrite (sum_range_ext 0 n _ (fun k => if k =? i then smul (vec_of (c_val D) i) (csr_mat A k j) else s0)).
  - rewrite (sum_range_delta R) by lia. reflexivity.
  - intros k Hk. rewrite (diagonal_is D n i k H), (sp_diag_mat R), L. rewrite (Z.eqb_sym i k).
    replace ((0 <=? i) && (i <? n)) with true by lia. cbn [andb]. destruct (k =? i); [reflexivity|]. apply smul_0_l. exact R.
Qed.

Lemma diagonal_right D A n i j : stored_diagonal D n -> 0 <= j < n -> mat_mul (csr_mat A) (csr_mat D) n i j = smul (csr_mat A i j) (vec_of (c_val D) j).
Proof.
  intros H Hj. destruct (diagonal_entries D n H) as (_ & L). unfold mat_mul.
  rewrite (sum_range_ext 0 n _ (fun k => if k =? j then smul (csr_mat A i k) (vec_of (c_val D) j) else s0)).
  - rewrite (sum_range_delta R) by lia. reflexivity.
  - intros k Hk. rewrite (diagonal_is D n k j H), (sp_diag_mat R), L.
    replace ((0 <=? k) && (k <? n)) with true by lia. cbn [andb]. destruct (Z.eqb_spec k j) as [->|]; [reflexivity|]. apply smul_0_r. exact R.
Qed.

Lemma inv_scale_rows_by A D : csr_valid A -> stored_diagonal D (c_rows A) -> invertible_diagonal D (c_rows A) ->
  exists B, sp_inv_scale_rows_mat A D = Ok B /\ csr_valid B /\ same_pattern A B /\
  forall i j, 0 <= i < c_rows A -> mat_mul (csr_mat D) (csr_mat B) (c_rows A) i j = csr_mat A i j.
Proof.
  intros V H HI. destruct (diagonal_entries _ _ H) as (_ & L).
  assert (HI' : forall i, 0 <= i < c_rows A -> seqb (vec_of (c_val D) i) s0 = false).
  { intros i Hi. rewrite <- (diagonal_mat R D _ i H Hi). now apply HI. }
  destruct (sp_inv_scale_rows_mat_spec F A (c_val D) V L HI') as (B & E & VB & P & HB).
  exists B. split; [exact E|]. split; [exact VB|]. split; [exact P|]. intros i j Hi.
  rewrite (diagonal_left D B _ i j H Hi), HB. rewrite (smul_comm R). apply sdiv_smul. now apply HI'.
Qed.

Lemma inv_scale_cols_by A D : csr_valid A -> stored_diagonal D (c_cols A) -> invertible_diagonal D (c_cols A) ->
  exists B, sp_inv_scale_cols_mat A D = Ok B /\ csr_valid B /\ same_pattern A B /\
  forall i j, 0 <= j < c_cols A -> mat_mul (csr_mat B) (csr_mat D) (c_cols A) i j = csr_mat A i j.
Proof.
  intros V H HI. destruct (diagonal_entries _ _ H) as (_ & L).
  assert (HI' : forall i, 0 <= i < c_cols A -> seqb (vec_of (c_val D) i) s0 = false).
  { intros i Hi. rewrite <- (diagonal_mat R D _ i H Hi). now apply HI. }
  destruct (sp_inv_scale_cols_mat_spec F A (c_val D) V L HI') as (B & E & VB & P & HB).
  exists B. split; [exact E|]. split; [exact VB|]. split; [exact P|]. intros i j Hi.
  rewrite (diagonal_right D B _ i j H Hi), HB. apply sdiv_smul. now apply HI'.
Qed.

End Inverse.

(** ** The overloads that allocate the output *)

Section New.
Context {S : scalar}.
Notation T := (car S).

Lemma new_ok {X} (n : Z) (f : list T -> res X) : 0 <= n -> exists o, zlen o = n /\ bind (vec n s0) f = f o.
Proof. intros H. rewrite vec_ok by exact H. eexists. split; [|reflexivity]. unfold zlen. rewrite repeat_length. lia. Qed.

Lemma sp_new_products (R : ring_laws S) (A : csr S) : csr_valid A ->
  (forall x, zlen x = c_cols A -> gives_product (sp_mult_new A x) (c_rows A) (c_cols A) (csr_mat A) x) /\
  (forall x, zlen x = c_rows A -> gives_product (sp_multAT_new A x) (c_cols A) (c_rows A) (mat_T (csr_mat A)) x) /\
  (forall x, zlen x <> c_cols A -> sp_mult_new A x = Fail FAssert) /\
  (forall x, zlen x <> c_rows A -> sp_multAT_new A x = Fail FAssert).
Proof.
  intros V. pose proof (cv_rows V) as Hr. pose proof (cv_cols V) as Hc. split; [|split; [|split]]; intros x Hx.
  - destruct (new_ok (c_rows A) (sp_mult A x) Hr) as (o & Lo & E). unfold gives_product. assert (EE : sp_mult_new A x = sp_mult A x o) by exact E. rewrite EE. now apply sp_mult_spec.
  - destruct (new_ok (c_cols A) (sp_multAT A x) Hc) as (o & Lo & E). unfold gives_product. assert (EE : sp_multAT_new A x = sp_multAT A x o) by exact E. rewrite EE. now apply sp_multAT_spec.
  - destruct (new_ok (c_rows A) (sp_mult A x) Hr) as (o & Lo & E). assert (EE : sp_mult_new A x = sp_mult A x o) by exact E. rewrite EE. unfold sp_mult.
    destruct (Z.eqb_spec (zlen x) (c_cols A)); [contradiction|reflexivity].
  - destruct (new_ok (c_cols A) (sp_multAT A x) Hc) as (o & Lo & E). assert (EE : sp_multAT_new A x = sp_multAT A x o) by exact E. rewrite EE. unfold sp_multAT.
    destruct (Z.eqb_spec (zlen x) (c_rows A)); [contradiction|reflexivity].
Qed.

Lemma coo_new_products (R : ring_laws S) (M : coo S) : coo_ok M -> o_set M = true ->
  (forall x, zlen x = o_cols M -> gives_product (coo_mult_new M x) (o_rows M) (o_cols M) (mat_of (o_entries M)) x) /\
  (forall x, zlen x = o_rows M -> o_rows M = o_cols M ->
     gives_product (coo_multAT_new M x) (o_cols M) (o_rows M) (mat_T (mat_of (o_entries M))) x) /\
  (forall x, zlen x = o_rows M -> o_rows M <> o_cols M -> coo_multAT_new M x = Fail FAssert).
Proof.
  intros V Es. pose proof V as (Hr & Hc & _). split; [|split]; intros x Hx.
  - destruct (new_ok (o_rows M) (coo_mult M x) Hr) as (o & Lo & E). unfold gives_product. assert (EE : coo_mult_new M x = coo_mult M x o) by exact E. rewrite EE. now apply coo_mult_spec.
  - intros Hsq. destruct (new_ok (o_cols M) (coo_multAT M x) Hc) as (o & Lo & E). unfold gives_product. assert (EE : coo_multAT_new M x = coo_multAT M x o) by exact E. rewrite EE. now apply coo_multAT_spec.
  - intros Hsq. destruct (new_ok (o_cols M) (coo_multAT M x) Hc) as (o & Lo & E). assert (EE : coo_multAT_new M x = coo_multAT M x o) by exact E. rewrite EE. now apply coo_multAT_rejects.
Qed.

Lemma lil_new_products (R : ring_laws S) (M : lil S) : lil_wf M ->
  let r := fst (lil_find_size M) in let c := snd (lil_find_size M) in
  d_gives (lil_to_dense M) r c (mat_of (lil_entries M)) /\
  (forall x, zlen x = c -> gives_product (lil_mult_new M x) r c (mat_of (lil_entries M)) x) /\
  (forall x, zlen x = r -> r = c -> gives_product (lil_multAT_new M x) c r (mat_T (mat_of (lil_entries M))) x) /\
  (forall x, zlen x = r -> r <> c -> lil_multAT_new M x = Fail FAssert).
Proof.
  intros W r c. destruct (lil_shape M W) as (Hr & Hc & _). fold r in Hr. fold c in Hc. split; [exact (lil_to_dense_spec R M d_empty W)|]. split; [|split]; intros x Hx.
  - destruct (new_ok r (lil_mult M x) Hr) as (o & Lo & E). unfold gives_product. assert (EE : lil_mult_new M x = lil_mult M x o) by exact E. rewrite EE. now apply lil_mult_spec.
  - intros Hsq. destruct (new_ok c (lil_multAT M x) Hc) as (o & Lo & E). unfold gives_product. assert (EE : lil_multAT_new M x = lil_multAT M x o) by exact E. rewrite EE. now apply lil_multAT_spec.
  - intros Hsq. destruct (new_ok c (lil_multAT M x) Hc) as (o & Lo & E). assert (EE : lil_multAT_new M x = lil_multAT M x o) by exact E. rewrite EE. now apply lil_multAT_rejects.
Qed.

End New.
