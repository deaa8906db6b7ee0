(** Calls whose arguments do not fit are stopped by an assertion: proofs. *)

From Coq Require Import ZArith List Lia Bool.
From Verif Require Import Base Scalar Spec SparseSolve Par Dense Sparse Coo Lil Vec Block Solver CsrFacts LoopFacts SparseMore DenseFacts VecSpec VecProofs Partition.
Import ListNotations.
Open Scope Z_scope.

(** A run of asserts one of which fails. *)
Ltac rejected :=
  repeat (match goal with |- bind (assert_ ?b) _ = _ => let E := fresh "E" in destruct b eqn:E; cbn [assert_ bind]; [|reflexivity] end);
  exfalso; lia.

Ltac all_rejected := repeat match goal with |- _ /\ _ => split | |- _ -> _ => intro end; rejected.

(** A loop that reaches a step that stops it. *)
Lemma foldM_stops {St X} (P : St -> Prop) (f : St -> X -> res St) l s e x0 :
  P s -> (forall s x, P s -> In x l -> (exists s', f s x = Ok s' /\ P s') \/ f s x = Fail e) ->
  In x0 l -> (forall s, P s -> f s x0 = Fail e) -> foldM f l s = Fail e.
Proof.
  revert s. induction l as [|x l IH]; intros s H0 H Hin Hx; [contradiction|].
  cbn [foldM]. destruct Hin as [<-|Hin].
  - rewrite Hx by exact H0. reflexivity.
  - destruct (H s x H0 (or_introl eq_refl)) as [(s' & -> & H')| ->]; [|reflexivity].
    cbn [bind]. apply IH; auto. intros t y Ht Hy. apply H; [exact Ht|right; exact Hy].
Qed.

Lemma for_stops {St} (P : Z -> St -> Prop) (body : Z -> St -> res St) lo hi s e k :
  P lo s -> lo <= k < hi ->
  (forall i s, lo <= i < k -> P i s -> (exists s', body i s = Ok s' /\ P (i + 1) s') \/ body i s = Fail e) ->
  (forall s, P k s -> body k s = Fail e) -> for_ lo hi s body = Fail e.
Proof.
  intros H0 Hk. remember (Z.to_nat (k - lo)) as n eqn:En. revert lo s H0 Hk En.
  induction n as [|n IH]; intros lo s H0 Hk En H Hx.
  - assert (lo = k) by lia. subst lo. unfold for_. rewrite zrange_cons by lia. cbn [foldM].
    rewrite Hx by exact H0. reflexivity.
  - unfold for_. rewrite zrange_cons by lia. cbn [foldM].
    destruct (H lo s ltac:(lia) H0) as [(s' & -> & H')| ->]; [|reflexivity].
    cbn [bind]. apply (IH (lo + 1) s'); auto; try lia. intros i t Hi. apply H. lia.
Qed.

Lemma returns_ex {A} (m : res A) P : returns m P -> exists a, m = Ok a /\ P a.
Proof. destruct m; cbn; [eauto|contradiction]. Qed.

Section Sparse.
Context {S : scalar}.
Notation T := (car S).
Implicit Types A B : csr S.

Lemma sp_square A (diag : list T) (v : T) : c_rows A <> c_cols A ->
  sp_get_diag A = Fail FAssert /\ sp_add_diag A diag = Fail FAssert /\ sp_add_diag_val A v = Fail FAssert.
Proof. intros H. unfold sp_get_diag, sp_add_diag, sp_add_diag_val. all_rejected. Qed.

Lemma sp_vectors A (x out : list T) :
  (zlen x <> c_cols A \/ zlen out <> c_rows A -> sp_mult A x out = Fail FAssert) /\
  (zlen x <> c_rows A \/ zlen out <> c_cols A -> sp_multAT A x out = Fail FAssert).
Proof. unfold sp_mult, sp_multAT. all_rejected. Qed.

Lemma sp_denses A (X out : dense S) :
  (d_rows X <> c_cols A -> sp_mult_dense A X out = Fail FAssert /\ sp_multCT_dense A X out = Fail FAssert) /\
  (d_rows X <> c_rows A -> sp_multAT_dense A X out = Fail FAssert).
Proof. unfold sp_mult_dense, sp_multAT_dense, sp_multCT_dense. all_rejected. Qed.

Lemma sp_product A B (marker : list Z) : c_rows B <> c_cols A -> sp_spmult_marker A B marker = Fail FAssert.
Proof. intros H. unfold sp_spmult_marker. rejected. Qed.

Lemma sp_scales A (values : list T) :
  (zlen values <> c_rows A -> sp_scale_rows A values = Fail FAssert /\ sp_inv_scale_rows A values = Fail FAssert) /\
  (zlen values <> c_cols A -> sp_scale_cols A values = Fail FAssert /\ sp_inv_scale_cols A values = Fail FAssert).
Proof. unfold sp_scale_rows, sp_inv_scale_rows, sp_scale_cols, sp_inv_scale_cols. all_rejected. Qed.

Lemma sp_eliminations A (index : Z) (marker : list bool) (x b : list T) :
  (~ (0 <= index < c_rows A /\ index < c_cols A) -> sp_elim_row_col A index = Fail FAssert) /\
  (~ (0 <= index < c_rows A) -> sp_elim_row A index = Fail FAssert) /\
  (index < 0 \/ 0 < c_cols A <= index -> sp_elim_col A index = Fail FAssert) /\
  (c_rows A <> c_cols A \/ zlen marker < c_cols A -> sp_elim_row_col_marker A marker = Fail FAssert) /\
  (zlen marker < c_cols A -> sp_elim_col_marker A marker = Fail FAssert /\ sp_elim_col_bc A marker x b = Fail FAssert).
Proof.
  unfold sp_elim_row_col, sp_elim_row, sp_elim_col, sp_elim_row_col_marker, sp_elim_col_marker, sp_elim_col_bc.
  all_rejected.
Qed.

Lemma sp_by_zero A (v : T) : seqb v s0 = true -> sp_div A v = Fail FAssert /\ sp_fill A v = Fail FAssert.
Proof. intros H. unfold sp_div, sp_fill. rewrite H. split; reflexivity. Qed.

Lemma sp_sizes (rows cols : Z) : rows < 0 \/ cols < 0 -> @sp_zero S rows cols = Fail FAssert.
Proof. intros H. unfold sp_zero. rejected. Qed.

Lemma put_range (f : T -> T) (d : list T) lo hi n : zlen d = n -> 0 <= lo -> lo <= hi -> hi <= n ->
  exists d', for_ lo hi d (fun j d => a <- get d j ;; set d j (f a)) = Ok d' /\ zlen d' = n.
Proof.
  intros Hd Hlo Hl Hh. apply returns_ex. apply (returns_for (fun _ d => zlen d = n)); auto; try lia.
  intros j e Hj He. rewrite (get_ok s0) by lia. cbn [bind]. rewrite set_ok by lia. cbn. rewrite zlen_upd. exact He.
Qed.

(** A zero among the values of InverseScaleRows. *)
Lemma sp_inv_rows_zero A (values : list T) i : csr_valid A -> zlen values = c_rows A -> 0 <= i < c_rows A ->
  seqb (zn s0 values i) s0 = true -> sp_inv_scale_rows A values = Fail FAssert.
Proof.
  intros V Hv Hi Hz. unfold sp_inv_scale_rows. rewrite Hv, Z.eqb_refl. cbn [assert_ bind].
  rewrite (for_stops (fun _ d => zlen d = nnz A) _ _ _ _ FAssert i); [reflexivity|reflexivity|lia| |].
  - intros k d Hk Hd. rewrite (get_ok s0) by lia. cbn [bind].
    destruct (seqb (zn s0 values k) s0); cbn [negb assert_ bind]; [right; reflexivity|left].
    rewrite !get_ptr by (auto; lia). cbn [bind].
    pose proof (ptr_bounds A k V ltac:(lia)). pose proof (ptr_bounds A (k + 1) V ltac:(lia)).
    pose proof (cv_mono V k ltac:(lia)).
    destruct (put_range (fun a => sdiv a (zn s0 values k)) d (ptr A k) (ptr A (k + 1)) (nnz A)) as (d' & E & Hd'); auto; try lia.
    exists d'. split; assumption.
  - intros d _. rewrite (get_ok s0) by lia. cbn [bind]. rewrite Hz. reflexivity.
Qed.

(** A zero for a column with a stored entry, in InverseScaleCols. *)
Lemma sp_inv_cols_zero A (values : list T) e : csr_valid A -> zlen values = c_cols A -> In e (entries A) ->
  seqb (zn s0 values (ecol e)) s0 = true -> sp_inv_scale_cols A values = Fail FAssert.
Proof.
  intros V Hv He Hz. unfold sp_inv_scale_cols. rewrite Hv, Z.eqb_refl. cbn [assert_ bind].
  unfold sp_upd_data. rewrite for_entries_positions by exact V.
  rewrite entries_positions in He. apply in_map_iff in He. destruct He as ([i k] & <- & Hin). cbn in Hz.
  rewrite (foldM_stops (fun d => zlen d = nnz A) _ _ _ FAssert (i, k)); [reflexivity|reflexivity| |exact Hin|].
  - intros d [r p] Hd Hp. cbn [fst snd]. destruct (position_bounds A r p V Hp) as (_ & Hp').
    rewrite get_idx by auto. cbn [bind]. pose proof (idx_bounds A p V Hp').
    rewrite (get_ok s0) by lia. cbn [bind].
    destruct (seqb (zn s0 values (idx A p)) s0); cbn [negb assert_ bind]; [right; reflexivity|left].
    rewrite (get_ok s0) by lia. cbn [bind]. rewrite set_ok by lia. eexists. split; [reflexivity|]. now rewrite zlen_upd.
  - intros d _. cbn [fst snd]. destruct (position_bounds A i k V Hin) as (_ & Hp').
    rewrite get_idx by auto. cbn [bind]. pose proof (idx_bounds A k V Hp').
    rewrite (get_ok s0) by lia. cbn [bind]. rewrite Hz. reflexivity.
Qed.

(** PermuteCols: a permutation of the wrong length; a stored entry sent outside the matrix. *)
Lemma sp_permutation A (perm : list Z) :
  (zlen perm <> c_cols A -> sp_permute_cols A perm = Fail FAssert) /\
  (csr_valid A -> zlen perm = c_cols A -> forall e, In e (entries A) -> ~ (0 <= zn 0 perm (ecol e) < c_cols A) ->
   sp_permute_cols A perm = Fail FAssert).
Proof.
  split; [intros H; unfold sp_permute_cols; rejected|].
  intros V Hp e He Hx. unfold sp_permute_cols. rewrite Hp, Z.eqb_refl. cbn [assert_ bind].
  rewrite entries_positions in He. apply in_map_iff in He. destruct He as ([i k] & <- & Hin). cbn in Hx.
  destruct (position_bounds A i k V Hin) as (_ & Hk).
  assert (N : zlen (c_idx A) = nnz A) by apply (cv_len V).
  rewrite (for_stops (fun j ix => zlen ix = nnz A /\ forall m, j <= m < nnz A -> zn 0 ix m = idx A m) _ _ _ _ FAssert k);
    [reflexivity|split; [exact N|reflexivity]|lia| |].
  - intros j ix Hj (Hl & Hi). rewrite (get_ok 0) by lia. cbn [bind]. rewrite Hi by lia.
    pose proof (idx_bounds A j V ltac:(lia)). rewrite (get_ok 0) by lia. cbn [bind].
    destruct (0 <=? zn 0 perm (idx A j)); cbn [assert_ bind]; [|right; reflexivity].
    destruct (zn 0 perm (idx A j) <? c_cols A); cbn [assert_ bind]; [|right; reflexivity].
    left. rewrite set_ok by lia. eexists. split; [reflexivity|]. rewrite zlen_upd. split; [exact Hl|].
    intros m Hm. rewrite zn_upd by lia. replace (m =? j) with false by lia. apply Hi. lia.
  - intros ix (Hl & Hi). rewrite (get_ok 0) by lia. cbn [bind]. rewrite Hi by lia.
    pose proof (idx_bounds A k V ltac:(lia)). rewrite (get_ok 0) by lia. cbn [bind]. rejected.
Qed.

(** GetSubMatrix: a marker that is too short; a row past the end. *)
Lemma sp_sub A (rows cols marker : list Z) :
  (zlen marker < c_cols A -> sp_submatrix A rows cols marker = Fail FAssert) /\
  (csr_valid A -> c_cols A <= zlen marker -> (forall c, In c cols -> 0 <= c < c_cols A) -> (forall r, In r rows -> 0 <= r) ->
   forall r, In r rows -> c_rows A <= r -> sp_submatrix A rows cols marker = Fail FAssert).
Proof.
  split; [intros H; unfold sp_submatrix; rejected|].
  intros V Hm Hc Hr r Hin Hx. unfold sp_submatrix. replace (c_cols A <=? zlen marker) with true by lia. cbn [assert_ bind].
  pose proof (zlen_nonneg rows) as Hrl. pose proof (zlen_nonneg cols) as Hcl.
  rewrite vec_ok by lia. cbn [bind]. rewrite set_ok by (rewrite zlen_repeat; lia). cbn [bind].
  destruct (returns_ex (for_ 0 (zlen cols) marker (fun i marker => c <- get cols i ;; set marker c i)) (fun m => zlen m = zlen marker)) as (mk & -> & Hmk).
  { apply (returns_for (fun _ m => zlen m = zlen marker)); auto; try lia.
    intros i m Hi Hml. rewrite (get_ok 0) by lia. cbn [bind]. pose proof (Hc (zn 0 cols i) ltac:(apply zn_In; lia)).
    rewrite set_ok by lia. cbn. now rewrite zlen_upd. }
  cbn [bind]. apply (In_nth _ _ 0) in Hin. destruct Hin as (n & Hn & En).
  rewrite (for_stops (fun _ (st : list Z * Z) => zlen (fst st) = zlen rows + 1) _ _ _ _ FAssert (Z.of_nat n)); [reflexivity| | | |].
  - cbn [fst]. rewrite zlen_upd, zlen_repeat; lia.
  - unfold zlen. lia.
  - intros i [ip c] Hi Hl. cbn [fst] in Hl.
    assert (Hi' : 0 <= i < zlen rows) by (unfold zlen; lia).
    rewrite (get_ok 0) by lia. cbn [bind]. pose proof (Hr (zn 0 rows i) ltac:(apply zn_In; lia)).
    destruct (zn 0 rows i <? c_rows A) eqn:E; cbn [assert_ bind]; [left|right; reflexivity].
    rewrite !get_ptr by (auto; lia). cbn [bind].
    pose proof (ptr_bounds A (zn 0 rows i) V ltac:(lia)). pose proof (ptr_bounds A (zn 0 rows i + 1) V ltac:(lia)).
    pose proof (cv_mono V (zn 0 rows i) ltac:(lia)).
    destruct (returns_ex (for_ (ptr A (zn 0 rows i)) (ptr A (zn 0 rows i + 1)) c (fun j n0 => c0 <- get (c_idx A) j ;; m <- get mk c0 ;; Ok (if m =? -1 then n0 else n0 + 1))) (fun _ => True)) as (c' & -> & _).
    { apply (returns_for (fun _ _ => True)); auto; try lia. intros j m Hj _. rewrite get_idx by (auto; lia). cbn [bind].
      pose proof (idx_bounds A j V ltac:(lia)). rewrite (get_ok 0) by lia. exact I. }
    cbn [bind]. rewrite set_ok by lia. cbn [bind]. eexists. split; [reflexivity|]. cbn [fst]. now rewrite zlen_upd.
  - intros [ip c] _. rewrite (get_ok 0) by (unfold zlen; lia). cbn [bind]. unfold zn. rewrite Nat2Z.id, En. rejected.
Qed.

End Sparse.

Section Dense.
Context {S : scalar}.
Notation T := (car S).
Implicit Types D E B : dense S.

Lemma d_shapes (rows cols : Z) (data : list T) D (v : T) :
  (rows < 0 \/ cols < 0 -> d_set_size D rows cols = Fail FAssert /\ d_set_size_val D rows cols v = Fail FAssert) /\
  (rows < 0 \/ cols < 0 \/ zlen data <> rows * cols -> d_make rows cols data = Fail FAssert).
Proof. unfold d_set_size, d_set_size_val, d_make. all_rejected. Qed.

Lemma d_element D (i j : Z) (v : T) : ~ (0 <= i < d_rows D /\ 0 <= j < d_cols D) ->
  d_get D i j = Fail FAssert /\ d_set D i j v = Fail FAssert.
Proof. unfold d_get, d_set, in_range. all_rejected. Qed.

Lemma d_vectors D (x out : list T) :
  (zlen x <> d_cols D \/ zlen out <> d_rows D -> d_mult D x out = Fail FAssert) /\
  (zlen x <> d_rows D \/ zlen out <> d_cols D -> d_multAT D x out = Fail FAssert).
Proof. unfold d_mult, d_multAT. all_rejected. Qed.

Lemma d_products D E :
  (d_cols D <> d_rows E -> d_matmul D E = Fail FAssert) /\ (d_rows D <> d_rows E -> d_matmulAT D E = Fail FAssert) /\
  (d_cols D <> d_cols E -> d_matmulBT D E = Fail FAssert) /\ (d_rows D <> d_cols E -> d_matmulABT D E = Fail FAssert).
Proof. unfold d_matmul, d_matmulAT, d_matmulBT, d_matmulABT. all_rejected. Qed.

Lemma d_lines D (k : Z) (v : list T) :
  (~ (0 <= k < d_cols D) \/ zlen v <> d_rows D -> d_get_col D k v = Fail FAssert /\ d_set_col D k v = Fail FAssert) /\
  (~ (0 <= k < d_rows D) \/ zlen v <> d_cols D -> d_get_row D k v = Fail FAssert /\ d_set_row D k v = Fail FAssert) /\
  (~ (0 <= k < d_cols D) -> d_col_view D k = Fail FAssert).
Proof. unfold d_get_col, d_set_col, d_get_row, d_set_row, d_col_view. all_rejected. Qed.

Lemma d_pairs (f : T -> T -> T) D E : d_rows D <> d_rows E \/ d_cols D <> d_cols E -> d_zip f D E = Fail FAssert.
Proof. unfold d_zip. all_rejected. Qed.

Lemma d_parts D B out (rows cols : list Z) si sj ei ej :
  (d_cols out <> d_cols D \/ d_rows out <> zlen rows -> d_get_rows D rows out = Fail FAssert) /\
  (zlen rows <> d_rows B \/ zlen cols <> d_cols B -> d_add_sub D rows cols B = Fail FAssert) /\
  (~ (0 <= si < d_rows D /\ 0 <= sj < d_cols D /\ si <= ei <= d_rows D /\ sj <= ej <= d_cols D) ->
   d_set_sub D si sj ei ej B = Fail FAssert /\ d_set_sub_T D si sj ei ej B = Fail FAssert /\ d_get_sub D si sj ei ej out = Fail FAssert).
Proof. unfold d_get_rows, d_add_sub, d_set_sub, d_set_sub_T, d_get_sub, window_ok. all_rejected. Qed.

Lemma d_sum_empty D : d_data D = [] -> d_sum D = Fail FAssert.
Proof. intros H. unfold d_sum. rewrite H. reflexivity. Qed.

End Dense.

Section Triplets.
Context {S : scalar}.
Notation T := (car S).
Implicit Types (M : coo S) (L : lil S).

Lemma coo_sizes (rows cols : Z) M : rows < 0 \/ cols < 0 ->
  @coo_new_size S rows cols = Fail FAssert /\ coo_set_size M rows cols = Fail FAssert.
Proof. unfold coo_new_size, coo_set_size. all_rejected. Qed.

Lemma coo_entry M (i j : Z) (v : T) :
  i < 0 \/ j < 0 \/ seqb v v = false \/ (o_set M = true /\ (Coo.o_rows M <= i \/ Coo.o_cols M <= j)) -> coo_add M i j v = Fail FAssert.
Proof.
  intros H. unfold coo_add.
  destruct (0 <=? i) eqn:E1; cbn [assert_ bind]; [|reflexivity].
  destruct (0 <=? j) eqn:E2; cbn [assert_ bind]; [|reflexivity].
  destruct (seqb v v) eqn:E3; cbn [assert_ bind]; [|reflexivity].
  destruct (o_set M) eqn:E4; [|destruct H as [H|[H|[H|(H & _)]]]; try discriminate; lia].
  destruct (i <? Coo.o_rows M) eqn:E5; cbn [assert_ bind]; [|reflexivity].
  destruct (j <? Coo.o_cols M) eqn:E6; cbn [assert_ bind]; [|reflexivity].
  destruct H as [H|[H|[H|(_ & H)]]]; try discriminate; lia.
Qed.

Lemma coo_add_or M (i j : Z) (v : T) :
  (exists M', coo_add M i j v = Ok M' /\ o_set M' = o_set M /\ Coo.o_rows M' = Coo.o_rows M /\ Coo.o_cols M' = Coo.o_cols M)
  \/ coo_add M i j v = Fail FAssert.
Proof.
  unfold coo_add.
  destruct (0 <=? i); cbn [assert_ bind]; [|right; reflexivity].
  destruct (0 <=? j); cbn [assert_ bind]; [|right; reflexivity].
  destruct (seqb v v); cbn [assert_ bind]; [|right; reflexivity].
  destruct (o_set M) eqn:E4; cbn [bind].
  - destruct (i <? Coo.o_rows M); cbn [assert_ bind]; [|right; reflexivity].
    destruct (j <? Coo.o_cols M); cbn [assert_ bind]; [|right; reflexivity].
    left. eexists. split; [reflexivity|]. auto.
  - left. eexists. split; [reflexivity|]. auto.
Qed.

Lemma coo_blocks M (rows cols : list Z) (i j : Z) (f : T -> T) (D : dense S) (values : list T) :
  (zlen rows <> d_rows D \/ zlen cols <> d_cols D -> coo_add_dense M rows cols f D = Fail FAssert) /\
  (zlen rows <> zlen values -> coo_add_col M rows j f values = Fail FAssert) /\
  (zlen cols <> zlen values -> coo_add_row M i cols f values = Fail FAssert) /\
  (zlen rows <> zlen values \/ zlen cols <> zlen values -> coo_add_list M rows cols f values = Fail FAssert).
Proof. unfold coo_add_dense, coo_add_col, coo_add_row, coo_add_list. all_rejected. Qed.

(** One bad triplet in a list of triplets stops the call. *)
Lemma coo_list_bad M (rows cols : list Z) (f : T -> T) (values : list T) k :
  zlen rows = zlen values -> zlen cols = zlen values -> 0 <= k < zlen values ->
  zn 0 rows k < 0 \/ zn 0 cols k < 0 \/ seqb (f (zn s0 values k)) (f (zn s0 values k)) = false \/
    (o_set M = true /\ (Coo.o_rows M <= zn 0 rows k \/ Coo.o_cols M <= zn 0 cols k)) ->
  coo_add_list M rows cols f values = Fail FAssert.
Proof.
  intros Hr Hc Hk H. unfold coo_add_list. rewrite Hr, Hc, Z.eqb_refl. cbn [assert_ bind].
  apply (for_stops (fun _ M' => o_set M' = o_set M /\ Coo.o_rows M' = Coo.o_rows M /\ Coo.o_cols M' = Coo.o_cols M) _ _ _ _ FAssert k); auto.
  - intros i M' Hi (P1 & P2 & P3). rewrite (get_ok 0) by lia. cbn [bind]. rewrite (get_ok 0) by lia. cbn [bind].
    rewrite (get_ok s0) by lia. cbn [bind].
    destruct (coo_add_or M' (zn 0 rows i) (zn 0 cols i) (f (zn s0 values i))) as [(N & E & Q1 & Q2 & Q3)|E]; [left|right; exact E].
    exists N. split; [exact E|]. rewrite Q1, Q2, Q3. auto.
  - intros M' (P1 & P2 & P3). rewrite (get_ok 0) by lia. cbn [bind]. rewrite (get_ok 0) by lia. cbn [bind].
    rewrite (get_ok s0) by lia. cbn [bind]. apply coo_entry. rewrite P1, P2, P3. exact H.
Qed.

Lemma coo_permutations M (rp cp : list Z) :
  (zlen rp <> fst (coo_find_size M) -> coo_permute_rows M rp = Fail FAssert) /\
  (zlen cp <> snd (coo_find_size M) -> coo_permute_cols M cp = Fail FAssert) /\
  (zlen rp <> fst (coo_find_size M) \/ zlen cp <> snd (coo_find_size M) -> coo_permute_rows_cols M rp cp = Fail FAssert).
Proof.
  unfold coo_permute_rows, coo_permute_cols, coo_permute_rows_cols. destruct (coo_find_size M) as [r c]. cbn [fst snd]. all_rejected.
Qed.

Lemma coo_vectors M (x out : list T) : zlen out <> Coo.o_rows M \/ zlen x <> Coo.o_cols M -> coo_mult M x out = Fail FAssert.
Proof. unfold coo_mult. all_rejected. Qed.

Lemma lil_sizes (rows cols : Z) : rows < 0 \/ cols < 0 -> @lil_new_size S rows cols = Fail FAssert.
Proof. unfold lil_new_size. all_rejected. Qed.

Lemma lil_entry L (i j : Z) (v : T) :
  i < 0 \/ j < 0 \/ seqb v v = false \/ (l_set L = true /\ (l_rows L <= i \/ l_cols L <= j)) -> lil_add L i j v = Fail FAssert.
Proof.
  intros H. unfold lil_add.
  destruct (0 <=? i) eqn:E1; cbn [assert_ bind]; [|reflexivity].
  destruct (0 <=? j) eqn:E2; cbn [assert_ bind]; [|reflexivity].
  destruct (seqb v v) eqn:E3; cbn [assert_ bind]; [|reflexivity].
  destruct (l_set L) eqn:E4; [|destruct H as [H|[H|[H|(H & _)]]]; try discriminate; lia].
  destruct (i <? l_rows L) eqn:E5; cbn [assert_ bind]; [|reflexivity].
  destruct (j <? l_cols L) eqn:E6; cbn [assert_ bind]; [|reflexivity].
  destruct H as [H|[H|[H|(_ & H)]]]; try discriminate; lia.
Qed.

Lemma lil_blocks L (rows cols : list Z) (D : dense S) (x out : list T) :
  (zlen rows <> d_rows D \/ zlen cols <> d_cols D -> lil_add_dense L rows cols D = Fail FAssert) /\
  (zlen out <> fst (lil_find_size L) \/ zlen x <> snd (lil_find_size L) -> lil_mult L x out = Fail FAssert).
Proof. unfold lil_add_dense, lil_mult. all_rejected. Qed.

End Triplets.

Section Blocks.
Context {S : scalar}.
Notation T := (car S).

Lemma bm_access (M : bmat S) (i j : Z) (B : csr S) :
  zlen (bm_ro M) - 1 <= i \/ zlen (bm_co M) - 1 <= j ->
  bm_get_block M i j = Fail FAssert /\ bm_set_block M i j B = Fail FAssert.
Proof. unfold bm_get_block, bm_set_block. all_rejected. Qed.

Lemma bm_misfit (M : bmat S) (i j : Z) (B : csr S) :
  0 <= i < zlen (bm_ro M) - 1 -> 0 <= j < zlen (bm_co M) - 1 ->
  c_rows B <> zn 0 (bm_ro M) (i + 1) - zn 0 (bm_ro M) i \/ c_cols B <> zn 0 (bm_co M) (j + 1) - zn 0 (bm_co M) j ->
  bm_set_block M i j B = Fail FAssert.
Proof.
  intros Hi Hj H. unfold bm_set_block. replace (i <? zlen (bm_ro M) - 1) with true by lia.
  replace (j <? zlen (bm_co M) - 1) with true by lia. cbn [assert_ bind].
  rewrite !(get_ok 0) by lia. cbn [bind]. rejected.
Qed.

Lemma bm_vectors (M : bmat S) (x out : list T) :
  (zlen x <> bm_cols M \/ zlen out <> bm_rows M -> bm_mult M x out = Fail FAssert) /\
  (zlen x <> bm_rows M \/ zlen out <> bm_cols M -> bm_multAT M x out = Fail FAssert).
Proof. unfold bm_mult, bm_multAT. all_rejected. Qed.

Lemma bo_access {W} (B : bop S W) (i j : Z) (o : op S W) :
  zlen (bo_ro B) - 1 <= i \/ zlen (bo_co B) - 1 <= j ->
  bo_get_block B i j = Fail FAssert /\ bo_set_block B i j o = Fail FAssert.
Proof. unfold bo_get_block, bo_set_block. all_rejected. Qed.

Lemma bo_misfit {W} (B : bop S W) (i j : Z) (o : op S W) :
  0 <= i < zlen (bo_ro B) - 1 -> 0 <= j < zlen (bo_co B) - 1 ->
  o_rows o <> zn 0 (bo_ro B) (i + 1) - zn 0 (bo_ro B) i \/ o_cols o <> zn 0 (bo_co B) (j + 1) - zn 0 (bo_co B) j ->
  bo_set_block B i j o = Fail FAssert.
Proof.
  intros Hi Hj H. unfold bo_set_block. replace (i <? zlen (bo_ro B) - 1) with true by lia.
  replace (j <? zlen (bo_co B) - 1) with true by lia. cbn [assert_ bind].
  rewrite !(get_ok 0) by lia. cbn [bind]. rejected.
Qed.

Lemma bo_vectors {W} (B : bop S W) (w : W) (u : bbuf S) (x out : list T) :
  (zlen x <> bo_cols B \/ zlen out <> bo_rows B -> bo_mult B w u x out = Fail FAssert) /\
  (zlen x <> bo_rows B \/ zlen out <> bo_cols B -> bo_multAT B w u x out = Fail FAssert).
Proof. unfold bo_mult, bo_multAT. all_rejected. Qed.

Lemma v_lengths (h : heap S) (alpha beta gamma : T) (x y z : view) :
  (v_len x <> v_len y -> v_div_view h x y = Fail FAssert /\ v_mul_view h x y = Fail FAssert /\
     v_add_view h x y = Fail FAssert /\ v_sub_view h x y = Fail FAssert) /\
  (v_len y <> v_len x \/ v_len z <> v_len x -> v_axpby h alpha x beta y gamma z = Fail FAssert).
Proof. unfold v_div_view, v_mul_view, v_add_view, v_sub_view, v_zip, v_axpby. all_rejected. Qed.

End Blocks.

Section DenseZero.
Context {S : scalar}.
Notation T := (car S).
Implicit Types D : dense S.

Definition like D D' : Prop := dense_ok D' /\ d_rows D' = d_rows D /\ d_cols D' = d_cols D.

Lemma d_mod_like D D' i j f : like D D' -> 0 <= i < d_rows D -> 0 <= j < d_cols D ->
  exists D2, d_mod D' i j f = Ok D2 /\ like D D2.
Proof.
  intros (H & R & C) Hi Hj. rewrite d_mod_ok by (auto; lia). eexists. split; [reflexivity|].
  destruct H as (H1 & H2 & H3). unfold like, dense_ok, dset. cbn. rewrite zlen_upd. auto.
Qed.

Lemma d_inv_rows_zero D (values : list T) i : dense_ok D -> 0 < d_cols D -> zlen values = d_rows D -> 0 <= i < d_rows D ->
  seqb (zn s0 values i) s0 = true -> d_inv_scale_rows D values = Fail FAssert.
Proof.
  intros H Hc Hv Hi Hz. unfold d_inv_scale_rows, d_for_all.
  apply (for_stops (fun _ D' => like D D') _ _ _ _ FAssert 0); [repeat split; apply H|lia|intros; lia|].
  intros D' L. apply (for_stops (fun _ D' => like D D') _ _ _ _ FAssert i); [exact L|lia| |].
  - intros k E Hk HE. rewrite (get_ok s0) by lia. cbn [bind].
    destruct (seqb (zn s0 values k) s0); cbn [negb assert_ bind]; [right; reflexivity|left]. apply d_mod_like; auto; lia.
  - intros E HE. rewrite (get_ok s0) by lia. cbn [bind]. rewrite Hz. reflexivity.
Qed.

Lemma d_inv_cols_zero D (values : list T) j : dense_ok D -> zlen values = d_cols D -> 0 <= j < d_cols D ->
  seqb (zn s0 values j) s0 = true -> d_inv_scale_cols D values = Fail FAssert.
Proof.
  intros H Hv Hj Hz. unfold d_inv_scale_cols.
  apply (for_stops (fun _ D' => like D D') _ _ _ _ FAssert j); [repeat split; apply H|lia| |].
  - intros k E Hk HE. rewrite (get_ok s0) by lia. cbn [bind].
    destruct (seqb (zn s0 values k) s0); cbn [negb assert_ bind]; [right; reflexivity|left].
    apply returns_ex. apply (returns_for (fun _ D' => like D D')); auto; [apply H|].
    intros i D' Hi L. destruct (d_mod_like D D' i k (fun a => sdiv a (zn s0 values k)) L Hi ltac:(lia)) as (D2 & -> & L2). exact L2.
  - intros E HE. rewrite (get_ok s0) by lia. cbn [bind]. rewrite Hz. reflexivity.
Qed.

End DenseZero.

Section Solvers.
Context {S : scalar} {W : Type}.
Notation T := (car S).

Ltac vec_cases := match goal with |- context [vec ?n ?x] => rewrite (vec_ok n x) by assumption end; cbn [bind].

Lemma cg_rejects (A : op S W) dot par w (b x : list T) : 0 <= o_rows A ->
  sp_max par < 0 \/ o_rows A <> o_cols A \/ zlen x <> o_rows A \/ zlen b <> o_rows A ->
  pcg_run A None dot par w b x = Fail FAssert.
Proof.
  intros HA H. unfold pcg_run, pcg_new, solver_checks.
  destruct (0 <=? sp_max par) eqn:E1; cbn [assert_ bind]; [|reflexivity].
  destruct (o_rows A =? o_cols A) eqn:E2; cbn [assert_ bind]; [|reflexivity].
  vec_cases. unfold pcg_mult. rejected.
Qed.

Lemma pcg_rejects (A M : op S W) dot par w (b x : list T) : 0 <= o_rows A ->
  sp_max par < 0 \/ o_rows A <> o_cols A \/ o_cols M <> o_rows A \/ o_rows M <> o_cols M \/ zlen x <> o_rows A \/ zlen b <> o_rows A ->
  pcg_run A (Some M) dot par w b x = Fail FAssert.
Proof.
  intros HA H. unfold pcg_run, pcg_new, solver_checks.
  destruct (0 <=? sp_max par) eqn:E1; cbn [assert_ bind]; [|reflexivity].
  destruct (o_rows A =? o_cols A) eqn:E2; cbn [assert_ bind]; [|reflexivity].
  destruct (o_rows A =? o_cols M) eqn:E3; cbn [assert_ bind]; [|reflexivity].
  destruct (o_rows M =? o_cols M) eqn:E4; cbn [assert_ bind]; [|reflexivity].
  vec_cases. unfold pcg_mult. rejected.
Qed.

Lemma minres_rejects root (A : op S W) dot par w (b x : list T) : 0 <= o_rows A ->
  sp_max par < 0 \/ o_rows A <> o_cols A \/ zlen x <> o_rows A \/ zlen b <> o_rows A ->
  minres_run root A dot par w b x = Fail FAssert.
Proof.
  intros HA H. unfold minres_run, minres_new, solver_checks.
  destruct (0 <=? sp_max par) eqn:E1; cbn [assert_ bind]; [|reflexivity].
  destruct (o_rows A =? o_cols A) eqn:E2; cbn [assert_ bind]; [|reflexivity].
  vec_cases. unfold minres_mult. rejected.
Qed.

Lemma pminres_rejects root (A M : op S W) dot par w (b x : list T) : 0 <= o_rows A ->
  sp_max par < 0 \/ o_rows A <> o_cols A \/ o_cols M <> o_rows A \/ o_rows M <> o_cols M \/ zlen x <> o_rows A \/ zlen b <> o_rows A ->
  pminres_run root A M dot par w b x = Fail FAssert.
Proof.
  intros HA H. unfold pminres_run, minres_new, solver_checks.
  destruct (0 <=? sp_max par) eqn:E1; cbn [assert_ bind]; [|reflexivity].
  destruct (o_rows A =? o_cols A) eqn:E2; cbn [assert_ bind]; [|reflexivity].
  destruct (o_rows A =? o_cols M) eqn:E3; cbn [assert_ bind]; [|reflexivity].
  destruct (o_rows M =? o_cols M) eqn:E4; cbn [assert_ bind]; [|reflexivity].
  vec_cases. unfold pminres_mult. rejected.
Qed.

Lemma ss_square srt U (A : csr S) h : c_rows A <> c_cols A -> ss_make srt U A h = Fail FAssert.
Proof. intro H. unfold ss_make. rejected. Qed.

Lemma ss_vectors U s h (x out : list T) :
  (zlen x <> c_cols (ss_A s) \/ zlen out <> c_rows (ss_A s) -> ss_mult U s h x out = Fail FAssert) /\
  (zlen x <> c_rows (ss_A s) \/ zlen out <> c_cols (ss_A s) -> ss_multAT U s h x out = Fail FAssert).
Proof. unfold ss_mult, ss_multAT, ss_apply. all_rejected. Qed.

Lemma pm_sum srt reorder (alpha beta : T) (A B : parmat S) marker :
  pm_rows A <> pm_rows B \/ pm_cols A <> pm_cols B \/ pm_grows A <> pm_grows B \/ pm_gcols A <> pm_gcols B \/
    pm_rs A <> pm_rs B \/ zlen marker < pm_gcols A ->
  par_add_marker srt reorder alpha A beta B marker = Fail FAssert.
Proof.
  intro H. unfold par_add_marker, zlist_eqb.
  destruct (list_eq_dec Z.eq_dec (pm_rs A) (pm_rs B)) as [e|_].
  - assert (H' : pm_rows A <> pm_rows B \/ pm_cols A <> pm_cols B \/ pm_grows A <> pm_grows B \/ pm_gcols A <> pm_gcols B \/ zlen marker < pm_gcols A) by tauto.
    clear H. rejected.
  - destruct (pm_rows A =? pm_rows B), (pm_cols A =? pm_cols B), (pm_grows A =? pm_grows B), (pm_gcols A =? pm_gcols B); reflexivity.
Qed.

End Solvers.

Section Views.
Context {S : scalar}.

Ltac old_view :=
  match goal with
  | H : hw ?h (v_buf ?z) (v_off ?z) ?i ?g ?h1 |- context [v_at ?h1 ?x ?i] =>
      rewrite (safe_read h z x i g h1) by (assumption || lia || apply not_behind_self)
  | |- context [v_get _ _ _] => unfold v_get
  | |- context [v_set _ _ _ _] => unfold v_set
  | |- context [?i <? ?n] => destruct (Z.ltb_spec i n); [|lia]
  end; cbn [assert_ bind].

Lemma v_div_zero (h : heap S) (z x : view) k : view_ok h z -> view_ok h x -> v_len x = v_len z -> ~ reads_behind z x ->
  0 <= k < v_len x -> seqb (vat h x k) s0 = true -> v_div_view h z x = Fail FAssert.
Proof.
  intros Hz Hx Hl Hs Hk Hzero. unfold v_div_view. destruct (Z.eqb_spec (v_len z) (v_len x)); [|lia]. cbn [assert_ bind].
  apply (for_stops (fun i h1 => hw h (v_buf z) (v_off z) i (fun i => sdiv (vat h z i) (vat h x i)) h1) _ _ _ _ FAssert k).
  - apply hw_nil.
  - lia.
  - intros i h1 Hi H. unfold v_get. repeat old_view. destruct (seqb (vat h x i) s0); cbn [negb assert_ bind]; [right; reflexivity|left].
    repeat old_view. assert (Hi' : 0 <= i < v_len z) by lia. pose proof (view_read h z i Hz Hi') as E. unfold v_at in E.
    destruct (hw_snoc h (v_buf z) (v_off z) i _ h1 _ ltac:(lia) H E) as (h2 & E2 & H2). exists h2. unfold v_put. split; [exact E2|exact H2].
  - intros h1 H. unfold v_get. repeat old_view. rewrite Hzero. reflexivity.
Qed.

Notation T := (car S).

Lemma v_pairs (h : heap S) (alpha : T) (v w : view) : v_len v <> v_len w ->
  v_assign h v w = Fail FAssert /\ v_add_scaled h v alpha w = Fail FAssert /\ v_sub_scaled h v alpha w = Fail FAssert /\
  v_set_scaled h v alpha w = Fail FAssert /\ v_inner h v w = Fail FAssert.
Proof. intro H. unfold v_assign, v_add_scaled, v_sub_scaled, v_set_scaled, v_inner. all_rejected. Qed.

Lemma v_empty (h : heap S) (v : view) : v_len v <= 0 ->
  v_max h v = Fail FAssert /\ v_min h v = Fail FAssert /\ v_abs_max h v = Fail FAssert /\ v_abs_min h v = Fail FAssert.
Proof. intro H. unfold v_max, v_min, v_abs_max, v_abs_min. all_rejected. Qed.

Lemma v_element (h : heap S) (v : view) (i b off size : Z) (t : T) :
  (v_len v <= i -> v_get h v i = Fail FAssert /\ v_set h v i t = Fail FAssert) /\
  (size < 0 \/ (0 < size /\ b = -1) -> v_make b off size = Fail FAssert) /\
  (seqb t s0 = true -> v_div_scalar h v t = Fail FAssert).
Proof.
  unfold v_get, v_set, v_make, v_div_scalar. split; [all_rejected|]. split; [all_rejected|].
  intros ->. reflexivity.
Qed.

Lemma d_reductions (D : dense S) (t : T) :
  (d_rows D <> d_cols D -> d_get_diag D = Fail FAssert) /\
  (zlen (d_data D) = 0 -> d_max D = Fail FAssert /\ d_min D = Fail FAssert) /\
  (seqb t s0 = true -> d_div D t = Fail FAssert).
Proof.
  unfold d_get_diag, d_max, d_min, d_div. split; [all_rejected|]. split; [all_rejected|].
  intros ->. reflexivity.
Qed.
End Views.

Lemma graph_square (S : scalar) to_idx (A : csr S) weighted : c_rows A <> c_cols A -> make_adjacency to_idx A weighted = Fail FAssert.
Proof. intros H. unfold make_adjacency. rejected. Qed.

Lemma partition_rejects (S : scalar) to_idx (call : metis (S := S)) (A : csr S) num_parts unbalance contig weighted :
  num_parts < 1 \/ c_rows A < num_parts \/ c_rows A <> c_cols A -> partition to_idx call A num_parts unbalance contig weighted = Fail FAssert.
Proof. intros H. unfold partition. rejected. Qed.
