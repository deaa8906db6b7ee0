(** Short forms: printing, eigenvalues, blocks, distributed matrices. *)

From Coq Require Import ZArith List Lia Bool Ring String SpecFloat.
From Verif Require Import Base Scalar Spec Dense DenseFacts Sparse LoopFacts CsrFacts SumFacts SparseProofs SparseMore EntrywiseProofs EntrywiseMat
  Text ParserSpec TextProofs Parser Double DoubleSpec Print PrintSpec PrintProofs PrintFixed
  Vec VecSpec Block BlockSpec BlockFacts BlockProofs BlockMore BlockOp Eigen EigenSpec EigenProofs SortProofs Par ParSpec ParOpProofs ParLinks
  ShortSpec ShortProofs.
Import ListNotations.
Open Scope list_scope.
Open Scope Z_scope.

(** ** PrintDense *)

Lemma sp_to_dense_shown {S : scalar} (A : csr S) : csr_valid A -> d_gives (sp_to_dense A) (c_rows A) (c_cols A) (shown A).
Proof. intros V. destruct (sp_to_dense_exact A V) as (D & E & H). exists D. split; [exact E|exact H]. Qed.

Lemma print_dense_text label (A : csr SFs) : csr_valid A ->
  exists D, sp_print_dense label A = d_print label 8 4 D /\ dense_ok D /\ d_rows D = c_rows A /\ d_cols D = c_cols A /\
    (forall i j, 0 <= i < c_rows A -> 0 <= j < c_cols A -> dense_mat D i j = shown A i j) /\
    exists text, d_print label 8 4 D = Ok text.
Proof.
  intros V. destruct (sp_to_dense_shown A V) as (D & E & HD & Er & Ec & Hv). exists D. unfold sp_print_dense. rewrite E. cbn [bind].
  split; [reflexivity|]. split; [exact HD|]. split; [exact Er|]. split; [exact Ec|]. split; [exact Hv|].
  rewrite d_print_rows by exact HD. eexists. reflexivity.
Qed.

Lemma print_dense_same label (A B : csr SFs) : csr_valid A -> csr_valid B -> c_rows A = c_rows B -> c_cols A = c_cols B ->
  (forall i j, 0 <= i < c_rows A -> 0 <= j < c_cols A -> shown A i j = shown B i j) ->
  sp_print_dense label A = sp_print_dense label B.
Proof.
  intros VA VB Er Ec H. destruct (print_dense_text label A VA) as (D & -> & HD & Dr & Dc & Hv & _).
  destruct (print_dense_text label B VB) as (E & -> & HE & Er' & Ec' & Hw & _).
  rewrite !d_print_rows by assumption. do 4 f_equal. unfold rows_of. rewrite Dr, Dc, Er', Ec', Er, Ec.
  f_equal. apply map_ext_in. intros i Hi. apply In_zrange in Hi. apply map_ext_in. intros j Hj. apply In_zrange in Hj.
  rewrite Hv, Hw by lia. apply H; lia.
Qed.

Lemma print_dense_determines label (A B : csr SFs) : csr_valid A -> csr_valid B -> sp_print_dense label A = sp_print_dense label B ->
  c_rows A = c_rows B /\ (0 < c_rows A -> c_cols A = c_cols B) /\
  forall i j, 0 <= i < c_rows A -> 0 <= j < c_cols A -> fmt_fixed 4 (shown A i j) = fmt_fixed 4 (shown B i j).
Proof.
  intros VA VB H. destruct (print_dense_text label A VA) as (D & EA & HD & Dr & Dc & Hv & _).
  destruct (print_dense_text label B VB) as (E & EB & HE & Er' & Ec' & Hw & _).
  rewrite EA, EB in H. destruct (d_print_det label 8 4 D E ltac:(lia) HD HE H) as (P1 & P2 & P3).
  rewrite Dr, Er' in P1. rewrite Dr, Dc, Ec' in P2. split; [exact P1|]. split; [exact P2|]. intros i j Hi Hj.
  rewrite <- Hv by assumption. rewrite <- Hw by (try lia; rewrite <- P2; lia). apply P3; lia.
Qed.

Lemma bm_print_dense_text label (M : bmat SFs) : bm_ok M ->
  exists C, bm_combine M = Ok C /\ csr_valid C /\ bm_print_dense label M = sp_print_dense label C.
Proof.
  intros H. pose proof (bm_combine_rows M H) as HC. eexists. split; [exact HC|]. split.
  - pose proof (combined_shape M _ H HC) as Q. apply Q.
  - unfold bm_print_dense. rewrite HC. reflexivity.
Qed.

(** ** EigenSolver on sparse matrices *)

Section Eigen.
Context {S : scalar}.
Notation T := (car S).

Lemma solve_sparse_is (L : lapack (S := S)) s (A : csr S) rel mx pr : csr_valid A ->
  exists D, dense_ok D /\ d_rows D = c_rows A /\ d_cols D = c_cols A /\
    (forall i j, 0 <= i < c_rows A -> 0 <= j < c_cols A -> dense_mat D i j = shown A i j) /\
    solve_sparse L s A rel mx pr = solve L s D rel mx pr.
Proof.
  intros V. destruct (sp_to_dense_shown A V) as (D & E & HD & Er & Ec & Hv). exists D. unfold solve_sparse. rewrite E. cbn [bind]. auto 6.
Qed.

Lemma solve_new_is (L : lapack (S := S)) s (D : dense S) rel mx pr : reachable L s -> dense_ok D -> d_cols D = d_rows D ->
  match solve_new L s D rel mx with
  | Ok (_, r) => exists s', solve L s D rel mx pr = Ok (s', r)
  | Fail x => solve L s D rel mx pr = Fail x
  end.
Proof.
  intros H HD Hsq. unfold solve_new.
  assert (H0 : reachable L es_new) by (exists []; split; [intros ? ? ? ? []|reflexivity]).
  pose proof (reachable_reuse L s D rel mx ([], d_empty) pr H HD Hsq) as K1.
  pose proof (reachable_reuse L s D rel mx pr pr H HD Hsq) as K2.
  destruct (solve L es_new D rel mx pr) as [(s1 & r)|x] eqn:E.
  - pose proof (reachable_reuse L s D rel mx ([], d_empty) pr H HD Hsq) as K. rewrite E in K. destruct K as (s2 & ->). exact K2.
  - pose proof (reachable_reuse L s D rel mx ([], d_empty) pr H HD Hsq) as K. rewrite E in K. rewrite K. exact K2.
Qed.

End Eigen.

(** ** Blocks *)

Section Blocks.
Context {S : scalar}.
Notation T := (car S).

(** A default constructed block matrix has no blocks, no rows and no columns, and the products and
    Combine, Transpose of it return. *)
Lemma bm_empty_ok : bm_ok (bm_empty (S := S)).
Proof.
  split; cbn; try reflexivity.
  - split; [change (1 <= 1); lia|reflexivity|]. intros i Hi. unfold nblocks, zlen in Hi. cbn in Hi. lia.
  - split; [change (1 <= 1); lia|reflexivity|]. intros i Hi. unfold nblocks, zlen in Hi. cbn in Hi. lia.
  - intros i Hi. unfold nblocks, zlen in Hi. cbn in Hi. lia.
  - intros i j Hi. unfold nblocks, zlen in Hi. cbn in Hi. lia.
Qed.

Lemma bm_moved_from (M : bmat S) : fst (bm_move M) = M /\ bm_ok (bm_empty (S := S)) /\
  bm_combine (snd (bm_move M)) = bm_combine bm_empty /\
  (forall x out, bm_mult (snd (bm_move M)) x out = bm_mult bm_empty x out) /\
  (forall x out, bm_multAT (snd (bm_move M)) x out = bm_multAT bm_empty x out).
Proof. split; [reflexivity|]. split; [exact bm_empty_ok|]. split; [reflexivity|]. split; reflexivity. Qed.

Lemma bm_moved_transpose (M : bmat S) : bm_transpose (snd (bm_move M)) = Fail FUB /\ exists N, bm_transpose (bm_empty (S := S)) = Ok N.
Proof. split; [reflexivity|]. eexists. reflexivity. Qed.

Lemma bm_swapped (M N : bmat S) : bm_swap M N = (N, M) /\ bm_swap (fst (bm_swap M N)) (snd (bm_swap M N)) = (M, N).
Proof. split; reflexivity. Qed.

Lemma bm_new_square_ok offs : offsets_ok offs ->
  exists M, bm_new_square (S := S) offs = Ok M /\ bm_ok M /\ bm_rows M = total offs /\ bm_cols M = total offs /\ bm_ro M = offs /\ bm_co M = offs /\
    forall i j, 0 <= i < nblocks offs -> 0 <= j < nblocks offs -> bm_get_block M i j = Ok sp_empty.
Proof.
  intros H. unfold bm_new_square. destruct (bm_new_ok (S := S) offs offs H H) as (M & E & HM & Er & Ec & HB). exists M.
  split; [exact E|]. split; [exact HM|]. split; [rewrite (bk_rows M HM), Er; reflexivity|]. split; [rewrite (bk_cols M HM), Ec; reflexivity|].
  split; [exact Er|]. split; [exact Ec|]. intros i j Hi Hj. unfold bm_get_block, bm_at. fold (nblocks (bm_ro M)) (nblocks (bm_co M)). rewrite Er, Ec.
  replace (i <? nblocks offs) with true by lia. replace (j <? nblocks offs) with true by lia. cbn [assert_ bind].
  rewrite (get_ok []) by (rewrite (bk_A M HM), Er; exact Hi). cbn [bind].
  rewrite (get_ok sp_empty) by (rewrite (bk_row M HM) by (rewrite Er; exact Hi); rewrite Ec; exact Hj).
  f_equal. now apply HB.
Qed.

Context {W : Type}.

Lemma bo_get_block_ok (B : bop S W) i j : bo_ok B -> 0 <= i < nblocks (bo_ro B) -> 0 <= j < nblocks (bo_co B) ->
  bo_get_block B i j = Ok (bo_block B i j).
Proof.
  intros H Hi Hj. unfold bo_get_block, bo_at. fold (nblocks (bo_ro B)) (nblocks (bo_co B)).
  replace (i <? nblocks (bo_ro B)) with true by lia. replace (j <? nblocks (bo_co B)) with true by lia. cbn [assert_ bind].
  rewrite (get_ok []) by (rewrite (ok_A B H); exact Hi). cbn [bind].
  rewrite (get_ok None) by (rewrite (ok_row B H) by exact Hi; exact Hj). reflexivity.
Qed.

Lemma bo_new_square_ok offs : offsets_ok offs ->
  exists B u, bo_new_square (S := S) W offs = Ok (B, u) /\ bo_ok B /\ bo_rows B = total offs /\ bo_cols B = total offs /\ bo_ro B = offs /\ bo_co B = offs /\
    forall i j, 0 <= i < nblocks offs -> 0 <= j < nblocks offs -> bo_get_block B i j = Ok None.
Proof.
  intros H. unfold bo_new_square. destruct (bo_new_ok (S := S) (W := W) offs offs H H) as (B & u & E & HB & Hu & Er & Ec & HN). exists B, u.
  split; [exact E|]. split; [exact HB|]. split; [rewrite (ok_rows B HB), Er; reflexivity|]. split; [rewrite (ok_cols B HB), Ec; reflexivity|].
  split; [exact Er|]. split; [exact Ec|]. intros i j Hi Hj. rewrite bo_get_block_ok by (rewrite ?Er, ?Ec; assumption). f_equal. now apply HN.
Qed.

Lemma bo_read_back (B B' : bop S W) i j o : bo_ok B -> bo_set_block B i j o = Ok B' ->
  bo_ok B' /\ bo_rows B' = bo_rows B /\ bo_cols B' = bo_cols B /\ bo_ro B' = bo_ro B /\ bo_co B' = bo_co B /\ bo_get_block B' i j = Ok (Some o) /\
  forall a b, 0 <= a < nblocks (bo_ro B) -> 0 <= b < nblocks (bo_co B) -> (a, b) <> (i, j) -> bo_get_block B' a b = bo_get_block B a b.
Proof.
  intros H E. destruct (bo_set_ok B i j o B' H E) as (Hi & Hj & Or & Oc & H' & Er & Ec & Rr & Rc & HB).
  split; [exact H'|]. split; [exact Rr|]. split; [exact Rc|]. split; [exact Er|]. split; [exact Ec|]. split.
  - rewrite bo_get_block_ok by (rewrite ?Er, ?Ec; assumption). rewrite HB, !Z.eqb_refl by assumption. reflexivity.
  - intros a b Ha Hb Hne. rewrite bo_get_block_ok by (rewrite ?Er, ?Ec; assumption). rewrite bo_get_block_ok by assumption. rewrite HB by assumption.
    destruct (Z.eqb_spec a i) as [->|]; cbn [andb]; [|reflexivity]. destruct (Z.eqb_spec b j) as [->|]; [contradiction|reflexivity].
Qed.

Lemma bo_outside (B : bop S W) i j : nblocks (bo_ro B) <= i \/ nblocks (bo_co B) <= j -> bo_get_block B i j = Fail FAssert.
Proof.
  intros H. unfold bo_get_block. fold (nblocks (bo_ro B)) (nblocks (bo_co B)).
  destruct (Z.ltb_spec i (nblocks (bo_ro B))); cbn [assert_ bind]; [|reflexivity].
  destruct (Z.ltb_spec j (nblocks (bo_co B))); [lia|reflexivity].
Qed.

(** An operator without MultAT *)
Lemma no_transpose (o : op S W) w (x out : list T) : 0 <= o_cols o -> o_multAT o = op_no_multAT ->
  o_multAT o w x out = Fail FThrow /\ op_multAT_vec o w x out = Fail FThrow /\ op_multAT_new o w x = Fail FThrow.
Proof.
  intros Hc E.
  assert (V : forall l, op_multAT_vec o w x l = Fail FThrow).
  { intros l. unfold op_multAT_vec, l_set_size. rewrite E. destruct (o_cols o =? zlen l); [reflexivity|].
    replace (0 <=? o_cols o) with true by lia. reflexivity. }
  split; [rewrite E; reflexivity|]. split; [apply V|]. unfold op_multAT_new. rewrite vec_ok by exact Hc. cbn [bind]. apply V.
Qed.

End Blocks.

(** ** Distributed matrices *)

Section Dist.
Context {S : scalar}.
Notation T := (car S).

Lemma pm_entries_rows (A : parmat S) : pm_valid A -> forall e, In e (pm_entries A) -> 0 <= erow e - row0 A < pm_rows A.
Proof.
  intros V e He. unfold pm_entries in He. apply in_app_or in He. unfold pm_rows, row0.
  destruct He as [He|He]; apply in_map_iff in He; destruct He as (f & <- & Hf); cbn [erow fst].
  - pose proof (proj1 (Forall_forall _ _) (entries_in_shape _ (pv_diag A V)) f Hf) as Q. cbn in Q. rewrite (pv_drows A V) in *. unfold erow in *. cbn [fst] in *. lia.
  - pose proof (proj1 (Forall_forall _ _) (entries_in_shape _ (pv_offd A V)) f Hf) as Q. cbn in Q. rewrite (pv_orows A V) in *. rewrite (pv_drows A V). unfold erow in *. cbn [fst] in *. lia.
Qed.

Lemma pm_scale_rows_by (R : ring_laws S) (A : parmat S) (D : csr S) : pm_valid A -> stored_diagonal D (pm_rows A) ->
  pm_updates (pm_scale_rows_mat A D) A (fun i _ a => smul a (csr_mat D (i - row0 A) (i - row0 A))).
Proof.
  intros V H. destruct (diagonal_entries D _ H) as (_ & L). destruct (pm_scale_rows_updates A (c_val D) V L) as (B & E & VB & LB & MB & HE).
  exists B. split; [exact E|]. split; [exact VB|]. split; [exact LB|]. split; [exact MB|]. rewrite HE. unfold map_values. apply map_ext_in.
  intros e He. rewrite (diagonal_mat R D (pm_rows A)); [reflexivity|exact H|].
  exact (pm_entries_rows A V e He).
Qed.

Lemma pm_inv_scale_rows_by (R : ring_laws S) (A : parmat S) (D : csr S) : pm_valid A -> stored_diagonal D (pm_rows A) -> invertible_diagonal D (pm_rows A) ->
  pm_updates (pm_inv_scale_rows_mat A D) A (fun i _ a => sdiv a (csr_mat D (i - row0 A) (i - row0 A))).
Proof.
  intros V H HI. destruct (diagonal_entries D _ H) as (_ & L).
  destruct (pm_inv_scale_rows_updates A (c_val D) V L) as (B & E & VB & LB & MB & HE).
  { intros i Hi. rewrite <- (diagonal_mat R D _ i H Hi). now apply HI. }
  exists B. split; [exact E|]. split; [exact VB|]. split; [exact LB|]. split; [exact MB|]. rewrite HE. unfold map_values. apply map_ext_in.
  intros e He. rewrite (diagonal_mat R D (pm_rows A)); [reflexivity|exact H|]. exact (pm_entries_rows A V e He).
Qed.

End Dist.

Section Sub.
Context {S : scalar}.
Notation T := (car S).
Hypothesis Q : eqb_laws S.
Hypothesis R : ring_laws S.
Let Rth : ring_theory (@s0 S) s1 sadd smul ssub sopp (@eq (car S)) := R.
Add Ring rSub : Rth.

Lemma par_sub_marker_sum srt (Hs : sorts srt) reorder (Hr : reorders reorder) alpha (A : parmat S) beta (B : parmat S) marker :
  pm_valid A -> pm_valid B -> same_layout A B -> pm_gcols A <= zlen marker ->
  (alpha = s1 \/ entries (pm_offd A) = []) -> (forall g, offd_cols B g -> offd_cols A g) ->
  exists C marker', par_sub_marker srt reorder alpha A beta B marker = Ok (C, marker') /\ pm_valid C /\ same_layout A C /\
    marker' = map (fun _ => -1) marker /\
    forall i j, pm_mat C i j = ssub (smul alpha (pm_mat A i j)) (smul beta (pm_mat B i j)).
Proof.
  intros VA VB L HN Ha Hb.
  destruct (par_add_marker_sum Q R srt Hs reorder Hr alpha A (sopp beta) B marker VA VB L HN Ha (or_intror Hb)) as (C & m & E & VC & LC & Em & H).
  exists C, m. split; [exact E|]. split; [exact VC|]. split; [exact LC|]. split; [exact Em|]. intros i j. rewrite H.
  ring.
Qed.

End Sub.
