(** EliminateCol(marker, x, b), GetDiag, PermuteCols, EliminateZeros, ToDense and the
    products with dense matrices. *)

From Coq Require Import ZArith List Lia Bool Permutation Ring.
From Verif Require Import Base Scalar Spec Dense Sparse LoopFacts CsrFacts SumFacts Rows Accum
  SparseProofs ProductProofs DenseFacts EntrywiseProofs EntrywiseMat.
Import ListNotations.
Open Scope Z_scope.

Section TwoState.
Context {S : scalar}.
Notation T := (car S).
Implicit Types (A B : csr S).

(** [upd_loop] with a second component that is only threaded through. *)
Lemma upd_loop2 {W : Type} A (f : Z * Z -> T) (g : W -> Z * Z -> W) (I : W -> Prop) body (w0 : W) :
  csr_valid A -> I w0 -> (forall w p, In p (positions A) -> I w -> I (g w p)) ->
  (forall p d w, In p (positions A) -> zlen d = nnz A -> zn s0 d (snd p) = val A (snd p) -> I w ->
     body (d, w) p = Ok (upd d (Z.to_nat (snd p)) (f p), g w p)) ->
  foldM body (positions A) (c_val A, w0) = Ok (map f (positions A), fold_left g (positions A) w0).
Proof.
  intros V I0 Ig Hb. apply res_of_returns.
  apply (returns_foldM (fun pre (st : list T * W) => let (d, w) := st in
     w = fold_left g pre w0 /\ I w /\ zlen d = nnz A /\
     forall k, 0 <= k < nnz A -> zn s0 d k = if k <? zlen pre then f (zn (0, 0) (positions A) k) else val A k)).
  - split; [reflexivity|]. split; [exact I0|]. split; [reflexivity|]. intros k Hk. rewrite zlen_nil. destruct (Z.ltb_spec k 0); [lia|reflexivity].
  - intros pre p post [d w] E (Hw & Iw & Hl & Hd).
    assert (Hlen : zlen (positions A) = zlen pre + 1 + zlen post) by (rewrite E, zlen_app, zlen_cons; lia).
    rewrite positions_length in Hlen by exact V.
    pose proof (zlen_nonneg pre). pose proof (zlen_nonneg post).
    assert (Hp : zn (0, 0) (positions A) (zlen pre) = p).
    { rewrite E, zn_app_r by lia. replace (zlen pre - zlen pre) with 0 by lia. reflexivity. }
    assert (Hs : snd p = zlen pre) by (rewrite <- Hp; apply zn_positions_snd; auto; lia).
    assert (Hin : In p (positions A)) by (rewrite E; apply in_elt).
    rewrite Hb; auto.
    + cbn. rewrite zlen_upd. split; [rewrite fold_left_app; cbn; now rewrite <- Hw|].
      split; [apply Ig; auto|]. split; [exact Hl|]. intros k Hk.
      rewrite zn_upd by lia. rewrite zlen_app, zlen_cons, zlen_nil.
      rewrite Hs. destruct (Z.eqb_spec k (zlen pre)) as [->|Hne].
      * destruct (Z.ltb_spec (zlen pre) (zlen pre + (0 + 1))); [|lia]. now rewrite Hp.
      * rewrite Hd by exact Hk.
        destruct (Z.ltb_spec k (zlen pre)), (Z.ltb_spec k (zlen pre + (0 + 1))); try reflexivity; lia.
    + rewrite Hs. rewrite Hd by lia. destruct (Z.ltb_spec (zlen pre) (zlen pre)); [lia|reflexivity].
  - intros [d w] (Hw & _ & Hl & Hd). f_equal; [|exact Hw]. apply (list_ext s0).
    + rewrite zlen_map, positions_length by exact V. exact Hl.
    + intros k Hk. rewrite Hd by lia. rewrite positions_length by exact V.
      destruct (Z.ltb_spec k (nnz A)); [|lia]. symmetry. apply zn_map. rewrite positions_length; auto; lia.
Qed.

(** What EliminateCol(marker, x, b) does to one entry and to b. *)
Definition bc_hit (marker : list bool) (e : entry S) : bool := zn false marker (ecol e) && negb (seqb (evalue e) s0).
Definition bc_step (marker : list bool) (x : list T) (s : T) (e : entry S) : T :=
  if bc_hit marker e then ssub s (smul (evalue e) (vec_of x (ecol e))) else s.

Lemma sp_elim_col_bc_exact A marker x b :
  csr_valid A -> c_cols A <= zlen marker -> zlen x = c_cols A -> zlen b = c_rows A ->
  exists B b', sp_elim_col_bc A marker x b = Ok (B, b') /\ csr_valid B /\ same_pattern A B /\
    entries B = map_values (fun _ j v => if zn false marker j && negb (seqb v s0) then s0 else v) (entries A) /\
    zlen b' = c_rows A /\
    forall i, 0 <= i < c_rows A -> zn s0 b' i = fold_left (bc_step marker x) (row_entries A i) (zn s0 b i).
Proof.
  intros V Hm Hx Hb. unfold sp_elim_col_bc. destruct (Z.leb_spec (c_cols A) (zlen marker)); [|lia].
  cbn [assert_ bind]. rewrite for_entries_positions by exact V.
  set (g := fun (b : list T) (p : Z * Z) => upd b (Z.to_nat (fst p)) (bc_step marker x (zn s0 b (fst p)) (entry_at A p))).
  rewrite (upd_loop2 A (fun p => if bc_hit marker (entry_at A p) then s0 else val A (snd p)) g (fun b => zlen b = c_rows A)); auto.
  - cbn [bind]. eexists. eexists. split; [reflexivity|].
    split; [apply (with_val_valid A); [exact V|rewrite zlen_map; now apply positions_length]|].
    split; [repeat split|]. split.
    + etransitivity; [apply (entries_with_val A _ V)|]. unfold map_values.
      rewrite entries_positions, map_map. apply map_ext. intros [i k]. reflexivity.
    + destruct (scatter s0 fst (fun s p => bc_step marker x s (entry_at A p)) (fun b p => Ok (g b p)) (positions A) b) as (b' & E & Hl & Hv).
      * intros [i k] Hp. apply position_bounds in Hp; auto. cbn. lia.
      * intros. reflexivity.
      * rewrite foldM_pure in E. injection E as E. rewrite E. split; [lia|]. intros i Hi. rewrite Hv by lia.
        rewrite <- filter_row_entries by auto. rewrite entries_positions, filter_map, fold_left_map. reflexivity.
  - intros w p _ Hw. unfold g. now rewrite zlen_upd.
  - intros [i k] d w Hp Hl Hz Hw. apply position_bounds in Hp; auto. cbn [fst snd] in *.
    pose proof (idx_bounds A k V ltac:(tauto)). rewrite get_idx by (auto; tauto). cbn [bind].
    rewrite (get_ok false) by lia. cbn [bind]. unfold g, bc_step, bc_hit, entry_at. cbn [fst snd ecol evalue].
    destruct (zn false marker (idx A k)); cbn [andb].
    + rewrite (get_ok s0 d) by lia. cbn [bind]. rewrite Hz. destruct (seqb (val A k) s0); cbn [negb].
      * rewrite upd_zn_same. now rewrite <- Hz, upd_zn_same.
      * rewrite (get_ok s0 x) by lia. cbn [bind]. rewrite (get_ok s0 w) by lia. cbn [bind].
        rewrite !set_ok by lia. reflexivity.
    + rewrite upd_zn_same. now rewrite <- Hz, upd_zn_same.
Qed.

Lemma sp_get_diag_exact A :
  csr_valid A -> c_rows A = c_cols A ->
  sp_get_diag A = Ok (map (fun i => fold_left (fun _ e => evalue e) (filter (at_pos i i) (entries A)) s0) (zrange 0 (c_rows A))).
Proof.
  intros V Hs. unfold sp_get_diag. rewrite Hs, Z.eqb_refl, <- Hs. cbn [assert_ bind].
  pose proof (cv_rows V). rewrite vec_ok by lia. cbn [bind].
  assert (E : forall i, 0 <= i < c_rows A ->
     fold_left (fun v e => if ecol e =? i then evalue e else v) (row_entries A i) s0
     = fold_left (fun (_ : T) e => evalue e) (filter (at_pos i i) (entries A)) s0).
  { intros i Hi. rewrite <- filter_row_entries by auto. generalize (s0 : T). induction (entries A) as [|e l IH]; intros a; [reflexivity|].
    cbn [filter]. unfold at_pos at 1. destruct (erow e =? i); cbn [andb fold_left]; [|apply IH].
    destruct (ecol e =? i); cbn [fold_left]; apply IH. }
  rewrite (map_ext_in _ (fun i => fold_left (fun v e => if ecol e =? i then evalue e else v) (row_entries A i) s0)).
  2:{ intros i Hi. apply In_zrange in Hi. symmetry. now apply E. }
  rewrite <- (for_fill s0 (fun i => fold_left (fun v e => if ecol e =? i then evalue e else v) (row_entries A i) s0)
    (fun i out => foldM (fun v e => Ok (if ecol e =? i then evalue e else v)) (row_entries A i) s0)
    (c_rows A) (repeat s0 (Z.to_nat (c_rows A)))).
  - apply for_ext. intros i o Hi. rewrite !get_ptr by (auto; lia). cbn [bind].
    rewrite (row_loop A i s0 _ (fun v e => Ok (if ecol e =? i then evalue e else v))); auto.
    intros k v Hk. apply position_bounds in Hk; auto. rewrite get_idx by (auto; tauto). cbn [bind entry_at ecol fst snd].
    destruct (idx A k =? i); [apply get_val; tauto|reflexivity].
  - rewrite zlen_repeat. lia.
  - intros i o Hi. now rewrite foldM_pure.
Qed.

(** ** PermuteCols *)

Lemma for_map_inplace {X} (d : X) (f : X -> X) (body : Z -> list X -> res (list X)) (l : list X) :
  (forall i l', 0 <= i < zlen l -> zlen l' = zlen l -> zn d l' i = zn d l i ->
     body i l' = Ok (upd l' (Z.to_nat i) (f (zn d l i)))) ->
  for_ 0 (zlen l) l body = Ok (map f l).
Proof.
  intros H. apply res_of_returns. pose proof (zlen_nonneg l).
  apply (returns_for (fun i l' => zlen l' = zlen l /\
    forall k, 0 <= k < zlen l -> zn d l' k = if k <? i then f (zn d l k) else zn d l k)); [lia| | |].
  - split; [reflexivity|]. intros k Hk. destruct (Z.ltb_spec k 0); [lia|reflexivity].
  - intros i l' Hi (Hl & Hk). rewrite H; auto.
    + cbn. rewrite zlen_upd. split; [exact Hl|]. intros k Hk'. rewrite zn_upd by lia.
      destruct (Z.eqb_spec k i) as [->|].
      * destruct (Z.ltb_spec i (i + 1)); [reflexivity|lia].
      * rewrite Hk by exact Hk'. destruct (Z.ltb_spec k i), (Z.ltb_spec k (i + 1)); try reflexivity; lia.
    + rewrite Hk by exact Hi. destruct (Z.ltb_spec i i); [lia|reflexivity].
  - intros l' (Hl & Hk). apply (list_ext d); [now rewrite zlen_map|]. intros k Hk'. rewrite Hk by lia.
    rewrite (zn_map d) by lia. destruct (Z.ltb_spec k (zlen l)); [reflexivity|lia].
Qed.

Definition move_cols (perm : list Z) (l : list (entry S)) : list (entry S) :=
  map (fun e => (erow e, zn 0 perm (ecol e), evalue e)) l.

Lemma sp_permute_cols_exact A perm :
  csr_valid A -> zlen perm = c_cols A -> (forall j, 0 <= j < c_cols A -> 0 <= zn 0 perm j < c_cols A) ->
  exists B, sp_permute_cols A perm = Ok B /\ csr_valid B /\ c_rows B = c_rows A /\ c_cols B = c_cols A /\
    c_ptr B = c_ptr A /\ c_val B = c_val A /\ entries B = move_cols perm (entries A).
Proof.
  intros V Hl Hp. unfold sp_permute_cols. rewrite Hl, Z.eqb_refl. cbn [assert_ bind].
  rewrite (for_map_inplace 0 (zn 0 perm)).
  2:{ intros i l' Hi Hl' Hz. rewrite (get_ok 0) by lia. cbn [bind]. rewrite Hz.
      pose proof (cv_idx V i Hi) as Hc. unfold idx in Hc. rewrite (get_ok 0) by lia. cbn [bind].
      specialize (Hp _ Hc). destruct (Z.leb_spec 0 (zn 0 perm (zn 0 (c_idx A) i))); [|lia].
      destruct (Z.ltb_spec (zn 0 perm (zn 0 (c_idx A) i)) (c_cols A)); [|lia]. cbn [assert_ bind].
      apply set_ok. lia. }
  cbn [bind]. eexists. split; [reflexivity|]. split; [|do 4 (split; [reflexivity|])].
  - destruct V. constructor; unfold ptr, idx, nnz in *; cbn [c_rows c_cols c_ptr c_idx c_val] in *; auto.
    + now rewrite zlen_map.
    + rewrite zlen_map. intros k Hk. rewrite (zn_map 0) by exact Hk. apply Hp. auto.
  - etransitivity; [apply entries_positions|]. unfold move_cols. rewrite entries_positions, map_map.
    apply map_ext_in. intros [i k] Hk. apply position_bounds in Hk; auto.
    unfold entry_at, idx, val. cbn [fst snd c_idx c_val erow ecol evalue]. do 2 f_equal. apply (zn_map 0).
    rewrite (cv_len V). unfold nnz in Hk. lia.
Qed.

(** ** EliminateZeros *)

Definition nonzero_row A (tol : T) (i : Z) : list (Z * T) := filter (fun p => slt tol (sabs (snd p))) (row_of A i).

Lemma sp_elim_zeros_rows A tol :
  csr_valid A -> sp_elim_zeros A tol = Ok (csr_of_rows (c_rows A) (c_cols A) (nonzero_row A tol)).
Proof.
  intros V. unfold sp_elim_zeros. pose proof (cv_rows V) as Hr. set (f := nonzero_row A tol).
  assert (E : for_ 0 (c_rows A) ([0], [], []) (fun i st =>
      lo <- get (c_ptr A) i ;; hi <- get (c_ptr A) (i + 1) ;;
      ' (ip, ix, d) <- for_ lo hi st (fun j st =>
          let '(ip, ix, d) := st in
          v <- get (c_val A) j ;;
          if slt tol (sabs v)
          then c <- get (c_idx A) j ;; Ok (ip, ix ++ [c], d ++ [v])
          else Ok (ip, ix, d)) ;;
      Ok (ip ++ [zlen ix], ix, d))
     = Ok (map (off f) (zrange 0 (c_rows A + 1)), map fst (cat f (c_rows A)), map snd (cat f (c_rows A)))).
  { apply res_of_returns.
    apply (returns_for (fun i st => st = (map (off f) (zrange 0 (i + 1)), map fst (cat f i), map snd (cat f i)))); [lia| | |].
    - reflexivity.
    - intros i st Hi ->. rewrite !get_ptr by (auto; lia). cbn [bind].
      rewrite (row_loop A i _ _ (fun st e => let '(ip, ix, d) := st in
         if slt tol (sabs (evalue e)) then Ok (ip, ix ++ [ecol e], d ++ [evalue e]) else Ok (ip, ix, d))); auto.
      2:{ intros k [[ip ix] d] Hk. apply position_bounds in Hk; auto. rewrite get_val by tauto. cbn [bind entry_at evalue ecol fst snd].
          destruct (slt tol (sabs (val A k))); [|reflexivity]. rewrite get_idx by (auto; tauto). reflexivity. }
      rewrite <- row_of_entries. unfold row_to_entries. rewrite foldM_map. cbn [ecol evalue fst snd].
      assert (G : forall l ip ix d, foldM (fun (st : list Z * list Z * list T) (p : Z * T) => let '(ip, ix, d) := st in
         if slt tol (sabs (snd p)) then Ok (ip, ix ++ [fst p], d ++ [snd p]) else Ok (ip, ix, d)) l (ip, ix, d)
         = Ok (ip, ix ++ map fst (filter (fun p => slt tol (sabs (snd p))) l), d ++ map snd (filter (fun p => slt tol (sabs (snd p))) l))).
      { induction l as [|p l IH]; intros ip ix d; cbn [foldM filter map].
        - now rewrite !app_nil_r.
        - destruct (slt tol (sabs (snd p))); cbn [bind]; rewrite IH; cbn [map]; now rewrite <- ?app_assoc. }
      rewrite G. cbn [bind returns]. change (filter (fun p => slt tol (sabs (snd p))) (row_of A i)) with (f i).
      rewrite <- !map_app, <- cat_succ by lia. f_equal. f_equal.
      replace (i + 1 + 1) with (i + 1 + 1) by lia. rewrite (zrange_snoc 0 (i + 1 + 1)) by lia.
      replace (i + 1 + 1 - 1) with (i + 1) by lia. rewrite map_app. f_equal. cbn. f_equal. now rewrite zlen_map.
    - intros st ->. reflexivity. }
  rewrite E. reflexivity.
Qed.

Lemma filter_flat_map_rows {X Y} (p : Y -> bool) (h : X -> list Y) l :
  filter p (flat_map h l) = flat_map (fun x => filter p (h x)) l.
Proof. apply filter_flat_map. Qed.

Lemma sp_elim_zeros_spec A tol :
  csr_valid A ->
  exists B, sp_elim_zeros A tol = Ok B /\ csr_valid B /\ c_rows B = c_rows A /\ c_cols B = c_cols A /\
    entries B = filter (fun e => slt tol (sabs (evalue e))) (entries A).
Proof.
  intros V. eexists. split; [now apply sp_elim_zeros_rows|]. split; [|split; [reflexivity|split; [reflexivity|]]].
  - apply csr_of_rows_valid; [apply (cv_rows V)|apply (cv_cols V)|]. intros i [c v] Hi Hp. unfold nonzero_row in Hp.
    apply filter_In in Hp. destruct Hp as (Hp & _).
    assert (H : In (i, c, v) (entries A)) by (apply In_row_of; auto).
    pose proof (entries_in_shape A V) as Sh. unfold in_shape in Sh. rewrite Forall_forall in Sh. apply Sh in H. cbn in H. cbn. tauto.
  - rewrite csr_of_rows_entries. unfold entries. rewrite filter_flat_map. apply flat_map_ext_in. intros i Hi.
    rewrite <- row_of_entries. unfold nonzero_row, row_to_entries. rewrite filter_map. reflexivity.
Qed.

(** ** ToDense *)

Lemma sp_to_dense_into_exact A out :
  csr_valid A ->
  exists D, sp_to_dense_into A out = Ok D /\ dense_ok D /\ d_rows D = c_rows A /\ d_cols D = c_cols A /\
    forall i j, 0 <= i < c_rows A -> 0 <= j < c_cols A ->
      dense_mat D i j = fold_left (fun _ e => evalue e) (filter (at_pos i j) (entries A)) s0.
Proof.
  intros V. pose proof (cv_rows V). pose proof (cv_cols V). unfold sp_to_dense_into.
  destruct (d_set_size_ok out (c_rows A) (c_cols A)) as (O & -> & HO & Er & Ec & _); auto. cbn [bind].
  rewrite (for_entries_entries A _ _ (fun D e => d_set D (erow e) (ecol e) (evalue e))); auto.
  2:{ intros i k D Hk. apply position_bounds in Hk; auto. rewrite get_idx, get_val by (auto; tauto). reflexivity. }
  pose proof (entries_in_shape A V) as Sh. unfold in_shape in Sh. rewrite Forall_forall in Sh.
  destruct (dense_scatter erow ecol (fun _ e => evalue e) (fun D e => d_set D (erow e) (ecol e) (evalue e)) (entries A) (d_fill O s0))
    as (D & E & HD & Hr & Hc & Hv).
  - now apply d_fill_ok.
  - intros e He. cbn. rewrite Er, Ec. now apply Sh.
  - intros e D He HD Hr Hc. cbn in Hr, Hc. apply Sh in He. apply d_set_ok; auto; rewrite ?Hr, ?Hc, ?Er, ?Ec; tauto.
  - cbn in Hr, Hc, Hv. exists D. split; [exact E|]. split; [exact HD|]. split; [lia|]. split; [lia|].
    intros i j Hi Hj. rewrite Hv by lia. rewrite d_fill_mat by (auto; lia). reflexivity.
Qed.

Lemma sp_transpose_dense_into_exact A out :
  csr_valid A ->
  exists D, sp_transpose_dense_into A out = Ok D /\ dense_ok D /\ d_rows D = c_cols A /\ d_cols D = c_rows A /\
    forall i j, 0 <= i < c_rows A -> 0 <= j < c_cols A ->
      dense_mat D j i = fold_left (fun _ e => evalue e) (filter (at_pos i j) (entries A)) s0.
Proof.
  intros V. pose proof (cv_rows V). pose proof (cv_cols V). unfold sp_transpose_dense_into.
  destruct (d_set_size_ok out (c_cols A) (c_rows A)) as (O & -> & HO & Er & Ec & _); auto. cbn [bind].
  rewrite (for_entries_entries A _ _ (fun D e => d_set D (ecol e) (erow e) (evalue e))); auto.
  2:{ intros i k D Hk. apply position_bounds in Hk; auto. rewrite get_idx, get_val by (auto; tauto). reflexivity. }
  pose proof (entries_in_shape A V) as Sh. unfold in_shape in Sh. rewrite Forall_forall in Sh.
  destruct (dense_scatter ecol erow (fun _ e => evalue e) (fun D e => d_set D (ecol e) (erow e) (evalue e)) (entries A) (d_fill O s0))
    as (D & E & HD & Hr & Hc & Hv).
  - now apply d_fill_ok.
  - intros e He. cbn. rewrite Er, Ec. apply Sh in He. tauto.
  - intros e D He HD Hr Hc. cbn in Hr, Hc. apply Sh in He. apply d_set_ok; auto; rewrite ?Hr, ?Hc, ?Er, ?Ec; tauto.
  - cbn in Hr, Hc, Hv. exists D. split; [exact E|]. split; [exact HD|]. split; [lia|]. split; [lia|].
    intros i j Hi Hj. rewrite Hv by lia. rewrite d_fill_mat by (auto; lia).
    f_equal. apply filter_ext. intros e. unfold at_pos. apply andb_comm.
Qed.

Lemma sp_to_dense_exact A :
  csr_valid A ->
  exists D, sp_to_dense A = Ok D /\ dense_ok D /\ d_rows D = c_rows A /\ d_cols D = c_cols A /\
    forall i j, 0 <= i < c_rows A -> 0 <= j < c_cols A ->
      dense_mat D i j = fold_left (fun _ e => evalue e) (filter (at_pos i j) (entries A)) s0.
Proof.
  intros V. unfold sp_to_dense. destruct (@d_zeros_ok S (c_rows A) (c_cols A)) as (O & -> & _); try apply V.
  cbn [bind]. now apply sp_to_dense_into_exact.
Qed.

End TwoState.

(** ** Sparse times dense *)

Section SparseDense.
Context {S : scalar}.
Notation T := (car S).
Implicit Types (A : csr S) (X : dense S).

Definition dcol X (k : Z) : Z -> T := fun j => dense_mat X j k.
Definition dot_fun (x : Z -> T) (v : T) (e : entry S) : T := sadd v (smul (evalue e) (x (ecol e))).
Definition dot_fun_row (x : Z -> T) (v : T) (e : entry S) : T := sadd v (smul (evalue e) (x (erow e))).

Lemma dense_row_loop A X i k :
  csr_valid A -> dense_ok X -> d_rows X = c_cols A -> 0 <= i < c_rows A -> 0 <= k < d_cols X ->
  for_ (ptr A i) (ptr A (i + 1)) s0 (fun j v =>
     c <- get (c_idx A) j ;; a <- get (c_val A) j ;; x <- d_get X c k ;; Ok (sadd v (smul a x)))
  = Ok (fold_left (dot_fun (dcol X k)) (row_entries A i) s0).
Proof.
  intros V HX Hr Hi Hk. rewrite (row_loop A i s0 _ (fun v e => Ok (dot_fun (dcol X k) v e))); auto.
  - apply foldM_pure.
  - intros p v Hp. apply position_bounds in Hp; auto. rewrite get_idx, get_val by (auto; tauto). cbn [bind].
    pose proof (idx_bounds A p V ltac:(tauto)). rewrite d_get_ok by (auto; lia). reflexivity.
Qed.

Lemma sp_mult_dense_exact A X out :
  csr_valid A -> dense_ok X -> d_rows X = c_cols A ->
  exists D, sp_mult_dense A X out = Ok D /\ dense_ok D /\ d_rows D = c_rows A /\ d_cols D = d_cols X /\
    forall i k, 0 <= i < c_rows A -> 0 <= k < d_cols X ->
      dense_mat D i k = fold_left (dot_fun (dcol X k)) (row_entries A i) s0.
Proof.
  intros V HX Hr. pose proof (cv_rows V). pose proof HX as (_ & Hc & _). unfold sp_mult_dense. rewrite Hr, Z.eqb_refl. cbn [assert_ bind].
  destruct (d_set_size_ok out (c_rows A) (d_cols X)) as (O & -> & HO & Er & Ec & _); auto. cbn [bind].
  destruct (dense_all (fun _ p => fold_left (dot_fun (dcol X (snd p))) (row_entries A (fst p)) s0)
    (fun i k out => lo <- get (c_ptr A) i ;; hi <- get (c_ptr A) (i + 1) ;;
      v <- for_ lo hi s0 (fun j v =>
             c <- get (c_idx A) j ;; a <- get (c_val A) j ;; x <- d_get X c k ;;
             Ok (sadd v (smul a x))) ;;
      d_set out i k v) (d_fill O s0)) as (D & E & HD & Hr' & Hc' & Hv).
  - now apply d_fill_ok.
  - intros i k E Hi Hk HE Hr' Hc'. cbn in *. rewrite !get_ptr by (auto; lia). cbn [bind].
    rewrite dense_row_loop by (auto; lia). cbn [bind]. apply d_set_ok; auto; lia.
  - cbn in Hr', Hc', Hv, E. rewrite Er, Ec in E. exists D. split; [exact E|]. split; [exact HD|].
    split; [lia|]. split; [lia|]. intros i k Hi Hk. apply Hv; lia.
Qed.

Lemma sp_multCT_dense_exact A X out :
  csr_valid A -> dense_ok X -> d_rows X = c_cols A ->
  exists D, sp_multCT_dense A X out = Ok D /\ dense_ok D /\ d_rows D = d_cols X /\ d_cols D = c_rows A /\
    forall i k, 0 <= i < c_rows A -> 0 <= k < d_cols X ->
      dense_mat D k i = fold_left (dot_fun (dcol X k)) (row_entries A i) s0.
Proof.
  intros V HX Hr. pose proof (cv_rows V). pose proof HX as (_ & Hc & _). unfold sp_multCT_dense. rewrite Hr, Z.eqb_refl. cbn [assert_ bind].
  destruct (d_set_size_ok out (d_cols X) (c_rows A)) as (O & -> & HO & Er & Ec & _); auto. cbn [bind].
  rewrite for_pairs.
  destruct (dense_scatter snd fst (fun _ p => fold_left (dot_fun (dcol X (snd p))) (row_entries A (fst p)) s0)
    (fun out p => lo <- get (c_ptr A) (fst p) ;; hi <- get (c_ptr A) (fst p + 1) ;;
      v <- for_ lo hi s0 (fun j v =>
             c <- get (c_idx A) j ;; a <- get (c_val A) j ;; x <- d_get X c (snd p) ;;
             Ok (sadd v (smul a x))) ;;
      d_set out (snd p) (fst p) v) (pairs (c_rows A) (d_cols X)) (d_fill O s0)) as (D & E & HD & Hr' & Hc' & Hv).
  - now apply d_fill_ok.
  - intros [i k] Hp. apply In_pairs in Hp. cbn. lia.
  - intros [i k] E Hp HE Hr' Hc'. apply In_pairs in Hp. cbn [fst snd d_fill d_rows d_cols] in *. rewrite !get_ptr by (auto; lia). cbn [bind].
    rewrite dense_row_loop by (auto; lia). cbn [bind]. apply d_set_ok; auto; lia.
  - cbn in Hr', Hc'. exists D. split; [exact E|]. split; [exact HD|].
    split; [lia|]. split; [lia|]. intros i k Hi Hk. rewrite Hv by (cbn; lia).
    rewrite (filter_ext _ (fun p => (fst p =? i) && (snd p =? k))) by (intros; apply andb_comm).
    rewrite filter_pairs. replace ((0 <=? i) && (i <? c_rows A) && ((0 <=? k) && (k <? d_cols X))) with true by lia. reflexivity.
Qed.

Lemma sp_multAT_dense_exact A X out :
  csr_valid A -> dense_ok X -> d_rows X = c_rows A ->
  exists D, sp_multAT_dense A X out = Ok D /\ dense_ok D /\ d_rows D = c_cols A /\ d_cols D = d_cols X /\
    forall j k, 0 <= j < c_cols A -> 0 <= k < d_cols X ->
      dense_mat D j k = fold_left (dot_fun_row (dcol X k)) (filter (fun e => ecol e =? j) (entries A)) s0.
Proof.
  intros V HX Hr. pose proof (cv_rows V). pose proof (cv_cols V). pose proof HX as (_ & Hc & _). unfold sp_multAT_dense. rewrite Hr, Z.eqb_refl. cbn [assert_ bind].
  destruct (d_set_size_ok out (c_cols A) (d_cols X)) as (O & -> & HO & Er & Ec & _); auto. cbn [bind].
  pose proof (entries_in_shape A V) as Sh. unfold in_shape in Sh. rewrite Forall_forall in Sh.
  set (L := flat_map (fun k => map (fun e => (k, e)) (entries A)) (zrange 0 (d_cols X))).
  set (body := fun (out : dense S) (p : Z * entry S) => x <- d_get X (erow (snd p)) (fst p) ;;
     d_mod out (ecol (snd p)) (fst p) (fun o => sadd o (smul (evalue (snd p)) x))).
  assert (E0 : for_ 0 (d_cols X) (d_fill O s0) (fun k out =>
    for_entries (c_rows A) (c_ptr A) out (fun i j out =>
      c <- get (c_idx A) j ;; a <- get (c_val A) j ;; x <- d_get X i k ;;
      d_mod out c k (fun o => sadd o (smul a x)))) = foldM body L (d_fill O s0)).
  { unfold L, for_. apply foldM_flat_map2. intros s k Hk.
    rewrite (for_entries_entries A _ _ (fun s e => body s (k, e))); auto.
    - now rewrite foldM_map.
    - intros i p s' Hp. apply position_bounds in Hp; auto. rewrite get_idx, get_val by (auto; tauto). reflexivity. }
  rewrite E0. clear E0.
  destruct (dense_scatter (fun p => ecol (snd p)) fst (fun v p => dot_fun_row (dcol X (fst p)) v (snd p)) body L (d_fill O s0))
    as (D & E & HD & Hr' & Hc' & Hv).
  - now apply d_fill_ok.
  - intros [k e] Hp. unfold L in Hp. apply in_flat_map in Hp. destruct Hp as (k' & Hk & Hp). apply in_map_iff in Hp.
    destruct Hp as (e' & Eq & He). injection Eq as -> ->. apply In_zrange in Hk. apply Sh in He. cbn. lia.
  - intros [k e] E Hp HE Hr' Hc'. unfold L in Hp. apply in_flat_map in Hp. destruct Hp as (k' & Hk & Hp). apply in_map_iff in Hp.
    destruct Hp as (e' & Eq & He). injection Eq as -> ->. apply In_zrange in Hk. apply Sh in He. cbn [d_fill d_rows d_cols] in *.
    unfold body. cbn [fst snd]. rewrite d_get_ok by (auto; lia). cbn [bind]. rewrite d_mod_ok by (auto; lia). reflexivity.
  - cbn in Hr', Hc'. exists D. split; [exact E|]. split; [exact HD|]. split; [lia|]. split; [lia|].
    intros j k Hj Hk. rewrite Hv by (cbn; lia). rewrite d_fill_mat by (auto; lia).
    unfold L. rewrite filter_flat_map. rewrite (flat_map_single _ (fun x : Z * entry S => x) 0 (d_cols X) k Hk).
    + rewrite filter_map. cbn [fst snd]. rewrite fold_left_map. cbn [fst snd].
      f_equal. apply filter_ext. intros e. now rewrite Z.eqb_refl, andb_true_r.
    + intros k' Hk' Hne. apply filter_none. intros [k'' e] Hp. apply in_map_iff in Hp. destruct Hp as (e' & Eq & _).
      injection Eq as -> ->. cbn. destruct (Z.eqb_spec k'' k); [lia|]. apply andb_false_r.
Qed.

End SparseDense.

(** ** The represented matrices (exact arithmetic) *)

Section Ring.
Context {S : scalar}.
Notation T := (car S).
Hypothesis R : ring_laws S.
Let Rth : ring_theory (@s0 S) s1 sadd smul ssub sopp (@eq (car S)) := R.
Add Ring rSM : Rth.
Implicit Types (A B : csr S) (X : dense S).

Lemma dot_fun_mat A x i : csr_valid A -> 0 <= i < c_rows A ->
  fold_left (dot_fun x) (row_entries A i) s0 = sum_range 0 (c_cols A) (fun j => smul (csr_mat A i j) (x j)).
Proof.
  intros V Hi. unfold dot_fun. rewrite fold_left_sum_map by exact R. rewrite sadd_0_l by exact R.
  rewrite <- filter_row_entries by auto. apply sum_entries_row_filter; [exact R|].
  intros e He _. pose proof (entries_in_shape A V) as Sh. unfold in_shape in Sh.
  rewrite Forall_forall in Sh. apply Sh in He. tauto.
Qed.

Lemma dot_fun_row_mat A x j : csr_valid A -> 0 <= j < c_cols A ->
  fold_left (dot_fun_row x) (filter (fun e => ecol e =? j) (entries A)) s0
  = sum_range 0 (c_rows A) (fun i => smul (csr_mat A i j) (x i)).
Proof.
  intros V Hj. unfold dot_fun_row. rewrite fold_left_sum_map by exact R. rewrite sadd_0_l by exact R.
  rewrite sum_filter by exact R.
  pose proof (entries_in_shape A V) as Sh. unfold in_shape in Sh. rewrite Forall_forall in Sh.
  rewrite (sum_range_ext 0 (c_rows A) _ (fun i => smul (mat_of (map swap_entry (entries A)) j i) (x i))).
  2:{ intros i _. unfold csr_mat. now rewrite mat_of_swap. }
  rewrite <- sum_entries_row; [|exact R|].
  - rewrite map_map. reflexivity.
  - intros e He _. apply in_map_iff in He. destruct He as (e' & <- & He). apply Sh in He. cbn. tauto.
Qed.

Lemma sp_mult_dense_spec A X out :
  csr_valid A -> dense_ok X -> d_rows X = c_cols A ->
  exists D, sp_mult_dense A X out = Ok D /\ dense_ok D /\ d_rows D = c_rows A /\ d_cols D = d_cols X /\
    forall i k, 0 <= i < c_rows A -> 0 <= k < d_cols X ->
      dense_mat D i k = mat_mul (csr_mat A) (dense_mat X) (c_cols A) i k.
Proof.
  intros V HX Hr. destruct (sp_mult_dense_exact A X out V HX Hr) as (D & E & HD & Er & Ec & Hv).
  exists D. do 4 (split; [assumption|]). intros i k Hi Hk. rewrite Hv by assumption. now apply dot_fun_mat.
Qed.

Lemma sp_multCT_dense_spec A X out :
  csr_valid A -> dense_ok X -> d_rows X = c_cols A ->
  exists D, sp_multCT_dense A X out = Ok D /\ dense_ok D /\ d_rows D = d_cols X /\ d_cols D = c_rows A /\
    forall i k, 0 <= i < c_rows A -> 0 <= k < d_cols X ->
      dense_mat D k i = mat_mul (csr_mat A) (dense_mat X) (c_cols A) i k.
Proof.
  intros V HX Hr. destruct (sp_multCT_dense_exact A X out V HX Hr) as (D & E & HD & Er & Ec & Hv).
  exists D. do 4 (split; [assumption|]). intros i k Hi Hk. rewrite Hv by assumption. now apply dot_fun_mat.
Qed.

Lemma sp_multAT_dense_spec A X out :
  csr_valid A -> dense_ok X -> d_rows X = c_rows A ->
  exists D, sp_multAT_dense A X out = Ok D /\ dense_ok D /\ d_rows D = c_cols A /\ d_cols D = d_cols X /\
    forall j k, 0 <= j < c_cols A -> 0 <= k < d_cols X ->
      dense_mat D j k = mat_mul (mat_T (csr_mat A)) (dense_mat X) (c_rows A) j k.
Proof.
  intros V HX Hr. destruct (sp_multAT_dense_exact A X out V HX Hr) as (D & E & HD & Er & Ec & Hv).
  exists D. do 4 (split; [assumption|]). intros j k Hj Hk. rewrite Hv by assumption. now apply dot_fun_row_mat.
Qed.

(** last stored value = represented value when no coordinate is stored twice *)
Lemma last_value (l : list (entry S)) i j :
  no_dup_coords l -> fold_left (fun _ e => evalue e) (filter (at_pos i j) l) s0 = mat_of l i j.
Proof.
  intros ND. destruct (stored_dec l i j) as [(v & Hv)|Hn].
  - rewrite (filter_no_dup l i j v ND Hv), (mat_of_no_dup R l i j v ND Hv). reflexivity.
  - rewrite (mat_of_not_stored l i j Hn). rewrite filter_none; [reflexivity|].
    intros [[r c] v] Hv. unfold at_pos. cbn. destruct (Z.eqb_spec r i), (Z.eqb_spec c j); auto. subst. exfalso. eauto.
Qed.

Lemma sp_get_diag_spec A :
  csr_valid A -> c_rows A = c_cols A -> no_dup_coords (entries A) ->
  exists d, sp_get_diag A = Ok d /\ zlen d = c_rows A /\
    forall i, 0 <= i < c_rows A -> vec_of d i = csr_mat A i i.
Proof.
  intros V Hs ND. eexists. split; [now apply sp_get_diag_exact|]. pose proof (cv_rows V).
  split; [apply zlen_map_zrange; lia|]. intros i Hi. unfold vec_of. rewrite zn_map_zrange by exact Hi. now apply last_value.
Qed.

Lemma sp_to_dense_spec A :
  csr_valid A -> no_dup_coords (entries A) ->
  exists D, sp_to_dense A = Ok D /\ dense_ok D /\ d_rows D = c_rows A /\ d_cols D = c_cols A /\
    forall i j, 0 <= i < c_rows A -> 0 <= j < c_cols A -> dense_mat D i j = csr_mat A i j.
Proof.
  intros V ND. destruct (sp_to_dense_exact A V) as (D & E & HD & Er & Ec & Hv). exists D.
  do 4 (split; [assumption|]). intros i j Hi Hj. rewrite Hv by assumption. now apply last_value.
Qed.

Lemma sp_to_dense_into_spec A out :
  csr_valid A -> no_dup_coords (entries A) ->
  exists D, sp_to_dense_into A out = Ok D /\ dense_ok D /\ d_rows D = c_rows A /\ d_cols D = c_cols A /\
    forall i j, 0 <= i < c_rows A -> 0 <= j < c_cols A -> dense_mat D i j = csr_mat A i j.
Proof.
  intros V ND. destruct (sp_to_dense_into_exact A out V) as (D & E & HD & Er & Ec & Hv). exists D.
  do 4 (split; [assumption|]). intros i j Hi Hj. rewrite Hv by assumption. now apply last_value.
Qed.

Lemma sp_transpose_dense_into_spec A out :
  csr_valid A -> no_dup_coords (entries A) ->
  exists D, sp_transpose_dense_into A out = Ok D /\ dense_ok D /\ d_rows D = c_cols A /\ d_cols D = c_rows A /\
    forall i j, 0 <= i < c_rows A -> 0 <= j < c_cols A -> dense_mat D j i = csr_mat A i j.
Proof.
  intros V ND. destruct (sp_transpose_dense_into_exact A out V) as (D & E & HD & Er & Ec & Hv). exists D.
  do 4 (split; [assumption|]). intros i j Hi Hj. rewrite Hv by assumption. now apply last_value.
Qed.

(** PermuteCols *)
Lemma mat_of_move_cols perm (l : list (entry S)) i k n :
  (forall e, In e l -> 0 <= ecol e < n) ->
  mat_of (move_cols perm l) i k = sum_range 0 n (fun j => if zn 0 perm j =? k then mat_of l i j else s0).
Proof.
  intros Hc. induction l as [|e l IH].
  - transitivity (@s0 S); [reflexivity|]. symmetry. apply sum_range_0; [exact R|]. intros j _. rewrite mat_of_nil. now destruct (_ =? _).
  - change (move_cols perm (e :: l)) with (((erow e, zn 0 perm (ecol e), evalue e) : entry S) :: move_cols perm l).
    rewrite (mat_of_cons R). rewrite IH by (intros; apply Hc; right; assumption).
    rewrite (sum_range_ext 0 n (fun j => if zn 0 perm j =? k then mat_of (e :: l) i j else s0)
      (fun j => sadd (if j =? ecol e then (if (erow e =? i) && (zn 0 perm j =? k) then evalue e else s0) else s0)
                     (if zn 0 perm j =? k then mat_of l i j else s0))).
    + rewrite sum_range_add by exact R. f_equal.
      rewrite (sum_range_delta R 0 n (ecol e) (fun j => if (erow e =? i) && (zn 0 perm j =? k) then evalue e else s0)).
      * unfold at_pos. cbn. reflexivity.
      * apply Hc. left; reflexivity.
    + intros j Hj. rewrite mat_of_cons by exact R. unfold at_pos. rewrite (Z.eqb_sym (ecol e) j).
      destruct (Z.eqb_spec j (ecol e)) as [->|], (erow e =? i), (zn 0 perm _ =? k); cbn; ring.
Qed.

Lemma sp_permute_cols_spec A perm :
  csr_valid A -> zlen perm = c_cols A -> (forall j, 0 <= j < c_cols A -> 0 <= zn 0 perm j < c_cols A) ->
  exists B, sp_permute_cols A perm = Ok B /\ csr_valid B /\ c_rows B = c_rows A /\ c_cols B = c_cols A /\
    (forall i k, csr_mat B i k = sum_range 0 (c_cols A) (fun j => if zn 0 perm j =? k then csr_mat A i j else s0)) /\
    (NoDup perm -> forall i j, 0 <= j < c_cols A -> csr_mat B i (zn 0 perm j) = csr_mat A i j).
Proof.
  intros V Hl Hp. destruct (sp_permute_cols_exact A perm V Hl Hp) as (B & E & VB & H1 & H2 & _ & _ & HE).
  exists B. do 4 (split; [assumption|]).
  assert (G : forall i k, csr_mat B i k = sum_range 0 (c_cols A) (fun j => if zn 0 perm j =? k then csr_mat A i j else s0)).
  { intros i k. unfold csr_mat. rewrite HE. apply mat_of_move_cols. intros e He.
    pose proof (entries_in_shape A V) as Sh. unfold in_shape in Sh. rewrite Forall_forall in Sh. apply Sh in He. tauto. }
  split; [exact G|]. intros ND i j Hj. rewrite G.
  rewrite (sum_range_ext 0 (c_cols A) _ (fun j' => if j' =? j then csr_mat A i j' else s0)).
  - now apply sum_range_delta.
  - intros j' Hj'. destruct (Z.eqb_spec j' j) as [->|Hne]; [now rewrite Z.eqb_refl|].
    destruct (Z.eqb_spec (zn 0 perm j') (zn 0 perm j)) as [Eq|]; [|reflexivity]. exfalso. apply Hne.
    rewrite (NoDup_nth perm 0) in ND. unfold zn in Eq. apply ND in Eq; unfold zlen in Hl; lia.
Qed.

(** EliminateZeros *)
Lemma sp_elim_zeros_mat A B tol :
  csr_valid A -> sp_elim_zeros A tol = Ok B ->
  (forall v : T, slt tol (sabs v) = false -> v = s0) ->
  forall i j, csr_mat B i j = csr_mat A i j.
Proof.
  intros V E Ht i j. destruct (sp_elim_zeros_spec A tol V) as (B' & E' & _ & _ & _ & HE).
  rewrite E in E'. injection E' as <-. unfold csr_mat. rewrite HE. clear HE E.
  induction (entries A) as [|e l IH]; [reflexivity|]. cbn [filter]. rewrite (mat_of_cons R e l).
  destruct (slt tol (sabs (evalue e))) eqn:Et.
  - rewrite mat_of_cons by exact R. now rewrite IH.
  - rewrite IH. rewrite (Ht _ Et). destruct (at_pos i j e); ring.
Qed.

(** EliminateCol(marker, x, b) *)
Lemma sp_elim_col_bc_spec A marker x b :
  eqb_laws S -> csr_valid A -> c_cols A <= zlen marker -> zlen x = c_cols A -> zlen b = c_rows A ->
  exists B b', sp_elim_col_bc A marker x b = Ok (B, b') /\ csr_valid B /\ same_pattern A B /\ zlen b' = c_rows A /\
    (forall i j, csr_mat B i j = if zn false marker j then s0 else csr_mat A i j) /\
    (forall y i, 0 <= i < c_rows A -> (forall j, 0 <= j < c_cols A -> zn false marker j = true -> y j = vec_of x j) ->
      ssub (vec_of b' i) (mat_vec (csr_mat B) (c_cols A) y i) = ssub (vec_of b i) (mat_vec (csr_mat A) (c_cols A) y i)).
Proof.
  intros HQ V Hm Hx Hb. destruct (sp_elim_col_bc_exact A marker x b V Hm Hx Hb) as (B & b' & E & VB & P & HE & Hl & Hv).
  exists B, b'. do 4 (split; [assumption|]).
  assert (HZ : forall v : T, (if seqb v s0 then v else s0) = s0).
  { intros v. destruct (seqb v s0) eqn:Q; [now apply HQ|reflexivity]. }
  split.
  - intros i j. unfold csr_mat. rewrite HE.
    rewrite (mat_of_values_add R (fun _ j v => if zn false marker j && negb (seqb v s0) then s0 else v)).
    + destruct (zn false marker j); cbn; [|reflexivity]. pose proof (HZ (mat_of (entries A) i j)) as H.
      now destruct (seqb (mat_of (entries A) i j) s0).
    + now destruct (_ && _).
    + intros u w. destruct (zn false marker j); cbn; [|reflexivity].
      pose proof (HZ u) as Hu. pose proof (HZ w) as Hw. pose proof (HZ (sadd u w)) as Huw.
      destruct (seqb u s0), (seqb w s0), (seqb (sadd u w) s0); cbn; subst; rewrite ?Huw; ring.
  - intros y i Hi Hy. change (vec_of b' i) with (zn s0 b' i). change (vec_of b i) with (zn s0 b i). rewrite Hv by exact Hi.
    assert (SB : mat_vec (csr_mat B) (c_cols A) y i = fold_left (dot_fun y) (row_entries B i) s0).
    { rewrite dot_fun_mat by (auto; destruct P as (-> & _); exact Hi). destruct P as (_ & -> & _). reflexivity. }
    assert (SA : mat_vec (csr_mat A) (c_cols A) y i = fold_left (dot_fun y) (row_entries A i) s0).
    { rewrite dot_fun_mat by auto. reflexivity. }
    assert (RB : row_entries B i = map_values (fun _ j v => if zn false marker j && negb (seqb v s0) then s0 else v) (row_entries A i)).
    { rewrite <- !filter_row_entries by (auto; destruct P as (-> & _); exact Hi). rewrite HE. unfold map_values.
      rewrite filter_map. reflexivity. }
    rewrite SA, SB, RB. clear SA SB RB.
    assert (Hc : forall e, In e (row_entries A i) -> 0 <= ecol e < c_cols A).
    { intros e He. rewrite <- filter_row_entries in He by auto. apply filter_In in He.
      pose proof (entries_in_shape A V) as Sh. unfold in_shape in Sh. rewrite Forall_forall in Sh.
      destruct He as (He & _). apply Sh in He. tauto. }
    clear Hv. unfold map_values. rewrite fold_left_map. unfold dot_fun. cbn [ecol evalue erow fst snd].
    rewrite !fold_left_sum_map by exact R.
    generalize (zn s0 b i). induction (row_entries A i) as [|e l IH]; intros c; [cbn; ring|].
    cbn [fold_left map]. rewrite !sum_cons. specialize (IH ltac:(intros; apply Hc; right; assumption)).
    unfold bc_step at 2. unfold bc_hit.
    destruct (zn false marker (ecol e)) eqn:Em; cbn [andb].
    + destruct (seqb (evalue e) s0) eqn:Eq; cbn [negb].
      * apply HQ in Eq. rewrite Eq. specialize (IH c).
        transitivity (ssub (fold_left (bc_step marker x) l c) (sadd s0 (sum_list (map (fun x0 : entry S => smul (if zn false marker (ecol x0) && negb (seqb (evalue x0) s0) then s0 else evalue x0) (y (ecol x0))) l)))); [ring|].
        rewrite IH. ring.
      * specialize (IH (ssub c (smul (evalue e) (vec_of x (ecol e))))).
        rewrite (Hy (ecol e)) by (auto; apply Hc; left; reflexivity).
        transitivity (ssub (fold_left (bc_step marker x) l (ssub c (smul (evalue e) (vec_of x (ecol e))))) (sadd s0 (sum_list (map (fun x0 : entry S => smul (if zn false marker (ecol x0) && negb (seqb (evalue x0) s0) then s0 else evalue x0) (y (ecol x0))) l)))); [ring|].
        rewrite IH. ring.
    + specialize (IH c).
      transitivity (ssub (ssub (fold_left (bc_step marker x) l c) (sadd s0 (sum_list (map (fun x0 : entry S => smul (if zn false marker (ecol x0) && negb (seqb (evalue x0) s0) then s0 else evalue x0) (y (ecol x0))) l)))) (smul (evalue e) (y (ecol e)))); [ring|].
      rewrite IH. ring.
Qed.

End Ring.

(** ** Diagonal matrices *)

Section Diag.
Context {S : scalar}.
Notation T := (car S).
Implicit Types (d : list T).

Lemma sp_diag_rows d : sp_diag d = csr_of_rows (zlen d) (zlen d) (fun i => [(i, vec_of d i)]).
Proof.
  set (n := zlen d). assert (Hn : 0 <= n) by apply zlen_nonneg.
  assert (HC : cat (fun i => [(i, vec_of d i)]) n = map (fun i => (i, vec_of d i)) (zrange 0 n)).
  { unfold cat. induction (zrange 0 n); cbn; [reflexivity|]. now rewrite IHl. }
  unfold sp_diag, csr_of_rows. fold n. rewrite HC, !map_map. cbn [fst snd].
  rewrite map_id. f_equal.
  - rewrite <- (map_id (zrange 0 (n + 1))) at 1. apply map_ext_in. intros i Hi. apply In_zrange in Hi.
    unfold off, cat. clear HC. destruct Hi as (Hi & _). pattern i. apply Zlt_0_ind; [|exact Hi].
    intros x IH Hx. destruct (Z.eq_dec x 0) as [->|]; [reflexivity|].
    rewrite zrange_snoc by lia. rewrite flat_map_app, zlen_app, <- IH by lia. cbn. rewrite zlen_cons, zlen_nil. lia.
  - unfold vec_of. symmetry. apply map_zn_zrange.
Qed.

Lemma sp_diag_valid d : csr_valid (sp_diag d).
Proof.
  rewrite sp_diag_rows. apply csr_of_rows_valid; try apply zlen_nonneg.
  intros i p Hi [<-|[]]. exact Hi.
Qed.

Lemma sp_diag_mat (R : ring_laws S) d i j :
  csr_mat (sp_diag d) i j = if (0 <=? i) && (i <? zlen d) && (i =? j) then vec_of d i else s0.
Proof.
  unfold csr_mat. rewrite sp_diag_rows, csr_of_rows_entries. cbn [row_to_entries map fst snd].
  destruct (Z.leb_spec 0 i), (Z.ltb_spec i (zlen d)); cbn [andb].
  - unfold mat_of. rewrite filter_flat_map.
    rewrite (flat_map_single _ (fun x : entry S => x) 0 (zlen d) i) by
     (first [lia | intros k Hk Hne; apply filter_none; intros e [<-|[]]; unfold at_pos; cbn; destruct (Z.eqb_spec k i); [lia|reflexivity]]).
    cbn. unfold at_pos. cbn. rewrite Z.eqb_refl. cbn. destruct (i =? j); cbn; [apply (sadd_0_r R)|reflexivity].
  - apply mat_of_not_stored. intros (v & Hv). apply in_flat_map in Hv. destruct Hv as (k & Hk & [E|[]]).
    apply In_zrange in Hk. injection E as -> -> _. lia.
  - apply mat_of_not_stored. intros (v & Hv). apply in_flat_map in Hv. destruct Hv as (k & Hk & [E|[]]).
    apply In_zrange in Hk. injection E as -> -> _. lia.
  - apply mat_of_not_stored. intros (v & Hv). apply in_flat_map in Hv. destruct Hv as (k & Hk & [E|[]]).
    apply In_zrange in Hk. injection E as -> -> _. lia.
Qed.

(** Scaling with a diagonal matrix is the matrix product with it. *)
Lemma sp_scale_rows_diag (R : ring_laws S) (A : csr S) d : csr_valid A -> zlen d = c_rows A ->
  exists B, sp_scale_rows_mat A (sp_diag d) = Ok B /\ csr_valid B /\ same_pattern A B /\
  forall i j, csr_mat B i j = mat_mul (csr_mat (sp_diag d)) (csr_mat A) (c_rows A) i j.
Proof.
  intros V H. destruct (sp_scale_rows_mat_spec R A d V H) as (B & E & VB & P & HB). exists B.
  split; [exact E|]. split; [exact VB|]. split; [exact P|]. intros i j. rewrite HB. unfold mat_mul.
  destruct (Z.leb_spec 0 i), (Z.ltb_spec i (c_rows A)).
  - rewrite (sum_range_ext 0 (c_rows A) _ (fun k => if k =? i then smul (vec_of d i) (csr_mat A k j) else s0)).
    + rewrite (sum_range_delta R) by lia. apply smul_comm. exact R.
    + intros k Hk. rewrite (sp_diag_mat R). rewrite (Z.eqb_sym i k).
      replace ((0 <=? i) && (i <? zlen d)) with true by lia. cbn [andb].
      destruct (k =? i); [reflexivity|]. apply smul_0_l. exact R.
  - rewrite (sum_range_0 R).
    + unfold csr_mat. rewrite (mat_of_out R (c_rows A) (c_cols A)); [apply smul_0_l; exact R|now apply entries_in_shape|lia].
    + intros k Hk. rewrite (sp_diag_mat R). replace ((0 <=? i) && (i <? zlen d)) with false by lia. apply smul_0_l. exact R.
  - rewrite (sum_range_0 R).
    + unfold csr_mat. rewrite (mat_of_out R (c_rows A) (c_cols A)); [apply smul_0_l; exact R|now apply entries_in_shape|lia].
    + intros k Hk. rewrite (sp_diag_mat R). replace ((0 <=? i) && (i <? zlen d)) with false by lia. apply smul_0_l. exact R.
  - rewrite (sum_range_0 R).
    + unfold csr_mat. rewrite (mat_of_out R (c_rows A) (c_cols A)); [apply smul_0_l; exact R|now apply entries_in_shape|lia].
    + intros k Hk. rewrite (sp_diag_mat R). replace ((0 <=? i) && (i <? zlen d)) with false by lia. apply smul_0_l. exact R.
Qed.

Lemma sp_scale_cols_diag (R : ring_laws S) (A : csr S) d : csr_valid A -> zlen d = c_cols A ->
  exists B, sp_scale_cols_mat A (sp_diag d) = Ok B /\ csr_valid B /\ same_pattern A B /\
  forall i j, csr_mat B i j = mat_mul (csr_mat A) (csr_mat (sp_diag d)) (c_cols A) i j.
Proof.
  intros V H. destruct (sp_scale_cols_mat_spec R A d V H) as (B & E & VB & P & HB). exists B.
  split; [exact E|]. split; [exact VB|]. split; [exact P|]. intros i j. rewrite HB. unfold mat_mul.
  destruct ((0 <=? j) && (j <? c_cols A)) eqn:Ej.
  - rewrite (sum_range_ext 0 (c_cols A) _ (fun k => if k =? j then smul (csr_mat A i k) (vec_of d j) else s0)).
    + rewrite (sum_range_delta R) by lia. reflexivity.
    + intros k Hk. rewrite (sp_diag_mat R).
      replace ((0 <=? k) && (k <? zlen d)) with true by lia. cbn [andb].
      destruct (Z.eqb_spec k j); [now subst|]. apply smul_0_r. exact R.
  - rewrite (sum_range_0 R).
    + unfold csr_mat. rewrite (mat_of_out R (c_rows A) (c_cols A)); [apply smul_0_l; exact R|now apply entries_in_shape|lia].
    + intros k Hk. rewrite (sp_diag_mat R). destruct (Z.eqb_spec k j); [lia|]. rewrite andb_false_r. apply smul_0_r. exact R.
Qed.

(** EliminateZeros with the default tolerance 0 *)
Lemma sp_elim_zeros_default (A : csr S) :
  order_laws S -> abs_laws S -> csr_valid A ->
  exists B, sp_elim_zeros A s0 = Ok B /\ csr_valid B /\ c_rows B = c_rows A /\ c_cols B = c_cols A /\
    (forall e, In e (entries B) <-> In e (entries A) /\ evalue e <> s0) /\
    (ring_laws S -> forall i j, csr_mat B i j = csr_mat A i j).
Proof.
  intros HO HA V. destruct (sp_elim_zeros_spec A s0 V) as (B & E & VB & Hr & Hc & HE). exists B.
  assert (HZ : forall v : T, slt s0 (sabs v) = false <-> v = s0).
  { intros v. rewrite <- (sabs_zero S HA v). split.
    - intros Hv. symmetry. apply (slt_total S HO); [exact Hv|]. apply (sabs_nonneg S HA).
    - intros ->. apply (slt_irrefl S HO). }
  do 4 (split; [assumption|]). split.
  - intros e. rewrite HE, filter_In. rewrite <- (HZ (evalue e)). destruct (slt s0 (sabs (evalue e))); intuition congruence.
  - intros R. apply (sp_elim_zeros_mat R A B s0 V E). intros v. apply HZ.
Qed.

End Diag.
