(** SparseMatrix::SortIndices (include/sparsematrix.hpp:577-614). *)

From Coq Require Import ZArith List Lia Bool Permutation Sorted.
From Verif Require Import Base Scalar Spec Dense Sparse LoopFacts SumFacts CsrFacts Rows TransposeProofs.
Import ListNotations.
Open Scope Z_scope.

(** A comparator that compares integer keys is a strict weak order. *)
Lemma key_order (key : Z -> Z) : strict_weak_order (fun i j => key i <? key j).
Proof. constructor; intros; lia. Qed.

(** Insertion sort meets the contract of std::sort. *)
Fixpoint insert (cmp : Z -> Z -> bool) (a : Z) (l : list Z) : list Z :=
  match l with
  | [] => [a]
  | b :: l' => if cmp b a then b :: insert cmp a l' else a :: l
  end.
Definition insertion_sort : sorter := fun cmp l => fold_right (insert cmp) [] l.

Lemma insert_perm cmp a l : Permutation (a :: l) (insert cmp a l).
Proof.
  induction l as [|b l IH]; cbn; [reflexivity|]. destruct (cmp b a); [|reflexivity].
  rewrite <- IH. apply perm_swap.
Qed.

Lemma insert_sorted cmp a l : strict_weak_order cmp ->
  StronglySorted (fun a b => cmp b a = false) l -> StronglySorted (fun a b => cmp b a = false) (insert cmp a l).
Proof.
  intros W. induction l as [|b m IHm]; cbn; intros IH; [repeat constructor|].
  inversion IH as [|? ? Hs Hf]; subst. destruct (cmp b a) eqn:E.
  - constructor; [now apply IHm|]. rewrite Forall_forall in *. intros c Hc.
    eapply Permutation_in in Hc; [|symmetry; apply insert_perm]. destruct Hc as [<-|Hc]; [|now apply Hf].
    destruct (cmp a b) eqn:E'; [|reflexivity]. pose proof (swo_trans _ W _ _ _ E E') as H.
    now rewrite (swo_irrefl _ W) in H.
  - constructor; [constructor; assumption|]. constructor; [exact E|]. rewrite Forall_forall in *. intros c Hc.
    apply (swo_incomp _ W _ b); [now apply Hf|exact E].
Qed.

Lemma insertion_sort_sorts : sorts insertion_sort.
Proof.
  intros cmp l W. unfold insertion_sort. split; (induction l as [|a l IH]; cbn; [constructor|]).
  - rewrite <- insert_perm. now constructor.
  - now apply insert_sorted.
Qed.

Lemma firstn_app1 {X} (l1 l2 : list X) : firstn (length l1) (l1 ++ l2) = l1.
Proof. induction l1; cbn; [reflexivity|]. now rewrite IHl1. Qed.
Lemma skipn_app1 {X} (l1 l2 : list X) : skipn (length l1) (l1 ++ l2) = l2.
Proof. induction l1; cbn; auto. Qed.
Lemma skipn_app2 {X} (l1 l2 l3 : list X) : skipn (length l1 + length l2) (l1 ++ l2 ++ l3) = l3.
Proof. induction l1; cbn; auto. apply skipn_app1. Qed.

Section Sort.
Context {S : scalar}.
Notation T := (car S).
Implicit Types (A B : csr S).
Variable srt : sorter.
Hypothesis Hsrt : sorts srt.

Definition idx_lt A : Z -> Z -> bool := fun i j => zn 0 (c_idx A) i <? zn 0 (c_idx A) j.
(** positions of row i in sorted order *)
Definition sorted_pos A (i : Z) : list Z := srt (idx_lt A) (zrange (ptr A i) (ptr A (i + 1))).
Definition sorted_row A (i : Z) : list (Z * T) := map (fun k => (idx A k, val A k)) (sorted_pos A i).

Lemma sorted_pos_perm A i : Permutation (zrange (ptr A i) (ptr A (i + 1))) (sorted_pos A i).
Proof. apply (Hsrt (idx_lt A)), key_order. Qed.

Lemma sorted_row_perm A i : Permutation (row_of A i) (sorted_row A i).
Proof. unfold row_of, sorted_row. apply Permutation_map, sorted_pos_perm. Qed.

Lemma sorted_pos_off A i : csr_valid A -> 0 <= i <= c_rows A -> off (sorted_pos A) i = ptr A i.
Proof.
  intros V Hi. rewrite <- (row_of_off A i V Hi), <- (off_map (fun k => (idx A k, val A k)) (sorted_pos A)).
  apply off_ext. intros k Hk. unfold zlen. f_equal. symmetry. apply Permutation_length, sorted_row_perm.
Qed.

Lemma sort_loop A : csr_valid A ->
  for_ 0 (c_rows A) (zrange 0 (zlen (c_idx A))) (fun i p =>
         lo <- get (c_ptr A) i ;; hi <- get (c_ptr A) (i + 1) ;;
         sort_range srt (idx_lt A) p lo hi) = Ok (cat (sorted_pos A) (c_rows A)).
Proof.
  intros V. pose proof (cv_rows V).
  assert (Hn : zlen (c_idx A) = nnz A) by apply (cv_len V). rewrite Hn.
  apply res_of_returns.
  apply (returns_for (fun i p => p = cat (sorted_pos A) i ++ zrange (ptr A i) (nnz A))).
  - lia.
  - rewrite (cv_first V). reflexivity.
  - intros i p Hi ->. rewrite !get_ptr by (auto; lia). cbn [bind].
    pose proof (ptr_bounds A i V ltac:(lia)). pose proof (ptr_bounds A (i + 1) V ltac:(lia)).
    pose proof (cv_mono V i ltac:(lia)) as Hm.
    assert (Hc : zlen (cat (sorted_pos A) i) = ptr A i) by (apply sorted_pos_off; auto; lia).
    unfold sort_range. rewrite zlen_app, Hc, zlen_zrange by lia.
    replace (ptr A i + (nnz A - ptr A i)) with (nnz A) by lia.
    replace ((0 <=? ptr A i) && (ptr A i <=? ptr A (i + 1)) && (ptr A (i + 1) <=? nnz A)) with true by lia.
    apply returns_Ok. rewrite cat_succ by lia.
    assert (E1 : Z.to_nat (ptr A i) = length (cat (sorted_pos A) i)) by (unfold zlen in Hc; lia).
    rewrite (zrange_app (ptr A i) (ptr A (i + 1)) (nnz A)) by lia.
    assert (E2 : Z.to_nat (ptr A (i + 1) - ptr A i) = length (zrange (ptr A i) (ptr A (i + 1)))) by now rewrite zrange_length.
    assert (E3 : Z.to_nat (ptr A (i + 1)) = (length (cat (sorted_pos A) i) + length (zrange (ptr A i) (ptr A (i + 1))))%nat)
      by (rewrite zrange_length; lia).
    rewrite E2, E3, E1, firstn_app1, skipn_app1, firstn_app1, skipn_app2.
    rewrite <- !app_assoc. reflexivity.
  - intros p ->. rewrite (cv_last V). rewrite zrange_empty by lia. apply app_nil_r.
Qed.

Lemma gather_map {X} (d : X) (l : list X) p :
  (forall k, In k p -> 0 <= k < zlen l) -> gather l p = Ok (map (zn d l) p).
Proof.
  induction p as [|k p IH]; intros H; cbn; [reflexivity|].
  rewrite (get_ok d) by (apply H; left; reflexivity). cbn [bind]. rewrite IH by (intros; apply H; right; assumption). reflexivity.
Qed.

Lemma sp_sort_rows A : csr_valid A -> sp_sort srt A = Ok (csr_of_rows (c_rows A) (c_cols A) (sorted_row A)).
Proof.
  intros V. unfold sp_sort. change (fun i j => zn 0 (c_idx A) i <? zn 0 (c_idx A) j) with (idx_lt A).
  rewrite sort_loop by exact V. cbn [bind].
  assert (HB : forall k, In k (cat (sorted_pos A) (c_rows A)) -> 0 <= k < nnz A).
  { intros k Hk. unfold cat in Hk. apply in_flat_map in Hk. destruct Hk as (i & Hi & Hk). apply In_zrange in Hi.
    eapply Permutation_in in Hk; [|symmetry; apply sorted_pos_perm]. apply In_zrange in Hk.
    pose proof (ptr_bounds A i V ltac:(lia)). pose proof (ptr_bounds A (i + 1) V ltac:(lia)). lia. }
  rewrite (gather_map 0) by (rewrite (cv_len V); exact HB). cbn [bind].
  rewrite (gather_map s0) by exact HB. cbn [bind]. f_equal. unfold csr_of_rows, sorted_row.
  rewrite <- (map_cat (fun k => (idx A k, val A k))), !map_map. f_equal.
  apply (list_ext 0).
  - rewrite (cv_ptr_len V). rewrite zlen_map_zrange by (pose proof (cv_rows V); lia). reflexivity.
  - intros i Hi. rewrite (cv_ptr_len V) in Hi. rewrite zn_map_zrange by lia.
    rewrite off_map, sorted_pos_off by (auto; lia). reflexivity.
Qed.

Lemma sp_sort_spec A : csr_valid A ->
  exists B, sp_sort srt A = Ok B /\ csr_valid B /\ rows_sorted B /\ same_entries A B.
Proof.
  intros V. pose proof (cv_rows V). eexists. split; [now apply sp_sort_rows|].
  assert (HP : forall i, 0 <= i <= c_rows A -> off (sorted_row A) i = ptr A i).
  { intros i Hi. unfold sorted_row. rewrite off_map. now apply sorted_pos_off. }
  split; [|split].
  - apply csr_of_rows_valid; [apply (cv_rows V)|apply (cv_cols V)|]. intros i [c v] Hi Hp.
    eapply Permutation_in in Hp; [|symmetry; apply sorted_row_perm].
    assert (Hin : In (i, c, v) (entries A)) by (apply In_row_of; auto).
    pose proof (entries_in_shape A V) as Sh. unfold in_shape in Sh. rewrite Forall_forall in Sh. apply Sh in Hin. cbn in *. tauto.
  - apply rows_sorted_of_rows; [apply (cv_rows V)|]. intros i Hi. unfold sorted_row. rewrite map_map. cbn [fst].
    destruct (Hsrt (idx_lt A) (zrange (ptr A i) (ptr A (i + 1))) (key_order _)) as (_ & Hs).
    fold (sorted_pos A i) in Hs. induction Hs; cbn; constructor; auto.
    rewrite Forall_forall in *. intros x Hx. apply in_map_iff in Hx. destruct Hx as (k & <- & Hk).
    specialize (H0 k Hk). unfold idx_lt in H0. unfold idx. lia.
  - split; [reflexivity|]. split; [reflexivity|]. split.
    + cbn. apply (list_ext 0).
      * rewrite (cv_ptr_len V). rewrite zlen_map_zrange by lia. reflexivity.
      * intros i Hi. rewrite zlen_map_zrange in Hi by lia. rewrite zn_map_zrange by lia.
        rewrite HP by lia. reflexivity.
    + intros i Hi. rewrite csr_of_rows_row by exact Hi. rewrite <- row_of_entries. unfold row_to_entries.
      apply Permutation_map, sorted_row_perm.
Qed.

End Sort.

(** Matrices with the same entries represent the same matrix. *)
Lemma same_entries_perm {S : scalar} (A B : csr S) : same_entries A B -> Permutation (entries A) (entries B).
Proof.
  intros (Hr & _ & _ & H). unfold entries. rewrite Hr.
  assert (G : forall l, (forall i, In i l -> 0 <= i < c_rows A) ->
     Permutation (flat_map (row_entries A) l) (flat_map (row_entries B) l)).
  { induction l; intros Hl; cbn; [constructor|]. apply Permutation_app; [apply H, Hl; left; reflexivity|].
    apply IHl. intros; apply Hl; right; assumption. }
  apply G. intros i Hi. now apply In_zrange in Hi.
Qed.

Lemma same_entries_mat {S : scalar} (R : ring_laws S) (A B : csr S) i j :
  same_entries A B -> csr_mat B i j = csr_mat A i j.
Proof. intros H. unfold csr_mat. symmetry. apply mat_of_perm; [exact R|]. now apply same_entries_perm. Qed.

Lemma sp_sort_mat {S : scalar} (R : ring_laws S) srt (A B : csr S) :
  sorts srt -> csr_valid A -> sp_sort srt A = Ok B -> forall i j, csr_mat B i j = csr_mat A i j.
Proof.
  intros Hs V E i j. destruct (sp_sort_spec srt Hs A V) as (B' & E' & _ & _ & H). rewrite E in E'. injection E' as <-.
  now apply same_entries_mat.
Qed.
