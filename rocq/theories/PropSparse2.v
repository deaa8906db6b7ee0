(** Properties C12, C13, C22, C23, C65: sorting, submatrices, validity over histories,
    the CSR constructor, sums of SparseMatrix. *)

From Coq Require Import ZArith List Bool Lia.
From Verif Require Import Base Scalar Spec Dense Sparse SparseProofs SortProofs SubProofs SparseHistory HistoryProofs Examples.
Import ListNotations.
Open Scope Z_scope.

(* ---------------------------------------------------------------- C12 *)

(** C12, any arithmetic, any sort satisfying the contract of std::sort. *)
Theorem C12_sort_indices :
  forall (S : scalar) (srt : sorter), sorts srt ->
  forall (A : csr S), csr_valid A ->
  exists B, sp_sort srt A = Ok B /\ csr_valid B /\ rows_sorted B /\ same_entries A B.
Proof. exact @sp_sort_spec. Qed.
Print Assumptions C12_sort_indices.

(** The represented matrix is the same. *)
Theorem C12_sort_indices_matrix :
  forall (S : scalar), ring_laws S ->
  forall (srt : sorter) (A B : csr S), sorts srt -> csr_valid A -> sp_sort srt A = Ok B ->
  forall i j, csr_mat B i j = csr_mat A i j.
Proof. exact @sp_sort_mat. Qed.
Print Assumptions C12_sort_indices_matrix.

Example C12_instance :
  sorts insertion_sort /\ csr_valid exA /\ ~ rows_sorted exA /\
  sp_sort insertion_sort exA = Ok (@CSR Zs 4 3 [0; 2; 2; 4; 6] [0; 2; 1; 1; 0; 2] [1; 2; 3; 4; 5; 6]).
Proof.
  split; [exact insertion_sort_sorts|]. split; [exact exA_valid|]. split; [|reflexivity].
  intros H. specialize (H 0 0). cbv in H. specialize (H ltac:(split; congruence) ltac:(congruence) eq_refl). congruence.
Qed.

(* ---------------------------------------------------------------- C13 *)

(** C13 for column lists without repetition (missing: lists that name a column twice,
    see [C13_repeated_columns] and [C13_submatrix_refuted]). *)
Theorem C13_submatrix_partial :
  forall (S : scalar), ring_laws S ->
  forall (A : csr S) (rows cols marker : list Z),
  csr_valid A ->
  (forall r, In r rows -> 0 <= r < c_rows A) -> (forall c, In c cols -> 0 <= c < c_cols A) ->
  c_cols A <= zlen marker -> (forall m, In m marker -> m = -1) ->
  NoDup cols ->
  exists B, sp_submatrix A rows cols marker = Ok (B, marker) /\ csr_valid B /\
    c_rows B = zlen rows /\ c_cols B = zlen cols /\
    forall i j, 0 <= i < zlen rows -> 0 <= j < zlen cols ->
      csr_mat B i j = csr_mat A (zn 0 rows i) (zn 0 cols j).
Proof. exact @sub_mat_nodup. Qed.
Print Assumptions C13_submatrix_partial.

(** What happens for every list of columns: position j holds the requested column if no
    later position names the same column, and is zero otherwise. *)
Theorem C13_repeated_columns :
  forall (S : scalar), ring_laws S ->
  forall (A : csr S) (rows cols marker : list Z),
  csr_valid A ->
  (forall r, In r rows -> 0 <= r < c_rows A) -> (forall c, In c cols -> 0 <= c < c_cols A) ->
  c_cols A <= zlen marker -> (forall m, In m marker -> m = -1) ->
  exists B, sp_submatrix A rows cols marker = Ok (B, marker) /\ csr_valid B /\
    c_rows B = zlen rows /\ c_cols B = zlen cols /\
    forall i j, 0 <= i < zlen rows -> 0 <= j < zlen cols ->
      ((forall k, j < k < zlen cols -> zn 0 cols k <> zn 0 cols j) ->
         csr_mat B i j = csr_mat A (zn 0 rows i) (zn 0 cols j)) /\
      ((exists k, j < k < zlen cols /\ zn 0 cols k = zn 0 cols j) -> csr_mat B i j = s0).
Proof. exact @sp_submatrix_spec. Qed.
Print Assumptions C13_repeated_columns.

(** The overload that allocates its own marker. *)
Theorem C13_submatrix_new :
  forall (S : scalar), ring_laws S ->
  forall (A : csr S) (rows cols : list Z),
  csr_valid A ->
  (forall r, In r rows -> 0 <= r < c_rows A) -> (forall c, In c cols -> 0 <= c < c_cols A) ->
  exists B, sp_submatrix_new A rows cols = Ok B /\ csr_valid B /\
    c_rows B = zlen rows /\ c_cols B = zlen cols /\
    forall i j, 0 <= i < zlen rows -> 0 <= j < zlen cols ->
      ((forall k, j < k < zlen cols -> zn 0 cols k <> zn 0 cols j) ->
         csr_mat B i j = csr_mat A (zn 0 rows i) (zn 0 cols j)) /\
      ((exists k, j < k < zlen cols /\ zn 0 cols k = zn 0 cols j) -> csr_mat B i j = s0).
Proof. exact @sp_submatrix_new_spec. Qed.
Print Assumptions C13_submatrix_new.

(** C13 is false when a column is requested twice: the first copy comes out zero. *)
Theorem C13_submatrix_refuted :
  exists (A : csr Zs) (rows cols marker : list Z) (B : csr Zs) (i j : Z),
    csr_valid A /\ (forall r, In r rows -> 0 <= r < c_rows A) /\ (forall c, In c cols -> 0 <= c < c_cols A) /\
    c_cols A <= zlen marker /\ (forall m, In m marker -> m = -1) /\
    sp_submatrix A rows cols marker = Ok (B, marker) /\
    0 <= i < zlen rows /\ 0 <= j < zlen cols /\
    csr_mat B i j <> csr_mat A (zn 0 rows i) (zn 0 cols j).
Proof.
  exists exB, [0], [0; 0], [-1; -1], (@CSR Zs 1 2 [0; 1] [1] [1]), 0, 0.
  split; [exact exB_valid|]. split; [cbn; lia|]. split; [cbn; lia|]. split; [cbv; congruence|]. split; [cbn; lia|].
  split; [reflexivity|]. split; [cbv; split; congruence|]. split; [cbv; split; congruence|]. vm_compute. congruence.
Qed.
Print Assumptions C13_submatrix_refuted.

Example C13_instance :
  csr_valid exA /\ NoDup [2; 0] /\
  sp_submatrix exA [3; 0; 3] [2; 0] [-1; -1; -1] = Ok (@CSR Zs 3 2 [0; 2; 4; 6] [1; 0; 0; 1; 1; 0] [5; 6; 2; 1; 5; 6], [-1; -1; -1]).
Proof.
  split; [exact exA_valid|]. split; [|reflexivity]. constructor; [cbn; lia|]. constructor; [cbn; lia|constructor].
Qed.

(* ---------------------------------------------------------------- C22 *)

(** C22: a program holding any number of matrices, running any finite sequence of
    member functions with any arguments.  As long as no object is moved from, every
    object is valid CSR storage after every statement that completes. *)
Theorem C22_csr_valid_history :
  forall (S : scalar) (srt : sorter) (ops : list (op S)) (st st' : list (csr S)),
  sorts srt -> Forall op_args_ok ops -> Forall no_move ops -> Forall csr_valid st ->
  run srt ops st = Ok st' -> Forall csr_valid st'.
Proof. exact @run_valid. Qed.
Print Assumptions C22_csr_valid_history.

(** With moves: every object is valid or is an untouched moved-from 0 x 0 object, and
    assigning to it makes it valid again. *)
Theorem C22_csr_valid_history_moves :
  forall (S : scalar) (srt : sorter) (ops : list (op S)) (st st' : list (csr S)),
  sorts srt -> Forall op_args_ok ops -> Forall (fun A => csr_valid A \/ moved_from A) st ->
  run srt ops st = Ok st' -> Forall (fun A => csr_valid A \/ moved_from A) st'.
Proof. exact @run_good. Qed.
Print Assumptions C22_csr_valid_history_moves.

Example C22_instance :
  exists ops : list (op Zs), Forall op_args_ok ops /\ Forall no_move ops /\
  run insertion_sort ops [] = Ok
   [ @CSR Zs 2 3 [0; 1; 3] [0; 0; 1] [3; 3; 3]; @CSR Zs 3 2 [0; 2; 3; 3] [0; 1; 1] [1; 2; 4];
     @CSR Zs 3 3 [0; 2; 4; 4] [0; 1; 0; 1] [9; 6; 12; 12] ].
Proof.
  exists [@NewCsr Zs [0; 1; 3] [0; 1; 0] [1; 4; 2] 2 3; NewEmpty; Transpose 1 0; InPlace 0 ISort; InPlace 0 (@IFill Zs 3);
          NewEmpty; Product 2 1 0].
  split; [|split; [repeat constructor|reflexivity]].
  constructor; [apply csr_validb_ok; reflexivity|]. repeat constructor.
Qed.

(* ---------------------------------------------------------------- C23 *)

(** Exactly what the constructor checks. *)
Theorem C23_constructor_checks :
  forall (S : scalar) (ip ix : list Z) (d : list (car S)) (r c : Z) (A : csr S),
  sp_make ip ix d r c = Ok A <->
  A = CSR r c ip ix d /\ 0 <= r /\ 0 <= c /\ zlen ip = r + 1 /\ zlen ix = zlen d /\ zn 0 ip 0 = 0 /\
  forall k, 0 <= k < zlen ix -> 0 <= zn 0 ix k < c.
Proof. exact @sp_make_iff. Qed.
Print Assumptions C23_constructor_checks.

(** C23 is false: the row pointers are not checked beyond their first element, so an
    accepted matrix can be multiplied into undefined behaviour. *)
Theorem C23_constructor_validates_refuted :
  exists (ip ix : list Z) (d : list Z) (r c : Z) (A : csr Zs) (x out : list Z),
    sp_make (S := Zs) ip ix d r c = Ok A /\ zlen x = c /\ zlen out = r /\ sp_mult A x out = Fail FUB.
Proof. exists [0; 5], [], [], 1, 1, (@CSR Zs 1 1 [0; 5] [] []), [1], [0]. repeat split. Qed.
Print Assumptions C23_constructor_validates_refuted.

(** The part that holds: if in addition the row pointers increase and end at the number
    of values, the matrix is valid (so every operation is safe, C01-C22). *)
Theorem C23_constructor_validates_partial :
  forall (S : scalar) (ip ix : list Z) (d : list (car S)) (r c : Z) (A : csr S),
  sp_make ip ix d r c = Ok A ->
  (forall i, 0 <= i < r -> zn 0 ip i <= zn 0 ip (i + 1)) -> zn 0 ip r = zlen d ->
  csr_valid A.
Proof. exact @sp_make_valid_iff. Qed.
Print Assumptions C23_constructor_validates_partial.

Example C23_instance : sp_make (S := Zs) [0; 2; 3] [1; 0; 1] [5; 6; 7] 2 2 = Ok (@CSR Zs 2 2 [0; 2; 3] [1; 0; 1] [5; 6; 7]).
Proof. reflexivity. Qed.

(* ---------------------------------------------------------------- C65 *)

(** Sum() is the sum of all entries of the represented matrix. *)
Theorem C65_sum :
  forall (S : scalar), ring_laws S -> forall (A : csr S), csr_valid A ->
  sp_sum A = sum_range 0 (c_rows A) (fun i => sum_range 0 (c_cols A) (fun j => csr_mat A i j)).
Proof. exact @sp_sum_spec. Qed.
Print Assumptions C65_sum.

(** MaxNorm() bounds every entry ... *)
Theorem C65_max_norm_partial :
  forall (S : scalar), ring_laws S -> order_laws S -> abs_laws S -> sum_order_laws S ->
  forall (A : csr S) (i j : Z), csr_valid A -> sle (sabs (csr_mat A i j)) (sp_max_norm A).
Proof. exact @sp_max_norm_bound. Qed.
Print Assumptions C65_max_norm_partial.

(** ... but is not the largest magnitude: it adds the magnitudes up. *)
Theorem C65_max_norm_refuted :
  exists (A : csr Zs) (m : Z),
    csr_valid A /\ no_dup_coords (entries A) /\
    (forall i j, 0 <= i < c_rows A -> 0 <= j < c_cols A -> Z.abs (csr_mat A i j) <= m) /\
    (exists i j, 0 <= i < c_rows A /\ 0 <= j < c_cols A /\ Z.abs (csr_mat A i j) = m) /\
    sp_max_norm A <> m.
Proof.
  exists (@CSR Zs 1 2 [0; 2] [0; 1] [3; -4]), 4. split; [apply csr_validb_ok; reflexivity|].
  split. { unfold no_dup_coords. cbn. constructor; [cbn; intros [H|[]]; discriminate H|]. constructor; [intros []|constructor]. }
  split.
  { cbn [c_rows c_cols]. intros i j Hi Hj. replace i with 0 by lia.
    assert (Hc : j = 0 \/ j = 1) by lia. destruct Hc as [-> | ->]; vm_compute; congruence. }
  split. { exists 0, 1. cbn [c_rows c_cols]. split; [lia|split; [lia|reflexivity]]. }
  vm_compute. congruence.
Qed.
Print Assumptions C65_max_norm_refuted.

Example C65_instance : ring_laws Zs /\ order_laws Zs /\ abs_laws Zs /\ sum_order_laws Zs /\ sp_sum exA = 21.
Proof. repeat (split; [first [exact Zs_ring | exact Zs_order | exact Zs_abs | exact Zs_sum_order]|]). reflexivity. Qed.
