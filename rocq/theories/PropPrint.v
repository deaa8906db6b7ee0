(** Property C97: printed text. *)

From Coq Require Import ZArith List Bool Lia String SpecFloat.
From Verif Require Import Base Scalar Spec Text Parser ParserSpec Double DoubleSpec DoubleMore Dense Sparse Coo Lil LilSpec Block BlockSpec Par Examples PropBlock Print PrintSpec PrintProofs PrintFixed PrintMore.
Import ListNotations.
Open Scope list_scope.
Open Scope Z_scope.

(** Print writes the label, one line per stored entry in storage order, and an empty line. *)
Theorem C97_sparse_text :
  forall (S : scalar) (C : codec S) (p : Z) (A : csr S) (label : list byte), csr_valid A ->
  sp_print C p label A = Ok (report C p 6 label (entries A)).
Proof. exact @sp_print_report. Qed.
Print Assumptions C97_sparse_text.

Theorem C97_coo_text :
  forall (S : scalar) (C : codec S) (p : Z) (M : coo S) (label : list byte), coo_print C p label M = report C p 0 label (o_entries M).
Proof. exact @coo_print_report. Qed.
Print Assumptions C97_coo_text.

Theorem C97_lil_text :
  forall (S : scalar) (C : codec S) (p : Z) (M : lil S) (label : list byte), lil_print C p label M = Ok (report C p 0 label (lil_entries M)).
Proof. exact @lil_print_report. Qed.
Print Assumptions C97_lil_text.

(** Two reports, whatever follows them: the same text means the same positions and the same texts
    of the values, in the same order.  Numbers are printed without white space. *)
Theorem C97_report_determines :
  forall (S : scalar) (C : codec S) (p w : Z) (label : list byte) (es fs : list (entry S)) (x y : list byte),
  Forall (fun e => worded C p (evalue e)) es -> Forall (fun e => worded C p (evalue e)) fs ->
  report C p w label es ++ x = report C p w label fs ++ y -> map (shown C p) es = map (shown C p) fs /\ x = y.
Proof. exact @report_det. Qed.
Print Assumptions C97_report_determines.

Theorem C97_numbers_are_words :
  (forall p n, worded int_codec p n) /\ (forall p x, worded double_codec p x).
Proof. exact (conj (fun _ n => int_word n) double_word). Qed.
Print Assumptions C97_numbers_are_words.

(** Matrices of ints, and matrices of finite doubles printed with at least 17 digits: the text
    determines the stored entries. *)
Theorem C97_int_matrix :
  forall (p : Z) (label : list byte) (A B : csr Zs), csr_valid A -> csr_valid B -> Forall fits_int (c_val A) -> Forall fits_int (c_val B) ->
  sp_print int_codec p label A = sp_print int_codec p label B -> entries A = entries B.
Proof. exact int_matrix_det. Qed.
Print Assumptions C97_int_matrix.

Theorem C97_double_matrix :
  forall (p : Z) (label : list byte) (A B : csr SFs), 17 <= p <= 40 -> csr_valid A -> csr_valid B ->
  Forall (fun x => double x /\ finite x) (c_val A) -> Forall (fun x => double x /\ finite x) (c_val B) ->
  sp_print double_codec p label A = sp_print double_codec p label B -> entries A = entries B.
Proof. exact double_matrix_det. Qed.
Print Assumptions C97_double_matrix.

(** Vectors *)
Theorem C97_vector_determines :
  forall (S : scalar) (C : codec S) (p : Z) (label : list byte) (u v : list (car S)) (x y : list byte),
  Forall (worded C p) u -> Forall (worded C p) v ->
  v_print C p label u ++ x = v_print C p label v ++ y -> map (tc_fmt C p) u = map (tc_fmt C p) v /\ x = y.
Proof. exact @v_print_det. Qed.
Print Assumptions C97_vector_determines.

(** Block matrices with the same number of blocks *)
Theorem C97_block_determines :
  forall (S : scalar) (C : codec S) (p : Z) (M N : bmat S) (label : list byte), bm_ok M -> bm_ok N ->
  nblocks (bm_ro M) = nblocks (bm_ro N) -> nblocks (bm_co M) = nblocks (bm_co N) ->
  (forall i j, 0 <= i < nblocks (bm_ro M) -> 0 <= j < nblocks (bm_co M) ->
     Forall (worded C p) (c_val (bm_block M i j)) /\ Forall (worded C p) (c_val (bm_block N i j))) ->
  bm_print C p label M = bm_print C p label N ->
  forall i j, 0 <= i < nblocks (bm_ro M) -> 0 <= j < nblocks (bm_co M) ->
    map (shown C p) (entries (bm_block M i j)) = map (shown C p) (entries (bm_block N i j)).
Proof. exact @bm_print_det. Qed.
Print Assumptions C97_block_determines.

Theorem C97_block_prints :
  forall (S : scalar) (C : codec S) (p : Z) (M : bmat S) (label : list byte), bm_ok M -> exists t, bm_print C p label M = Ok t.
Proof. exact (fun S C p M label H => ex_intro _ _ (bm_print_report C p M label H)). Qed.
Print Assumptions C97_block_prints.

(** One rank of a distributed matrix *)
Theorem C97_distributed_determines :
  forall (S : scalar) (C : codec S) (p : Z) (A B : parmat S) (label : list byte),
  csr_valid (pm_diag A) -> csr_valid (pm_offd A) -> csr_valid (pm_diag B) -> csr_valid (pm_offd B) ->
  Forall (worded C p) (c_val (pm_diag A)) -> Forall (worded C p) (c_val (pm_offd A)) ->
  Forall (worded C p) (c_val (pm_diag B)) -> Forall (worded C p) (c_val (pm_offd B)) ->
  pm_print C p label A = pm_print C p label B ->
  map (shown C p) (entries (pm_diag A)) = map (shown C p) (entries (pm_diag B)) /\
  map (shown C p) (entries (pm_offd A)) = map (shown C p) (entries (pm_offd B)) /\ pm_map A = pm_map B.
Proof. exact @pm_print_det. Qed.
Print Assumptions C97_distributed_determines.

Theorem C97_distributed_text :
  forall (S : scalar) (C : codec S) (p : Z) (A : parmat S) (label : list byte), csr_valid (pm_diag A) -> csr_valid (pm_offd A) ->
  pm_print C p label A = Ok (label ++ [NL] ++ report C p 6 (txt "Diag:") (entries (pm_diag A)) ++ report C p 6 (txt "Offd:") (entries (pm_offd A)) ++
    txt "ColMap:" ++ [NL] ++ flat_map (fun i => fmt_int i ++ [NL]) (pm_map A) ++ [NL]).
Proof. exact @pm_print_report. Qed.
Print Assumptions C97_distributed_text.

(** Dense matrices: with at least one decimal and any width, too small ones included, the text
    determines the shape and the text of every element, although nothing separates the columns. *)
Theorem C97_dense_determines :
  forall (label : list byte) (w p : Z) (D E : dense SFs), 1 <= p -> dense_ok D -> dense_ok E -> d_print label w p D = d_print label w p E ->
  d_rows D = d_rows E /\ (0 < d_rows D -> d_cols D = d_cols E) /\
  forall i j, 0 <= i < d_rows D -> 0 <= j < d_cols D -> fmt_fixed p (dense_mat D i j) = fmt_fixed p (dense_mat E i j).
Proof. exact d_print_det. Qed.
Print Assumptions C97_dense_determines.

(** The text of a finite element is a decimal number at most half a unit of the last place away:
    z / 10^p against u / 2^1074. *)
Theorem C97_dense_rounding :
  forall (p : Z) (x : spec_float) (u : Z), 0 <= p -> units x = Some u ->
  exists z, fixed_decimal p (fmt_fixed p x) z /\ Z.abs (2 * (z * 2 ^ 1074 - u * 10 ^ p)) <= 2 ^ 1074.
Proof. exact fixed_close. Qed.
Print Assumptions C97_dense_rounding.

(** Elements with the same text differ by at most 10^-p. *)
Theorem C97_dense_same_text :
  forall (p : Z) (x y : spec_float) (u v : Z), 1 <= p -> units x = Some u -> units y = Some v -> fmt_fixed p x = fmt_fixed p y ->
  Z.abs (u - v) * 10 ^ p <= 2 ^ 1074.
Proof. exact fixed_same. Qed.
Print Assumptions C97_dense_same_text.

(** With the default precision of a stream different matrices have the same text. *)
Theorem C97_default_precision_refuted :
  exists A B : csr SFs, csr_valid A /\ csr_valid B /\ Forall (fun x => double x /\ finite x) (c_val A) /\ Forall (fun x => double x /\ finite x) (c_val B) /\
    sp_print double_codec 6 [] A = sp_print double_codec 6 [] B /\ entries A <> entries B.
Proof. exact six_digits. Qed.
Print Assumptions C97_default_precision_refuted.

(** Without decimals the columns of a dense matrix run together: [1 23] and [12 3]. *)
Theorem C97_dense_columns_refuted :
  exists D E : dense SFs, dense_ok D /\ dense_ok E /\ d_rows D = d_rows E /\ d_cols D = d_cols E /\
    d_print [] 1 0 D = Ok (txt "
123

") /\ d_print [] 1 0 E = d_print [] 1 0 D /\ dense_mat D 0 0 <> dense_mat E 0 0.
Proof.
  exists (@Dense SFs 1 2 [sf 1; sf 23]), (@Dense SFs 1 2 [sf 12; sf 3]).
  split; [apply sf_dense; [discriminate|discriminate|reflexivity]|]. split; [apply sf_dense; [discriminate|discriminate|reflexivity]|].
  do 2 (split; [reflexivity|]). split; [vm_compute; reflexivity|]. split; [vm_compute; reflexivity|]. vm_compute. discriminate.
Qed.
Print Assumptions C97_dense_columns_refuted.

Example C97_instance :
  csr_valid exA /\ Forall fits_int (c_val exA) /\
  sp_print int_codec 6 (txt "A") exA = Ok (txt "A
(0, 2)      2
(0, 0)      1
(2, 1)      3
(2, 1)      4
(3, 0)      5
(3, 2)      6

") /\
  d_print (txt "D") 8 4 (@Dense SFs 2 1 [sf 12; sf (-3)]) = Ok (txt "D
 12.0000
 -3.0000

") /\ d_print [] 3 1 (@Dense SFs 1 2 [sf 12; sf (-3)]) = Ok (txt "
12.0-3.0

").
Proof.
  split; [exact exA_valid|]. split; [repeat constructor; cbv; discriminate|]. split; [vm_compute; reflexivity|]. split; vm_compute; reflexivity.
Qed.
