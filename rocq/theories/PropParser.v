(** Properties C44 - C50 and C78 - C81: files. *)

From Coq Require Import ZArith List Bool Lia String Floats.SpecFloat.
From Verif Require Import Base Scalar Spec Sparse Coo CooSpec Text Parser ParserSpec TextProofs ParserProofs ParserMore ParserGraph ParserBinary.
From Verif Require Import Double DoubleSpec DoubleProofs DoubleText DoubleMore ParserLinks Examples.
Import ListNotations.
Open Scope Z_scope.

(** Doubles and matrices used in the examples: 1.5, -3, 0.1 + 0.2, 0.3, 1234567. *)
Definition d15 : spec_float := S754_finite false 6755399441055744 (-52).
Definition dm3 : spec_float := S754_finite true 6755399441055744 (-51).
Definition d03 : spec_float := S754_finite false 5404319552844595 (-54).
Definition d03' : spec_float := S754_finite false 5404319552844596 (-54).
Definition d7 : spec_float := S754_finite false 5302424889720832 (-32).
(** [ 0 1.5 ; 0 0 ; -3 0 ], a matrix whose last column is empty, and one without entries *)
Definition exD : csr SFs := @CSR SFs 3 2 [0; 1; 1; 2] [1; 0] [d15; dm3].
Definition exT : csr SFs := @CSR SFs 2 3 [0; 1; 1] [0] [d15].
Definition ex0 : csr SFs := @CSR SFs 1 1 [0; 0] [] [].

Lemma exD_valid : csr_valid exD.
Proof. apply csr_validb_ok. vm_compute. reflexivity. Qed.
Lemma exD_sized : int_sized exD.
Proof. repeat split; vm_compute; discriminate. Qed.
Lemma exD_values : Forall double (c_val exD) /\ Forall (short_decimal 6) (c_val exD) /\ Forall (short_decimal 16) (c_val exD) /\
  Forall (fun v => seqb (s := SFs) v v = true /\ sadd (s := SFs) s0 v = v) (c_val exD).
Proof.
  split; [repeat constructor|]. split; [|split].
  - apply Forall_cons; [|apply Forall_cons; [|constructor]]; [exists 15, (-1)|exists 3, 0]; (split; [split; reflexivity|split; [discriminate|vm_compute; reflexivity]]).
  - apply Forall_cons; [|apply Forall_cons; [|constructor]]; [exists 15, (-1)|exists 3, 0]; (split; [split; reflexivity|split; [discriminate|vm_compute; reflexivity]]).
  - repeat constructor.
Qed.
Lemma exD_no_dup : no_dup_coords (entries exD).
Proof. unfold no_dup_coords. vm_compute. repeat constructor; cbn; intuition congruence. Qed.
Lemma exD_ends : reaches_end exD.
Proof. split; [exists (2, 0, dm3)|exists (0, 1, d15)]; (split; [vm_compute; tauto|reflexivity]). Qed.

(** To evaluate the model: [both sides are equal by computation], [the result of m]. *)
Ltac computed := match goal with |- _ = ?y => vm_cast_no_check (eq_refl y) end.
Ltac result_of m k := let v := eval vm_compute in m in match v with Ok ?f => k f end.

Fixpoint same_bytes (a b : list byte) : bool :=
  match a, b with [], [] => true | x :: a, y :: b => (x =? y) && same_bytes a b | _, _ => false end.
Lemma same_bytes_ok a : forall b, same_bytes a b = true -> a = b.
Proof.
  induction a as [|x a IH]; intros [|y b] H; try discriminate; [reflexivity|]. cbn in H. apply andb_true_iff in H. destruct H as (H1 & H2). apply Z.eqb_eq in H1. subst. f_equal. auto.
Qed.

(* ---------------------------------------------------------------- C44 *)

(** ReadBinaryVect(WriteBinary(v)) = v for every type whose values are determined by their
    bytes.  [lax]: see Parser.v, addr0; for v = [] the standard leaves &v[0] undefined. *)
Theorem C44_vector_round_trip_partial :
  forall (S : scalar) (L : layout S), layout_ok L ->
  forall (lax : bool) (v : list (car S)), (lax = true \/ v <> []) -> allocatable L (zlen v) -> Forall (kept L) v ->
  exists f, write_binary_vect L lax v = Ok f /\ read_binary_vect L lax f = Ok v.
Proof. exact @binary_vect_round. Qed.
Print Assumptions C44_vector_round_trip_partial.

(** ReadBinaryMat(WriteBinary(A)) = A, the three arrays included. *)
Theorem C44_matrix_round_trip_partial :
  forall (S : scalar) (L : layout S), layout_ok L ->
  forall (lax : bool) (A : csr S), csr_valid A -> int_sized A -> (lax = true \/ 0 < nnz A) ->
  nnz A * Z.of_nat (lo_size L) <= 2 ^ 63 - 1 -> Forall (kept L) (c_val A) ->
  exists f, write_binary_mat L lax A = Ok f /\ read_binary_mat L lax f = Ok A.
Proof. exact @binary_mat_round. Qed.
Print Assumptions C44_matrix_round_trip_partial.

(** Every double (infinities and signed zeros included) and every int is determined by its
    bytes. *)
Theorem C44_doubles_kept : layout_ok double_layout /\ forall x, double x -> kept double_layout x.
Proof. exact (conj double_layout_ok double_kept). Qed.
Print Assumptions C44_doubles_kept.
Theorem C44_ints_kept : layout_ok int_layout /\ forall n, fits_int n -> kept int_layout n.
Proof. exact (conj int_layout_ok int_kept). Qed.
Print Assumptions C44_ints_kept.

(** Without entries the code takes &v[0] of an empty std::vector, which the standard leaves
    undefined. *)
Theorem C44_empty_refuted :
  forall (S : scalar) (L : layout S), write_binary_vect L false [] = Fail FUB /\
  forall (A : csr S), csr_valid A -> nnz A = 0 -> write_binary_mat L false A = Fail FUB.
Proof.
  intros S L. split; [reflexivity|]. intros A V H. unfold write_binary_mat. rewrite <- (cv_ptr_len V).
  destruct (write_array false enc_int (c_ptr A) (zlen (c_ptr A))) as [p|f] eqn:E.
  - cbn [bind]. assert (c_idx A = []) as ->; [|reflexivity]. pose proof (cv_len V) as Hl. unfold nnz in H. rewrite H in Hl. destruct (c_idx A); [reflexivity|].
    rewrite zlen_cons in Hl. pose proof (zlen_nonneg l). lia.
  - rewrite write_array_all in E; [discriminate|]. right. intros E0. pose proof (cv_ptr_len V) as Hl. rewrite E0, zlen_nil in Hl. pose proof (cv_rows V). lia.
Qed.
Print Assumptions C44_empty_refuted.

Example C44_instance :
  layout_ok double_layout /\ csr_valid exD /\ int_sized exD /\ Forall (kept double_layout) (c_val exD) /\
  Forall (kept double_layout) [d15; S754_infinity true; S754_zero true] /\
  exists f, write_binary_mat double_layout false exD = Ok f /\ zlen f = 64 /\ read_binary_mat double_layout false f = Ok exD.
Proof.
  split; [apply double_layout_ok|]. split; [apply exD_valid|]. split; [apply exD_sized|].
  split; [repeat constructor|]. split; [repeat constructor|]. result_of (write_binary_mat double_layout false exD) ltac:(fun f => exists f). split; [computed|]. split; computed.
Qed.

(* ---------------------------------------------------------------- C45 *)

(** ReadCSR(WriteCSR(A)) = A when every value survives 16 digits. *)
Theorem C45_csr_round_trip :
  forall (S : scalar) (C : codec S) (A : csr S), csr_valid A -> int_sized A -> Forall (survives C 16) (c_val A) ->
  read_csr C (write_csr C A) = Ok A.
Proof. exact @csr_round_trip. Qed.
Print Assumptions C45_csr_round_trip.

(** For matrices of doubles that are integers below 10^16, and of int. *)
Theorem C45_integer_matrices :
  forall (A : csr SFs), csr_valid A -> int_sized A ->
  Forall (fun x => double x /\ exists n, magnitude x n /\ n < 10 ^ 16) (c_val A) ->
  read_csr double_codec (write_csr double_codec A) = Ok A.
Proof.
  intros A V Hz Hx. apply csr_round_trip; [exact V|exact Hz|]. eapply Forall_impl; [|exact Hx]. intros x (Hv & n & Hm & Hn).
  apply short_survives; [lia|exact Hv|]. exact (integer_short 16 x n Hv Hm Hn).
Qed.
Print Assumptions C45_integer_matrices.
Theorem C45_int_matrices :
  forall (A : csr Zs), csr_valid A -> int_sized A -> Forall fits_int (c_val A) ->
  read_csr int_codec (write_csr int_codec A) = Ok A.
Proof. intros A V Hz Hx. apply csr_round_trip; [exact V|exact Hz|]. eapply Forall_impl; [|exact Hx]. intros n. apply int_survives. Qed.
Print Assumptions C45_int_matrices.

(** Only the numbers in the file matter, not the white space between them; what follows the last
    number is ignored. *)
Theorem C45_any_layout :
  forall (S : scalar) (C : codec S) (A : csr S) (more : list token) (file : list byte), csr_valid A -> int_sized A ->
  file_of (token_text C) (csr_tokens A ++ more) file -> read_csr C file = Ok A.
Proof. exact @read_csr_any. Qed.
Print Assumptions C45_any_layout.

Example C45_instance :
  csr_valid exD /\ int_sized exD /\ Forall (survives double_codec 16) (c_val exD) /\
  write_csr double_codec exD = txt "3
2
0
1
1
2
1
0
1.5
-3
" /\ read_csr double_codec (txt "  3 2 0 1 1 2   1 0	15e-1 -0.3E+1") = Ok exD /\
  csr_valid exA /\ int_sized exA /\ Forall fits_int (c_val exA).
Proof.
  split; [apply exD_valid|]. split; [apply exD_sized|]. split.
  - destruct exD_values as (H1 & _ & H2 & _). rewrite Forall_forall in *. intros x Hx. apply short_survives; [lia|apply H1, Hx|apply H2, Hx].
  - split; [computed|]. split; [computed|]. split; [apply exA_valid|]. split; [repeat split; vm_compute; discriminate|].
    repeat constructor; vm_compute; discriminate.
Qed.

(* ---------------------------------------------------------------- C46 *)

(** ReadMTX(WriteMTX(A)) has the size of A and, with exact arithmetic, represents A. *)
Theorem C46_mtx_round_trip :
  forall (S : scalar) (C : codec S), ring_laws S ->
  forall (A : csr S), csr_valid A -> int_sized A -> Forall (survives C 16) (c_val A) -> Forall (fun v => seqb v v = true) (c_val A) ->
  exists f, write_mtx C A = Ok f /\ is_matrix (read_mtx C f) (c_rows A) (c_cols A) (csr_mat A).
Proof. exact @mtx_matrix. Qed.
Print Assumptions C46_mtx_round_trip.

(** In any arithmetic: the sums of the values written for each coordinate, in storage order. *)
Theorem C46_mtx_round_trip_exact :
  forall (S : scalar) (C : codec S) (A : csr S), csr_valid A -> int_sized A -> Forall (survives C 16) (c_val A) ->
  Forall (fun v => seqb v v = true) (c_val A) ->
  exists f, write_mtx C A = Ok f /\ assembles (read_mtx C f) (c_rows A) (c_cols A) (entries A).
Proof. exact @mtx_round_trip. Qed.
Print Assumptions C46_mtx_round_trip_exact.

(** For a matrix of doubles that are integers below 10^16, no coordinate stored twice and no
    negative zero: the same entries come back. *)
Theorem C46_integer_matrices :
  forall (A : csr SFs), csr_valid A -> int_sized A -> no_dup_coords (entries A) ->
  Forall (fun x => double x /\ x <> S754_zero true /\ exists n, magnitude x n /\ n < 10 ^ 16) (c_val A) ->
  exists f B, write_mtx double_codec A = Ok f /\ read_mtx double_codec f = Ok B /\ same_entries A B.
Proof.
  intros A V Hz Hn Hx. apply mtx_kept; auto; (eapply Forall_impl; [|exact Hx]); intros x (Hv & Hne & n & Hm & Hb).
  - apply short_survives; [lia|exact Hv|]. exact (integer_short 16 x n Hv Hm Hb).
  - assert (finite x) by (destruct x; [exact I|destruct Hm|destruct Hm|exact I]). split; [apply finite_number|apply zero_plus]; assumption.
Qed.
Print Assumptions C46_integer_matrices.

Example C46_instance :
  csr_valid exD /\ int_sized exD /\ no_dup_coords (entries exD) /\
  Forall (fun v => seqb (s := SFs) v v = true /\ sadd (s := SFs) s0 v = v) (c_val exD) /\
  Forall (fun x => double x /\ x <> S754_zero true /\ exists n, magnitude x n /\ n < 10 ^ 16) [dm3; d7; S754_zero false] /\
  write_mtx double_codec exD = Ok (txt "%MatrixMarket matrix coordinate real general
3 2 2
1 2 1.5
3 1 -3
").
Proof.
  split; [apply exD_valid|]. split; [apply exD_sized|]. split; [apply exD_no_dup|]. split; [apply exD_values|]. split.
  - apply Forall_cons; [|apply Forall_cons; [|apply Forall_cons; [|apply Forall_nil]]]; (split; [reflexivity|split; [discriminate|]]); [exists 3|exists 1234567|exists 0]; (split; [vm_compute; reflexivity|reflexivity]).
  - computed.
Qed.

(* ---------------------------------------------------------------- C47 *)

(** ReadCooList(WriteCooList(A)) represents A (exact arithmetic), and has the size of A if the
    last row and column are not empty.  Missing: other sizes (refuted below), values that need
    more than 6 digits (refuted below). *)
Theorem C47_coo_round_trip_partial :
  forall (S : scalar) (C : codec S), ring_laws S ->
  forall (A : csr S), csr_valid A -> int_sized A -> reaches_end A -> Forall (survives C 6) (c_val A) -> Forall (fun v => seqb v v = true) (c_val A) ->
  exists f, write_coo_list C A false = Ok f /\ is_matrix (read_coo_list C f false) (c_rows A) (c_cols A) (csr_mat A).
Proof. exact @coo_matrix. Qed.
Print Assumptions C47_coo_round_trip_partial.

(** Any matrix, any arithmetic: the size is that of the entries. *)
Theorem C47_coo_round_trip_exact_partial :
  forall (S : scalar) (C : codec S) (A : csr S), csr_valid A -> int_sized A -> Forall (survives C 6) (c_val A) -> Forall (fun v => seqb v v = true) (c_val A) ->
  exists f, write_coo_list C A false = Ok f /\
    assembles (read_coo_list C f false) (Z.max 1 (bound erow (entries A))) (Z.max 1 (bound ecol (entries A))) (entries A).
Proof. exact @coo_round_trip. Qed.
Print Assumptions C47_coo_round_trip_exact_partial.

(** Doubles with at most 6 digits. *)
Theorem C47_short_decimals_partial :
  forall (A : csr SFs), csr_valid A -> int_sized A -> no_dup_coords (entries A) -> reaches_end A ->
  Forall (fun x => double x /\ x <> S754_zero true /\ short_decimal 6 x) (c_val A) ->
  exists f B, write_coo_list double_codec A false = Ok f /\ read_coo_list double_codec f false = Ok B /\ same_entries A B.
Proof.
  intros A V Hz Hn He Hx. apply coo_kept; auto; (eapply Forall_impl; [|exact Hx]); intros x (Hv & Hne & Hm).
  - apply short_survives; [lia|exact Hv|exact Hm].
  - assert (finite x) by (destruct x; [exact I|destruct Hm|destruct Hm|exact I]). split; [apply finite_number|apply zero_plus]; assumption.
Qed.
Print Assumptions C47_short_decimals_partial.

(** A symmetric matrix through a file of its upper triangle. *)
Theorem C47_symmetric_partial :
  forall (S : scalar) (C : codec S), ring_laws S ->
  forall (A : csr S), csr_valid A -> int_sized A -> c_rows A = c_cols A -> (forall i j, csr_mat A i j = csr_mat A j i) ->
  (exists e, In e (entries A) /\ erow e <= ecol e /\ ecol e = c_cols A - 1) ->
  Forall (survives C 6) (c_val A) -> Forall (fun v => seqb v v = true) (c_val A) ->
  exists f, write_coo_list C A true = Ok f /\ is_matrix (read_coo_list C f true) (c_rows A) (c_cols A) (csr_mat A).
Proof. exact @coo_sym_matrix. Qed.
Print Assumptions C47_symmetric_partial.

(** A trailing empty row or column is lost; so is the seventh digit. *)
Theorem C47_size_refuted :
  exists (A B : csr SFs) f, csr_valid A /\ write_coo_list double_codec A false = Ok f /\ read_coo_list double_codec f false = Ok B /\
    c_rows B <> c_rows A /\ c_cols B <> c_cols A.
Proof.
  exists exT. result_of (f <- write_coo_list double_codec exT false ;; read_coo_list double_codec f false) ltac:(fun B => exists B).
  result_of (write_coo_list double_codec exT false) ltac:(fun f => exists f). split; [apply csr_validb_ok; computed|]. split; [computed|]. split; [computed|].
  split; vm_compute; discriminate.
Qed.
Print Assumptions C47_size_refuted.
Theorem C47_value_refuted :
  exists (A B : csr SFs) f, csr_valid A /\ c_val A = [d7] /\ write_coo_list double_codec A false = Ok f /\ read_coo_list double_codec f false = Ok B /\
    c_val B <> c_val A.
Proof.
  exists (@CSR SFs 1 1 [0; 1] [0] [d7]). result_of (f <- write_coo_list double_codec (@CSR SFs 1 1 [0; 1] [0] [d7]) false ;; read_coo_list double_codec f false) ltac:(fun B => exists B).
  result_of (write_coo_list double_codec (@CSR SFs 1 1 [0; 1] [0] [d7]) false) ltac:(fun f => exists f). split; [apply csr_validb_ok; computed|]. split; [reflexivity|]. split; [computed|].
  split; [computed|]. vm_compute. discriminate.
Qed.
Print Assumptions C47_value_refuted.

Example C47_instance :
  csr_valid exD /\ int_sized exD /\ no_dup_coords (entries exD) /\ reaches_end exD /\
  Forall (fun x => double x /\ x <> S754_zero true /\ short_decimal 6 x) (c_val exD) /\ Forall (survives double_codec 6) (c_val exD) /\
  csr_valid exS /\ int_sized exS /\ c_rows exS = c_cols exS /\ Forall (survives int_codec 6) (c_val exS) /\
  exists e, In e (entries exS) /\ erow e <= ecol e /\ ecol e = c_cols exS - 1.
Proof.
  destruct exD_values as (H1 & H2 & _).
  split; [apply exD_valid|]. split; [apply exD_sized|]. split; [apply exD_no_dup|]. split; [apply exD_ends|]. split.
  - rewrite Forall_forall in *. intros x Hx. split; [apply H1, Hx|]. split; [|apply H2, Hx]. destruct Hx as [<-|[<-|[]]]; discriminate.
  - split; [rewrite Forall_forall in *; intros x Hx; apply short_survives; [lia|apply H1, Hx|apply H2, Hx]|].
    split; [apply exS_valid|]. split; [repeat split; vm_compute; discriminate|]. split; [reflexivity|]. split; [|eexists; split; [vm_compute; right; right; left; reflexivity|]; split; vm_compute; congruence].
    repeat (apply Forall_cons; [apply int_survives; split; vm_compute; discriminate|]). constructor.
Qed.

(* ---------------------------------------------------------------- C48 *)

(** ReadAdjList(WriteAdjList(A)): the positions of A, and the size of A if the last row and column
    are not empty. *)
Theorem C48_adjacency_round_trip_partial :
  forall (S : scalar) (A : csr S), csr_valid A -> int_sized A -> seqb (s1 : car S) s1 = true -> reaches_end A ->
  exists f B, write_adj_list A false = Ok f /\ read_adj_list (S := S) f false = Ok B /\ csr_valid B /\ c_rows B = c_rows A /\ c_cols B = c_cols A /\
    no_dup_coords (entries B) /\ forall i j, stored_at B i j <-> stored_at A i j.
Proof. exact @adj_pattern. Qed.
Print Assumptions C48_adjacency_round_trip_partial.

(** ReadTable(WriteTable(A)): the same rows and the same index arrays, all values one, and as many
    columns as the largest index asks for. *)
Theorem C48_table_round_trip_partial :
  forall (S : scalar) (A : csr S), csr_valid A -> int_sized A -> 0 < nnz A ->
  exists f B, write_table A = Ok f /\ read_table (S := S) f = Ok B /\ csr_valid B /\ c_rows B = c_rows A /\ c_cols B = col_bound (c_idx A) /\
    c_ptr B = c_ptr A /\ c_idx B = c_idx A /\ c_val B = map (fun _ => s1) (c_val A).
Proof. exact @table_round_trip. Qed.
Print Assumptions C48_table_round_trip_partial.

(** Trailing empty rows and columns are lost by the adjacency file, trailing empty columns by the
    table file, and the table of a matrix without entries cannot be read. *)
Theorem C48_size_refuted :
  exists (A B B' : csr SFs) f f', csr_valid A /\
    write_adj_list A false = Ok f /\ read_adj_list (S := SFs) f false = Ok B /\ c_rows B <> c_rows A /\ c_cols B <> c_cols A /\
    write_table A = Ok f' /\ read_table (S := SFs) f' = Ok B' /\ c_cols B' <> c_cols A.
Proof.
  exists exT. result_of (f <- write_adj_list exT false ;; read_adj_list (S := SFs) f false) ltac:(fun B => exists B).
  result_of (f <- write_table exT ;; read_table (S := SFs) f) ltac:(fun B => exists B).
  result_of (write_adj_list exT false) ltac:(fun f => exists f). result_of (write_table exT) ltac:(fun f => exists f).
  split; [apply csr_validb_ok; computed|]. split; [computed|]. split; [computed|]. split; [vm_compute; discriminate|]. split; [vm_compute; discriminate|].
  split; [computed|]. split; [computed|]. vm_compute. discriminate.
Qed.
Print Assumptions C48_size_refuted.
Theorem C48_empty_table_refuted :
  forall (S : scalar) (A : csr S), csr_valid A -> int_sized A -> nnz A = 0 ->
  exists f, write_table A = Ok f /\ read_table (S := S) f = Fail FUB.
Proof. exact @table_of_empty. Qed.
Print Assumptions C48_empty_table_refuted.

Example C48_instance :
  csr_valid exD /\ int_sized exD /\ seqb (s := SFs) s1 s1 = true /\ reaches_end exD /\ 0 < nnz exD /\ csr_valid ex0 /\ nnz ex0 = 0 /\
  write_adj_list exD false = Ok (txt "0 1
2 0
") /\ write_table exD = Ok (txt "1

0
").
Proof.
  split; [apply exD_valid|]. split; [apply exD_sized|]. split; [reflexivity|]. split; [apply exD_ends|]. split; [reflexivity|].
  split; [apply csr_validb_ok; computed|]. split; [reflexivity|]. split; computed.
Qed.

(* ---------------------------------------------------------------- C49 *)

(** A finite double survives p digits if the p-digit decimals near it are closer together than the
    doubles; for p >= 17 that is always so, and then the text round trip is exact.  The library
    writes 16 (and WriteCooList 6) digits, so this is a statement about a repaired writer. *)
Theorem C49_17_digits_keep_every_double :
  forall (p : Z) (x : spec_float), 17 <= p <= 40 -> double x -> finite x -> survives double_codec p x.
Proof. exact finite_keeps. Qed.
Print Assumptions C49_17_digits_keep_every_double.

(** What does survive the p digits the library writes: every double that is a decimal of at most p
    digits; in particular integers. *)
Theorem C49_short_decimals_partial :
  forall (p : Z) (x : spec_float), 1 <= p <= 40 -> double x -> short_decimal p x -> survives double_codec p x.
Proof. exact short_survives. Qed.
Print Assumptions C49_short_decimals_partial.
Theorem C49_integers_partial :
  forall (p n : Z) (x : spec_float), 1 <= p <= 40 -> double x -> magnitude x n -> n < 10 ^ p -> survives double_codec p x.
Proof. intros p n x Hp Hv Hm Hn. apply short_survives; [exact Hp|exact Hv|]. exact (integer_short p x n Hv Hm Hn). Qed.
Print Assumptions C49_integers_partial.

(** The shortest decimal of a number may have 16 digits: still read back exactly when doubles are
    at least as sparse as 16-digit decimals. *)
Theorem C49_dense_decimals_partial :
  forall (p : Z) (s : bool) (m : positive) (e : Z), 1 <= p <= 40 -> double (S754_finite s m e) -> enough_digits p (Z.pos m) e ->
  survives double_codec p (S754_finite s m e).
Proof. intros p s m e Hp Hv. apply valid_double in Hv. exact (finite_survives p s m e Hp Hv). Qed.
Print Assumptions C49_dense_decimals_partial.

(** A vector of such doubles survives WriteText and ReadText. *)
Theorem C49_text_round_trip_partial :
  forall (v : list spec_float), Forall (fun x => double x /\ short_decimal 16 x) v ->
  read_text double_codec (write_text double_codec v) = Ok v.
Proof.
  intros v Hv. apply (text_round_trip double_codec v). eapply Forall_impl; [|exact Hv]. intros x (H1 & H2). apply short_survives; [lia|exact H1|exact H2].
Qed.
Print Assumptions C49_text_round_trip_partial.

(** With 16 digits 0.1 + 0.2 comes back as 0.3. *)
Theorem C49_refuted :
  double d03' /\ finite d03' /\ sadd (s := SFs) (S754_finite false 7205759403792794 (-56)) (S754_finite false 7205759403792794 (-55)) = d03' /\
  read_text double_codec (write_text double_codec [d03']) = Ok [d03] /\ d03 <> d03'.
Proof. split; [reflexivity|]. split; [exact I|]. split; [computed|]. split; [computed|]. discriminate. Qed.
Print Assumptions C49_refuted.

(** Infinities and NaN are written but not read: the reader stops in front of them and drops the
    rest of the file. *)
Theorem C49_infinity_refuted :
  forall (x : spec_float) (v : list spec_float), ~ finite x -> double x ->
  read_text double_codec (write_text double_codec (x :: v)) = Ok [].
Proof. exact infinity_not_read. Qed.
Print Assumptions C49_infinity_refuted.

Example C49_instance :
  double d03' /\ finite d03' /\ Forall (fun x => double x /\ short_decimal 16 x) [d15; dm3; d7; S754_zero true] /\
  enough_digits 16 8106479329266893 (-53) /\ fmt_double 17 d03' = txt "0.30000000000000004" /\ fmt_double 16 d03' = txt "0.3" /\
  write_text double_codec [d15; S754_finite true 1 (-1074); d7] = txt "1.5
-4.940656458412465e-324
1234567
" /\ ~ finite (S754_infinity true) /\ double (S754_infinity true).
Proof.
  split; [reflexivity|]. split; [exact I|]. split.
  - apply Forall_cons; [|apply Forall_cons; [|apply Forall_cons; [|apply Forall_cons; [|apply Forall_nil]]]]; (split; [reflexivity|]); [exists 15, (-1)|exists 3, 0|exists 1234567, 0|exact I];
      (split; [split; reflexivity|split; [discriminate|vm_compute; reflexivity]]).
  - split; [split; [vm_compute; reflexivity|intros H; vm_compute in H; discriminate H]|]. split; [apply same_bytes_ok; computed|]. split; [apply same_bytes_ok; computed|]. split; [apply same_bytes_ok; computed|]. split; [exact (fun H => H)|reflexivity].
Qed.

(* ---------------------------------------------------------------- C50 *)

(** ReadGraphList on any file: the pairs i < j it can read are the edges; the result is the
    Laplacian of that multigraph, whose size is given by the largest vertex; a negative vertex
    throws. *)
Theorem C50_graph_file :
  forall (S : scalar), ring_laws S -> seqb (s1 : car S) s1 = true -> seqb (sopp s1 : car S) (sopp s1) = true ->
  forall (file : list byte),
  let es := edges (records (extract2 scan_int scan_int) file) in
  let n := Z.max 1 (col_bound (map snd es)) in
  (Forall (fun p => 0 <= fst p) es /\
   is_matrix (S := S) (read_graph_list file) n n (fun i j => if i =? j then copies (degree es i) s1 else sopp (copies (multiplicity es i j) s1))) \/
  (~ Forall (fun p => 0 <= fst p) es /\ read_graph_list (S := S) file = Fail FAssert).
Proof. exact (fun S R H1 H2 file => @graph_laplacian S R file H1 H2). Qed.
Print Assumptions C50_graph_file.

(** So whatever is returned is symmetric and has zero row sums ... *)
Theorem C50_laplacian :
  forall (S : scalar), ring_laws S -> seqb (s1 : car S) s1 = true -> seqb (sopp s1 : car S) (sopp s1) = true ->
  forall (file : list byte) (A : csr S), read_graph_list (S := S) file = Ok A ->
  csr_valid A /\ c_rows A = c_cols A /\ laplacian (c_cols A) (csr_mat A).
Proof. exact (fun S R H1 H2 file A => @graph_is_laplacian S R file A H1 H2). Qed.
Print Assumptions C50_laplacian.

(** ... a non-negative diagonal and a non-positive rest. *)
Theorem C50_signs :
  forall (S : scalar), ring_laws S -> order_laws S -> sum_order_laws S -> sle (s0 : car S) s1 ->
  seqb (s1 : car S) s1 = true -> seqb (sopp s1 : car S) (sopp s1) = true ->
  forall (file : list byte) (A : csr S), read_graph_list (S := S) file = Ok A ->
  forall i j, if i =? j then sle s0 (csr_mat A i j) else sle (csr_mat A i j) s0.
Proof. exact @graph_signs. Qed.
Print Assumptions C50_signs.

(** In a file of pairs, in any layout, those are the pairs. *)
Theorem C50_edges_of_file :
  forall (ps : list (Z * Z)) (file : list byte), file_of pair_text ps file -> records (extract2 scan_int scan_int) file = ps.
Proof. exact pairs_of_file. Qed.
Print Assumptions C50_edges_of_file.

Example C50_instance :
  ring_laws Zs /\ order_laws Zs /\ sum_order_laws Zs /\ sle (s0 : car Zs) s1 /\ seqb (s := Zs) s1 s1 = true /\
  file_of pair_text [(0, 2); (2, 0); (1, 2); (1, 2)] (txt "0 2
2 0  1 2 1	2") /\
  read_graph_list (S := Zs) (txt "0 2
2 0  1 2 1	2") = Ok (@CSR Zs 3 3 [0; 2; 4; 7] [2; 0; 2; 1; 0; 2; 1] [-1; 1; -2; 2; -1; 3; -2]).
Proof.
  split; [apply Zs_ring|]. split; [apply Zs_order|]. split; [apply Zs_sum_order|]. split; [reflexivity|]. split; [reflexivity|]. split; [|computed].
  assert (P : forall w i j rest ps t s, white w -> separator s -> t = fmt_int i ++ s ++ fmt_int j -> fits_int i -> fits_int j -> ends rest -> file_of pair_text ps rest ->
    file_of pair_text ((i, j) :: ps) (w ++ t ++ rest)).
  { intros w i j rest ps t s Hw Hs -> Hi Hj He Hf. apply file_rec; auto. exists (fmt_int i), s, (fmt_int j). cbn. unfold int_text. auto. }
  apply (P [] 0 2 (txt "
2 0  1 2 1	2") _ (txt "0 2") [SP]); [constructor|split; [repeat constructor|discriminate]|reflexivity|split; discriminate|split; discriminate|reflexivity|].
  apply (P [NL] 2 0 (txt "  1 2 1	2") _ (txt "2 0") [SP]); [repeat constructor|split; [repeat constructor|discriminate]|reflexivity|split; discriminate|split; discriminate|reflexivity|].
  apply (P [SP; SP] 1 2 (txt " 1	2") _ (txt "1 2") [SP]); [repeat constructor|split; [repeat constructor|discriminate]|reflexivity|split; discriminate|split; discriminate|reflexivity|].
  apply (P [SP] 1 2 [] _ (txt "1	2") [9]); [repeat constructor|split; [repeat constructor|discriminate]|reflexivity|split; discriminate|split; discriminate|exact I|]. constructor. constructor.
Qed.

(* ---------------------------------------------------------------- C78 *)

(** A vector file that was cut after its first 8 bytes is read without an error: a vector of the
    right length whose missing elements are zero. *)
Theorem C78_cut_vector_refuted :
  forall (S : scalar) (L : layout S), layout_ok L ->
  forall (v : list (car S)) (n : nat), allocatable L (zlen v) -> Forall (kept L) v -> (n <= lo_size L * List.length v)%nat ->
  exists f v', write_binary_vect L true v = Ok f /\ read_binary_vect L true (firstn (8 + n) f) = Ok v' /\ zlen v' = zlen v /\
    (forall i, 0 <= i < zlen v -> (i + 1) * Z.of_nat (lo_size L) <= Z.of_nat n -> zn s0 v' i = zn s0 v i) /\
    (forall i, 0 <= i < zlen v -> Z.of_nat n <= i * Z.of_nat (lo_size L) -> zn s0 v' i = s0).
Proof. exact @binary_vect_cut. Qed.
Print Assumptions C78_cut_vector_refuted.

(** A matrix file that was cut inside the row offsets is read without an error as an invalid
    matrix. *)
Theorem C78_cut_matrix_refuted :
  exists (A B : csr SFs) f n, csr_valid A /\ write_binary_mat double_layout true A = Ok f /\ (n < List.length f)%nat /\
    read_binary_mat double_layout true (firstn n f) = Ok B /\ ~ csr_valid B.
Proof.
  exists exD. result_of (f <- write_binary_mat double_layout true exD ;; read_binary_mat double_layout true (firstn 36 f)) ltac:(fun B => exists B).
  result_of (write_binary_mat double_layout true exD) ltac:(fun f => exists f). exists 36%nat. split; [apply exD_valid|]. split; [computed|]. split; [vm_compute; lia|]. split; [computed|].
  intros V. pose proof (cv_last V) as H. vm_compute in H. discriminate H.
Qed.
Print Assumptions C78_cut_matrix_refuted.

(** The number of entries in the header of a Matrix Market file is not compared with the entries:
    the result is the same for every header count. *)
Theorem C78_header_count_ignored_refuted :
  forall (S : scalar) (C : codec S) (cs : list (list byte)) (rows cols n : Z) (es : list (entry S)) (file : list byte),
  mtx_file (triple_text C) cs rows cols n es file -> ~ Exists says_symmetric cs ->
  0 <= rows <= int_max -> 0 <= cols <= int_max -> 0 <= n <= int_max -> addable (from_one es) -> in_shape rows cols (from_one es) ->
  assembles (read_mtx C file) rows cols (from_one es).
Proof. exact @mtx_general. Qed.
Print Assumptions C78_header_count_ignored_refuted.

Example C78_instance :
  layout_ok double_layout /\ allocatable double_layout (zlen [d15; dm3]) /\ Forall (kept double_layout) [d15; dm3] /\ (8 <= lo_size double_layout * 2)%nat /\
  mtx_file (triple_text int_codec) [txt "% a comment"] 2 3 7 [(2, 1, 5)] (txt "% a comment
2 3 7
2 1 5") /\ ~ Exists says_symmetric [txt "% a comment"] /\ addable (from_one (S := Zs) [(2, 1, 5)]) /\ in_shape 2 3 (from_one (S := Zs) [(2, 1, 5)]).
Proof.
  split; [apply double_layout_ok|]. split; [split; vm_compute; discriminate|]. split; [repeat constructor|]. split; [cbn; lia|]. split.
  - split; [repeat constructor; exists (txt " a comment"); split; [reflexivity|]; vm_compute; intuition discriminate|]. exists (txt "2 1 5"). split; [|reflexivity].
    apply (file_rec _ [] (2, 1, 5) (txt "2 1 5") [] []); [constructor| |exact I|constructor; constructor].
    exists (txt "2 1"), [SP], (txt "5"). split; [reflexivity|]. split; [exists (txt "2"), [SP], (txt "1"); repeat split; try reflexivity; try discriminate; repeat constructor|].
    split; [split; [repeat constructor|discriminate]|]. apply (int_reads 5). split; discriminate.
  - split; [intros H; apply contains_symmetric in H; discriminate H|]. split; repeat constructor; try discriminate.
Qed.

(* ---------------------------------------------------------------- C79 *)

(** A Matrix Market file that declares itself symmetric in any of its comment lines: every
    off-diagonal entry counts twice, once transposed. *)
Theorem C79_symmetric_file :
  forall (S : scalar) (C : codec S) (cs : list (list byte)) (rows cols n : Z) (es : list (entry S)) (file : list byte),
  mtx_file (triple_text C) cs rows cols n es file -> Exists says_symmetric cs ->
  0 <= rows <= int_max -> 0 <= cols <= int_max -> 0 <= n <= int_max -> addable (from_one es) -> in_shape rows cols (mirror (from_one es)) ->
  assembles (read_mtx C file) rows cols (mirror (from_one es)).
Proof. exact @mtx_symmetric. Qed.
Print Assumptions C79_symmetric_file.

(** With exact arithmetic and entries of one triangle only: the symmetric matrix. *)
Theorem C79_symmetric_matrix :
  forall (S : scalar) (C : codec S), ring_laws S ->
  forall (cs : list (list byte)) (n k : Z) (es : list (entry S)) (file : list byte),
  mtx_file (triple_text C) cs n n k es file -> Exists says_symmetric cs ->
  0 <= n <= int_max -> 0 <= k <= int_max -> addable (from_one es) -> in_shape n n (from_one es) ->
  Forall (fun e => ecol e <= erow e) es ->
  is_matrix (read_mtx C file) n n (fun i j => if j <=? i then mat_of (from_one es) i j else mat_of (from_one es) j i).
Proof. exact @mtx_symmetric_lower. Qed.
Print Assumptions C79_symmetric_matrix.

(** Comments do not matter otherwise, nor does the layout of the entries. *)
Theorem C79_general_file :
  forall (S : scalar) (C : codec S), ring_laws S ->
  forall (cs : list (list byte)) (rows cols n : Z) (es : list (entry S)) (file : list byte),
  mtx_file (triple_text C) cs rows cols n es file -> ~ Exists says_symmetric cs ->
  0 <= rows <= int_max -> 0 <= cols <= int_max -> 0 <= n <= int_max -> addable (from_one es) -> in_shape rows cols (from_one es) ->
  is_matrix (read_mtx C file) rows cols (mat_of (from_one es)).
Proof. exact @mtx_general_matrix. Qed.
Print Assumptions C79_general_file.

(** ReadMTXList: the same with values one. *)
Theorem C79_pattern_file :
  forall (S : scalar) (cs : list (list byte)) (rows cols n : Z) (ps : list (Z * Z)) (file : list byte),
  mtx_file pair_text cs rows cols n ps file -> 0 <= rows <= int_max -> 0 <= cols <= int_max -> 0 <= n <= int_max -> seqb (s1 : car S) s1 = true ->
  (Exists says_symmetric cs -> in_shape rows cols (mirror (from_one (ones (S := S) ps))) ->
     assembles (S := S) (read_mtx_list file) rows cols (mirror (from_one (ones ps)))) /\
  (~ Exists says_symmetric cs -> in_shape rows cols (from_one (ones (S := S) ps)) ->
     assembles (S := S) (read_mtx_list file) rows cols (from_one (ones ps))).
Proof. exact @mtx_pattern. Qed.
Print Assumptions C79_pattern_file.

(** A symmetric file that lists both triangles counts each off-diagonal entry twice. *)
Theorem C79_both_triangles_counted_twice :
  exists f B, f = txt "%symmetric
2 2 2
2 1 5
1 2 5
" /\ read_mtx int_codec f = Ok B /\ csr_mat B 0 1 = 10 /\ csr_mat B 1 0 = 10.
Proof.
  eexists. result_of (read_mtx int_codec (txt "%symmetric
2 2 2
2 1 5
1 2 5
")) ltac:(fun B => exists B). split; [reflexivity|]. split; [computed|]. split; reflexivity.
Qed.
Print Assumptions C79_both_triangles_counted_twice.

Example C79_instance :
  mtx_file (triple_text int_codec) [txt "%%MatrixMarket matrix coordinate real symmetric"; txt "% a comment"] 3 3 1 [(2, 1, 5)] (txt "%%MatrixMarket matrix coordinate real symmetric
% a comment
3 3 1
2 1 5") /\ Exists says_symmetric [txt "%%MatrixMarket matrix coordinate real symmetric"; txt "% a comment"] /\
  addable (from_one (S := Zs) [(2, 1, 5)]) /\ in_shape 3 3 (from_one (S := Zs) [(2, 1, 5)]) /\ in_shape 3 3 (mirror (from_one (S := Zs) [(2, 1, 5)])) /\
  Forall (fun e : entry Zs => ecol e <= erow e) [(2, 1, 5)].
Proof.
  split.
  - split; [apply Forall_cons; [exists (txt "%MatrixMarket matrix coordinate real symmetric")|apply Forall_cons; [exists (txt " a comment")|apply Forall_nil]]; (split; [reflexivity|]; vm_compute; intuition discriminate)|].
    exists (txt "2 1 5"). split; [|reflexivity].
    apply (file_rec _ [] (2, 1, 5) (txt "2 1 5") [] []); [constructor| |exact I|constructor; constructor].
    exists (txt "2 1"), [SP], (txt "5"). split; [reflexivity|]. split; [exists (txt "2"), [SP], (txt "1"); repeat split; try reflexivity; try discriminate; repeat constructor|].
    split; [split; [repeat constructor|discriminate]|]. apply (int_reads 5). split; discriminate.
  - split; [apply contains_symmetric; reflexivity|]. split; [repeat constructor; discriminate|]. split; [repeat constructor; discriminate|]. split; [repeat constructor; discriminate|].
    repeat constructor; discriminate.
Qed.

(* ---------------------------------------------------------------- C80 *)

(** ReadText reads the numbers whatever the white space. *)
Theorem C80_text_any_layout :
  forall (S : scalar) (C : codec S) (vs : list (car S)) (file : list byte),
  file_of (reads_as (tc_scan C)) vs file -> read_text C file = Ok vs.
Proof. exact @read_text_any. Qed.
Print Assumptions C80_text_any_layout.

(** So do the coordinate and adjacency readers, with the entries in any order (with exact
    arithmetic only the sums matter). *)
Theorem C80_coo_any_layout :
  forall (S : scalar) (C : codec S) (es : list (entry S)) (file : list byte) (symmetric : bool),
  file_of (triple_text C) es file -> addable es ->
  assembles (read_coo_list C file symmetric) (Z.max 1 (bound erow (maybe_mirror symmetric es))) (Z.max 1 (bound ecol (maybe_mirror symmetric es)))
    (maybe_mirror symmetric es).
Proof. exact @read_coo_any. Qed.
Print Assumptions C80_coo_any_layout.
Theorem C80_adj_any_layout :
  forall (S : scalar) (ps : list (Z * Z)) (file : list byte) (symmetric : bool),
  file_of pair_text ps file -> Forall (fun p => 0 <= fst p /\ 0 <= snd p) ps -> seqb (s1 : car S) s1 = true ->
  assembles (S := S) (read_adj_list file symmetric) (Z.max 1 (bound erow (maybe_mirror symmetric (ones (S := S) ps))))
    (Z.max 1 (bound ecol (maybe_mirror symmetric (ones (S := S) ps)))) (maybe_mirror symmetric (ones ps)).
Proof. exact @read_adj_any. Qed.
Print Assumptions C80_adj_any_layout.
Theorem C80_table_any_layout :
  forall (S : scalar) (rows : list (list Z)) (file : list byte),
  table_file rows file -> List.concat rows <> [] -> (forall c, In c (List.concat rows) -> 0 <= c) ->
  exists A : csr S, read_table file = Ok A /\ csr_valid A /\ c_rows A = zlen rows /\ c_cols A = col_bound (List.concat rows) /\
    entries A = table_entries rows.
Proof. exact @read_table_any. Qed.
Print Assumptions C80_table_any_layout.

Example C80_instance :
  file_of (reads_as (tc_scan int_codec)) [7; -3] (txt "
 7	-3 ") /\ table_file [[2; 0]; []] (txt " 2  0

") /\ read_table (S := Zs) (txt " 2  0

") = Ok (@CSR Zs 2 3 [0; 2; 2] [2; 0] [1; 1]).
Proof.
  split; [|split; [|computed]].
  - apply (file_rec _ [NL; SP] 7 (txt "7") (txt "	-3 ") [-3]); [repeat constructor|apply (int_reads 7); split; discriminate|reflexivity|].
    apply (file_rec _ [9] (-3) (txt "-3") [SP] []); [repeat constructor|apply (int_reads (-3)); split; discriminate|reflexivity|constructor; repeat constructor].
  - apply (table_row [2; 0] (txt " 2  0") [[]] [NL]); [|vm_compute; intuition discriminate|apply (table_row [] [] [] []); [constructor; constructor|intros []|constructor]].
    apply (file_rec _ [SP] 2 (txt "2") (txt "  0") [0]); [repeat constructor|split; [split; discriminate|reflexivity]|reflexivity|].
    apply (file_rec _ [SP; SP] 0 (txt "0") [] []); [repeat constructor|split; [split; discriminate|reflexivity]|exact I|constructor; constructor].
Qed.

(* ---------------------------------------------------------------- C81 *)

(** The readers on any sequence of bytes whatever.  [takes]: reading a number consumes
    characters, as operator>> does.  ReadText returns the numbers before the first thing that is
    none. *)
Theorem C81_text :
  forall (S : scalar) (C : codec S) (file : list byte), takes (tc_scan C) ->
  read_text C file = Ok (records (extract_ok (tc_scan C)) file).
Proof. exact @text_anything. Qed.
Print Assumptions C81_text.

(** The coordinate reader returns the valid matrix of the entries before the first thing that is
    none, or throws because an index is negative (or a value a NaN). *)
Theorem C81_coordinates :
  forall (S : scalar) (C : codec S) (file : list byte) (symmetric : bool), takes (tc_scan C) ->
  let es := records (extract3 scan_int scan_int (tc_scan C)) file in
  (addable es /\ assembles (read_coo_list C file symmetric) (Z.max 1 (bound erow (maybe_mirror symmetric es)))
     (Z.max 1 (bound ecol (maybe_mirror symmetric es))) (maybe_mirror symmetric es)) \/
  (~ addable es /\ read_coo_list C file symmetric = Fail FAssert).
Proof. exact @coo_anything. Qed.
Print Assumptions C81_coordinates.
Theorem C81_adjacency :
  forall (S : scalar) (file : list byte) (symmetric : bool), seqb (s1 : car S) s1 = true ->
  let es := ones (S := S) (records (extract2 scan_int scan_int) file) in
  (addable es /\ assembles (S := S) (read_adj_list file symmetric) (Z.max 1 (bound erow (maybe_mirror symmetric es)))
     (Z.max 1 (bound ecol (maybe_mirror symmetric es))) (maybe_mirror symmetric es)) \/
  (~ addable es /\ read_adj_list (S := S) file symmetric = Fail FAssert).
Proof. exact @adj_anything. Qed.
Print Assumptions C81_adjacency.

(** A Matrix Market reader that returns, returns a valid matrix. *)
Theorem C81_matrix_market :
  forall (S : scalar) (C : codec S) (file : list byte) (A : csr S),
  (takes (tc_scan C) -> read_mtx C file = Ok A -> csr_valid A) /\ (read_mtx_list file = Ok A -> csr_valid A).
Proof. exact (fun S C file A => conj (mtx_valid C file A) (mtx_list_valid file A)). Qed.
Print Assumptions C81_matrix_market.

(** The table reader: a valid matrix, or throws for a negative index; a file without any index is
    undefined behaviour. *)
Theorem C81_table_partial :
  forall (S : scalar) (file : list byte), let rows := table_lines file in
  (List.concat rows = [] /\ read_table (S := S) file = Fail FUB) \/
  ((exists c, In c (List.concat rows) /\ c < 0) /\ read_table (S := S) file = Fail FAssert) \/
  exists A : csr S, read_table file = Ok A /\ csr_valid A /\ c_rows A = zlen rows /\ c_cols A = col_bound (List.concat rows) /\
    entries A = table_entries rows.
Proof. exact @table_anything. Qed.
Print Assumptions C81_table_partial.

(** A compressed-row file whose offsets are not ordered is accepted and gives an invalid matrix;
    an empty file, or a Matrix Market file without sizes, reads uninitialised variables. *)
Theorem C81_refuted :
  (exists B, read_csr int_codec (txt "2 2 0 2 1 0 7") = Ok B /\ ~ csr_valid B) /\
  read_csr int_codec [] = Fail FUB /\ read_mtx int_codec (txt "% nothing") = Fail FUB /\ read_table (S := Zs) [] = Fail FUB.
Proof.
  split; [|split; [reflexivity|split; reflexivity]]. result_of (read_csr int_codec (txt "2 2 0 2 1 0 7")) ltac:(fun B => exists B). split; [computed|].
  intros V. pose proof (cv_mono V 1 ltac:(cbn; lia)) as H. vm_compute in H. apply H. reflexivity.
Qed.
Print Assumptions C81_refuted.

Example C81_instance :
  takes (tc_scan double_codec) /\ takes (tc_scan int_codec) /\
  read_coo_list int_codec (txt "0 1 5 oops 1 1 7") false = Ok (@CSR Zs 1 2 [0; 1] [1] [5]) /\
  read_coo_list int_codec (txt "0 -1 5") false = Fail FAssert /\
  (exists A, read_mtx int_codec (txt "2 2 1 1 1 1") = Ok A) /\ table_lines (txt "1 x 2
0") = [[1]; [0]].
Proof.
  split; [exact scan_double_takes|]. split; [exact scan_int_consumes|]. split; [computed|]. split; [computed|]. split; [|computed].
  result_of (read_mtx int_codec (txt "2 2 1 1 1 1")) ltac:(fun B => exists B). computed.
Qed.
