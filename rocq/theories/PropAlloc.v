(** C105: what objects look like after std::bad_alloc, at every point where a request for memory can fail. *)

From Coq Require Import ZArith List Bool Lia.
From Verif Require Import Base Scalar Spec Dense Sparse Coo Lil Examples SortProofs Alloc AllocSpec AllocProofs AllocMore.
Import ListNotations.
Open Scope Z_scope.

(** Any sequence of members that change a SparseMatrix, whichever requests for memory fail: the program is never
    terminated, and the matrix is what the calls that returned make of it alone.  If every request is met all return. *)
Theorem C105_sparse_history :
  forall (S : scalar) (srt : sorter) (edits : list (edit (S := S))) (m : memory) (n : nat) (A : csr S),
  match run_caught (map (call_of srt) edits) m n A with
  | Done flags A' _ => length flags = length edits /\ foldM (edited srt) (chosen edits flags) A = Ok A' /\
                       (ample m -> flags = map (fun _ => true) edits)
  | BadAlloc _ _ => False
  | Failed e => exists before e0 after flags A0, edits = before ++ e0 :: after /\ length flags = length before /\
                  foldM (edited srt) (chosen before flags) A = Ok A0 /\ edited srt A0 e0 = Fail e
  | Terminated => False
  end.
Proof. exact @edits_ok. Qed.
Print Assumptions C105_sparse_history.

(** SortIndices and EliminateZeros, the two of them that ask for memory, alone. *)
Theorem C105_sort_and_eliminate :
  forall (S : scalar) (srt : sorter) (tol : car S),
  all_or_nothing (a_sort srt) (fun A : csr S => sp_sort srt A) /\
  all_or_nothing (a_elim_zeros tol) (fun A : csr S => sp_elim_zeros A tol).
Proof. exact (fun S srt tol => conj (sort_aon srt) (elim_zeros_aon tol)). Qed.
Print Assumptions C105_sort_and_eliminate.

(** CooMatrix::Add(i, j, val) and Vector::SetSize change nothing when they throw. *)
Theorem C105_coo_add :
  forall (S : scalar) (i j : Z) (v : car S), all_or_nothing (a_coo_add i j v) (fun M : coo S => coo_add M i j v).
Proof. exact @coo_add_aon. Qed.
Print Assumptions C105_coo_add.

Theorem C105_vector_set_size :
  forall (S : scalar) (size : Z) (val : car S),
  all_or_nothing (a_vec_set_size size val)
    (fun V => if size =? v_size V then Ok V else assert_ (0 <=? size) ;;; Ok (Vct (resize (v_data V) size val) size)).
Proof. exact @vec_set_size_aon. Qed.
Print Assumptions C105_vector_set_size.

(** Adding a block to a CooMatrix: if it throws, the entries before the one that found no memory are in the matrix. *)
Theorem C105_coo_block_partial :
  forall (S : scalar) (rows cols : list Z) (f : car S -> car S) (values : dense S) (m : memory) (n : nat) (M : coo S),
  dense_ok values ->
  match a_coo_add_dense rows cols f values m n M with
  | Done _ M' _ => M' = append M (block_entries rows cols f values)
  | BadAlloc M' _ => ~ ample m /\ exists k, (k < length (block_entries rows cols f values))%nat /\
                       M' = append M (firstn k (block_entries rows cols f values))
  | Failed e => e = FAssert
  | Terminated => False
  end.
Proof. exact (fun S rows cols f values m n M D => coo_block_adds rows cols f values D m n M). Qed.
Print Assumptions C105_coo_block_partial.

Theorem C105_coo_add_sym_refuted :
  forall (S : scalar) (i j : Z) (v : car S) (M : coo S) (m : memory) (n : nat),
  i <> j -> 0 <= i -> 0 <= j -> seqb v v = true ->
  (o_set M = true -> i < o_rows M /\ j < o_cols M /\ j < o_rows M /\ i < o_cols M) ->
  m n = true -> m (Datatypes.S n) = false ->
  exists M' n', a_coo_add_sym i j v m n M = BadAlloc M' n' /\ o_entries M' = o_entries M ++ [(i, j, v)].
Proof. exact @coo_sym_half. Qed.
Print Assumptions C105_coo_add_sym_refuted.

(** LilMatrix::Add: if it throws, every row holds what it held, and calling it again does what it would have done at first;
    but a matrix without a fixed size may have got new empty rows. *)
Theorem C105_lil_add_partial :
  forall (S : scalar) (i j : Z) (v : car S) (M : lil S) (m : memory) (n : nat),
  match a_lil_add i j v m n M with
  | Done _ M' _ => lil_add M i j v = Ok M'
  | BadAlloc M' _ => ~ ample m /\ l_rows M' = l_rows M /\ l_cols M' = l_cols M /\ l_set M' = l_set M /\
      (forall r, 0 <= r -> zn [] (l_lists M') r = zn [] (l_lists M) r) /\
      (zlen (l_lists M') = zlen (l_lists M) \/ l_set M = false /\ zlen (l_lists M') = Z.max (zlen (l_lists M)) (i + 1)) /\
      lil_add M' i j v = lil_add M i j v
  | Failed e => lil_add M i j v = Fail e
  | Terminated => False
  end.
Proof. exact @lil_add_alloc. Qed.
Print Assumptions C105_lil_add_partial.

Theorem C105_lil_add_refuted :
  forall (S : scalar) (i j : Z) (v : car S) (M : lil S) (m : memory) (n : nat),
  0 <= j -> seqb v v = true -> l_set M = false -> zlen (l_lists M) <= i ->
  m n = true -> m (Datatypes.S n) = false ->
  exists M' n', a_lil_add i j v m n M = BadAlloc M' n' /\ fst (lil_find_size M') > fst (lil_find_size M).
Proof. exact @lil_add_grows. Qed.
Print Assumptions C105_lil_add_refuted.

(** DenseMatrix::SetSize stores the new sizes before it asks for the memory: whenever that fails the matrix claims
    elements it does not have, and reading one the assertions accept is undefined. *)
Theorem C105_dense_set_size_refuted :
  forall (S : scalar) (D : dense S) (r c : Z) (m : memory) (n : nat),
  0 <= r -> 0 <= c -> zlen (d_data D) < r * c -> m n = false ->
  exists D' n', a_set_size r c m n D = BadAlloc D' n' /\ d_rows D' = r /\ d_cols D' = c /\
    in_range D' (r - 1) (c - 1) = true /\ d_get D' (r - 1) (c - 1) = Fail FUB.
Proof. exact @set_size_broken. Qed.
Print Assumptions C105_dense_set_size_refuted.

(** What remains true of every function with a DenseMatrix as output argument: its elements are still stored, so that
    SetSize to the sizes it had restores it, without a request for memory, and calling the function again
    does what it would have done at first. *)
Theorem C105_dense_output_partial :
  forall (S : scalar) (f : dense S -> res (dense S)) (r c : Z), sizes_output r c f ->
  forall (m : memory) (n : nat) (D : dense S),
  match a_output r c f m n D with
  | Done _ D' _ => f D = Ok D'
  | BadAlloc D' n' => d_rows D' = r /\ d_cols D' = c /\ d_data D' = d_data D /\ f D' = f D /\
      (dense_ok D -> forall m' k, a_set_size (d_rows D) (d_cols D) m' k D' = Done tt D k)
  | Failed e => f D = Fail e
  | Terminated => False
  end /\ (ample m -> forall D' n', a_output r c f m n D <> BadAlloc D' n').
Proof. exact @output_ok. Qed.
Print Assumptions C105_dense_output_partial.

Theorem C105_output_functions :
  forall (S : scalar) (D X : dense S) (A : csr S) (M : coo S),
  sizes_output (d_cols D) (d_rows D) (d_transpose_into D) /\
  sizes_output (c_rows A) (c_cols A) (sp_to_dense_into A) /\
  sizes_output (c_cols A) (c_rows A) (sp_transpose_dense_into A) /\
  sizes_output (fst (coo_find_size M)) (snd (coo_find_size M)) (coo_to_dense_into M) /\
  (d_rows X = c_cols A -> sizes_output (c_rows A) (d_cols X) (sp_mult_dense A X)) /\
  (d_rows X = c_rows A -> sizes_output (c_cols A) (d_cols X) (sp_multAT_dense A X)).
Proof.
  exact (fun S D X A M => conj (sized_transpose D) (conj (sized_to_dense A) (conj (sized_transpose_dense A)
    (conj (sized_coo M) (conj (sized_mult A X) (sized_multAT A X)))))).
Qed.
Print Assumptions C105_output_functions.

(** So for Transpose, ToDense, Mult and MultAT into a DenseMatrix. *)
Theorem C105_output_calls :
  forall (S : scalar) (D X : dense S) (A : csr S) (M : coo S),
  output_call (d_cols D) (d_rows D) (d_transpose_into D) (a_transpose D) /\
  output_call (c_rows A) (c_cols A) (sp_to_dense_into A) (a_to_dense A) /\
  output_call (fst (coo_find_size M)) (snd (coo_find_size M)) (coo_to_dense_into M) (a_coo_to_dense M) /\
  output_call (c_rows A) (d_cols X) (sp_mult_dense A X) (a_mult_dense A X) /\
  output_call (c_cols A) (d_cols X) (sp_multAT_dense A X) (a_multAT_dense A X).
Proof. exact @output_calls. Qed.
Print Assumptions C105_output_calls.

(** SparseMatrix::GetSubMatrix with a marker of the caller: if it throws, calling it again with the same columns works, only
    the entries of the marker at these columns have changed, and writing -1 to them restores it. *)
Theorem C105_submatrix_partial :
  forall (S : scalar) (A : csr S) (rows cols : list Z) (m : memory) (n : nat) (marker : list Z),
  match a_submatrix A rows cols m n marker with
  | Done B marker' _ => sp_submatrix A rows cols marker = Ok (B, marker')
  | BadAlloc marker' _ =>
      sp_submatrix A rows cols marker' = sp_submatrix A rows cols marker /\
      (forall p, 0 <= p < zlen marker -> ~ In p cols -> zn 0 marker' p = zn 0 marker p) /\
      ((forall k, In k marker -> k = -1) -> (forall c, In c cols -> 0 <= c < zlen marker) ->
       foldM (fun marker i => set marker i (-1)) cols marker' = Ok marker)
  | Failed e => sp_submatrix A rows cols marker = Fail e
  | Terminated => False
  end /\
  (ample m -> forall marker' n', a_submatrix A rows cols m n marker <> BadAlloc marker' n').
Proof. exact @submatrix_ok. Qed.
Print Assumptions C105_submatrix_partial.

(** But the marker is left written whenever the sub-matrix has an entry and the second request fails ... *)
Theorem C105_submatrix_marker_refuted :
  forall (S : scalar) (A : csr S) (rows cols : list Z) (m : memory) (n : nat) (marker : list Z) (B : csr S) (marker' : list Z),
  sp_submatrix A rows cols marker = Ok (B, marker') -> 0 < zlen (c_idx B) ->
  m n = true -> m (Datatypes.S n) = false ->
  exists mk n', a_submatrix A rows cols m n marker = BadAlloc mk n' /\ forall c, In c cols -> 0 <= zn 0 mk c.
Proof. exact @submatrix_marker_dirty. Qed.
Print Assumptions C105_submatrix_marker_refuted.

(** ... and the next call for other columns then returns another matrix than it should: exA restricted to column 1
    after a failed call for column 0. *)
Definition second_fails : memory := fun n => negb (Nat.eqb n 1).
Theorem C105_next_submatrix_refuted :
  exists mk n B B',
  a_submatrix exA [0; 1; 2; 3] [0] second_fails 0%nat [-1; -1; -1] = BadAlloc mk n /\
  sp_submatrix exA [0; 1; 2; 3] [1] mk = Ok (B, mk) /\
  sp_submatrix exA [0; 1; 2; 3] [1] [-1; -1; -1] = Ok (B', [-1; -1; -1]) /\
  zlen (c_val B) <> zlen (c_val B') /\ exists i, 0 <= i < 4 /\ csr_mat B i 0 <> csr_mat B' i 0.
Proof.
  eexists _, _, _, _. split; [vm_compute; reflexivity|]. split; [vm_compute; reflexivity|]. split; [vm_compute; reflexivity|].
  split; [vm_compute; discriminate|]. exists 0. split; [lia|]. vm_compute. discriminate.
Qed.
Print Assumptions C105_next_submatrix_refuted.

(** The copy constructors are declared noexcept, and so is Vector::operator=: a copy never throws; if memory runs out
    the program is terminated, whatever it would catch. *)
Theorem C105_copy_partial :
  forall (S : scalar) (A B : csr S) (m : memory) (n : nat),
  (exists k, a_copy A m n B = Done tt A k) \/ (~ ample m /\ a_copy A m n B = Terminated).
Proof. exact @copy_ok. Qed.
Print Assumptions C105_copy_partial.

Theorem C105_copy_terminates_refuted :
  forall (S : scalar) (A B : csr S) (m : memory) (n : nat), 0 < zlen (c_ptr A) -> m n = false -> a_copy A m n B = Terminated.
Proof. exact @copy_terminates. Qed.
Print Assumptions C105_copy_terminates_refuted.

Theorem C105_vector_assign_refuted :
  forall (S : scalar) (x : list (car S)) (m : memory) (n : nat) (V : vector),
  a_vec_assign x m n V =
  if (zlen (v_data V) <? zlen x) && negb (m n) then Terminated
  else Done tt (Vct x (zlen x)) (if zlen (v_data V) <? zlen x then Datatypes.S n else n).
Proof. exact @vec_assign_ok. Qed.
Print Assumptions C105_vector_assign_refuted.

(** Four members on exA; the request for the sorted values (the third) and one inside EliminateZeros (the fifth) fail.  The
    scalings remain, and SortIndices works when called again. *)
Definition exMemory : memory := fun n => negb (Nat.eqb n 2 || Nat.eqb n 4).
Example C105_instance :
  (exists A n, run_caught (map (call_of insertion_sort) [ESort; EScale (S := Zs) 2; EZeros (S := Zs) 0; EScale (S := Zs) 5; ESort]) exMemory 0%nat exA =
   Done [false; true; false; true; true] A n /\
   sp_sort insertion_sort (sp_scale (S := Zs) exA 10) = Ok A) /\
  (exists D n, a_transpose (@Dense Zs 1 2 [3; 4]) (fun _ => false) 0%nat (d_empty (S := Zs)) = BadAlloc D n /\ d_get D 0 0 = Fail FUB /\ in_range D 0 0 = true) /\
  (exists M n, a_coo_add_sym 0 1 (5 : car Zs) second_fails 0%nat (@Coo Zs 2 2 true []) = BadAlloc M n /\ o_entries M = [(0, 1, 5)]).
Proof.
  split; [|split].
  - eexists _, _. vm_compute. auto.
  - eexists _, _. vm_compute. auto.
  - eexists _, _. vm_compute. auto.
Qed.
