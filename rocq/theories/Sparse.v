(** Model of SparseMatrix<T> (include/sparsematrix.hpp).
    Simplification throughout: one value type instead of the three template
    parameters T, U, V (so no implicit int/double conversions). *)

From Coq Require Import ZArith List Bool Permutation Sorted.
From Verif Require Import Base Scalar Spec Dense.
Import ListNotations.
Open Scope Z_scope.

(** The nest used by most members:
      for (int i = 0; i < rows_; ++i)
        for (int j = indptr_[i]; j < indptr_[i + 1]; ++j) body(i, j)
    The bodies below never write indptr_, so the bound is read once per row. *)
Definition for_entries {St : Type} (rows : Z) (ip : list Z) (s : St)
    (body : Z -> Z -> St -> res St) : res St :=
  for_ 0 rows s (fun i s =>
    lo <- get ip i ;; hi <- get ip (i + 1) ;;
    for_ lo hi s (fun j s => body i j s)).

Section Sparse.
Context {S : scalar}.
Notation T := (car S).
Notation csr := (csr S).

(** sparsematrix.hpp:444-449  SparseMatrix() *)
Definition sp_empty : csr := CSR 0 0 [0] [] [].

(** sparsematrix.hpp:458-464  SparseMatrix(int rows, int cols); operator.cpp:18-23 checks the sizes *)
Definition sp_zero (rows cols : Z) : res csr :=
  assert_ (0 <=? rows) ;;; assert_ (0 <=? cols) ;;;
  p <- vec (rows + 1) 0 ;; Ok (CSR rows cols p [] []).

(** *std::max_element / *std::min_element over a range known to be non-empty. *)
Definition max_elem (l : list Z) : res Z :=
  match l with [] => Fail FUB | a :: l' => Ok (fold_left Z.max l' a) end.
Definition min_elem (l : list Z) : res Z :=
  match l with [] => Fail FUB | a :: l' => Ok (fold_left Z.min l' a) end.

(** sparsematrix.hpp:466-483  SparseMatrix(indptr, indices, data, rows, cols).
    operator.cpp:18-23 checks the sizes first; rows_ + 1u is computed in Z. *)
Definition sp_make (ip ix : list Z) (d : list T) (rows cols : Z) : res csr :=
  assert_ (0 <=? rows) ;;; assert_ (0 <=? cols) ;;;
  assert_ (zlen ip =? rows + 1) ;;;
  assert_ (zlen ix =? zlen d) ;;;
  p0 <- get ip 0 ;;
  assert_ (p0 =? 0) ;;;
  (if 0 <? zlen ix
   then mx <- max_elem ix ;; assert_ (mx <? cols) ;;;
        mn <- min_elem ix ;; assert_ (0 <=? mn)
   else Ok tt) ;;;
  Ok (CSR rows cols ip ix d).

(** sparsematrix.hpp:485-492  SparseMatrix(std::vector<T> diag) *)
Definition sp_diag (d : list T) : csr :=
  CSR (zlen d) (zlen d) (zrange 0 (zlen d + 1)) (zrange 0 (zlen d)) d.

(** sparsematrix.hpp:501-505  move constructor: the new object starts from the
    default member initialisers (Operator() gives 0 x 0, the three vectors are empty
    because this constructor names no member) and is swapped with the source.
    Result: (new object, moved-from object). *)
Definition sp_move (A : csr) : csr * csr := (A, CSR 0 0 [] [] []).

(** sparsematrix.hpp:515-523  swap *)
Definition sp_swap (A B : csr) : csr * csr := (B, A).

(** sparsematrix.hpp:912-916  nnz *)
Definition sp_nnz (A : csr) : Z := zlen (c_val A).

(** sparsematrix.hpp:562-575  ToDense(DenseMatrix& dense) const; [out] is the previous
    content of the argument. *)
Definition sp_to_dense_into (A : csr) (out : dense S) : res (dense S) :=
  out <- d_set_size out (c_rows A) (c_cols A) ;;
  for_entries (c_rows A) (c_ptr A) (d_fill out s0) (fun i j out =>
    c <- get (c_idx A) j ;; v <- get (c_val A) j ;; d_set out i c v).

(** sparsematrix.hpp:552-560  ToDense() const *)
Definition sp_to_dense (A : csr) : res (dense S) :=
  out <- d_zeros (c_rows A) (c_cols A) ;; sp_to_dense_into A out.

(** sparsematrix.hpp:763-776  TransposeDense(DenseMatrix& output) const *)
Definition sp_transpose_dense_into (A : csr) (out : dense S) : res (dense S) :=
  out <- d_set_size out (c_cols A) (c_rows A) ;;
  for_entries (c_rows A) (c_ptr A) (d_fill out s0) (fun i j out =>
    c <- get (c_idx A) j ;; v <- get (c_val A) j ;; d_set out c i v).

(** std::sort(first, last, cmp) on a range of ints: the standard only promises a
    sorted permutation, so the model is parametrised by the function used. *)
Definition sorter : Type := (Z -> Z -> bool) -> list Z -> list Z.

(** What std::sort requires of the comparator ... *)
Record strict_weak_order (cmp : Z -> Z -> bool) : Prop := {
  swo_irrefl : forall a, cmp a a = false;
  swo_trans : forall a b c, cmp a b = true -> cmp b c = true -> cmp a c = true;
  swo_incomp : forall a b c, cmp a b = false -> cmp b c = false -> cmp a c = false
}.

(** ... and what it promises then: a permutation without inversions. *)
Definition sorts (srt : sorter) : Prop :=
  forall cmp l, strict_weak_order cmp ->
    Permutation l (srt cmp l) /\ StronglySorted (fun a b => cmp b a = false) (srt cmp l).

(** A sub-range [lo, hi) of a vector is replaced by its sorted version. *)
Definition sort_range (srt : sorter) (cmp : Z -> Z -> bool) (l : list Z) (lo hi : Z) : res (list Z) :=
  if (0 <=? lo) && (lo <=? hi) && (hi <=? zlen l)
  then Ok (firstn (Z.to_nat lo) l
           ++ srt cmp (firstn (Z.to_nat (hi - lo)) (skipn (Z.to_nat lo) l))
           ++ skipn (Z.to_nat hi) l)
  else Fail FUB.

(** std::transform(begin(p), end(p), ..., [&](int i){ return l[i]; }) *)
Fixpoint gather {A : Type} (l : list A) (p : list Z) : res (list A) :=
  match p with
  | [] => Ok []
  | i :: p' => a <- get l i ;; r <- gather l p' ;; Ok (a :: r)
  end.

(** sparsematrix.hpp:577-614  SortIndices().  The comparator reads indices_[i] for
    elements of the permutation, which are positions; [zn] is used for these reads. *)
Definition sp_sort (srt : sorter) (A : csr) : res csr :=
  let cmp := fun i j => zn 0 (c_idx A) i <? zn 0 (c_idx A) j in
  p <- for_ 0 (c_rows A) (zrange 0 (zlen (c_idx A))) (fun i p =>
         lo <- get (c_ptr A) i ;; hi <- get (c_ptr A) (i + 1) ;;
         sort_range srt cmp p lo hi) ;;
  ix <- gather (c_idx A) p ;;
  d <- gather (c_val A) p ;;
  Ok (CSR (c_rows A) (c_cols A) (c_ptr A) ix d).

(** sparsematrix.hpp:643-665  Mult(const DenseMatrix& input, DenseMatrix& output) const *)
Definition sp_mult_dense (A : csr) (X out : dense S) : res (dense S) :=
  assert_ (d_rows X =? c_cols A) ;;;
  out <- d_set_size out (c_rows A) (d_cols X) ;;
  for_ 0 (d_cols X) (d_fill out s0) (fun k out =>
    for_ 0 (c_rows A) out (fun i out =>
      lo <- get (c_ptr A) i ;; hi <- get (c_ptr A) (i + 1) ;;
      v <- for_ lo hi s0 (fun j v =>
             c <- get (c_idx A) j ;; a <- get (c_val A) j ;; x <- d_get X c k ;;
             Ok (sadd v (smul a x))) ;;
      d_set out i k v)).

(** sparsematrix.hpp:667-685  MultAT(const DenseMatrix& input, DenseMatrix& output) const *)
Definition sp_multAT_dense (A : csr) (X out : dense S) : res (dense S) :=
  assert_ (d_rows X =? c_rows A) ;;;
  out <- d_set_size out (c_cols A) (d_cols X) ;;
  for_ 0 (d_cols X) (d_fill out s0) (fun k out =>
    for_entries (c_rows A) (c_ptr A) out (fun i j out =>
      c <- get (c_idx A) j ;; a <- get (c_val A) j ;; x <- d_get X i k ;;
      d_mod out c k (fun o => sadd o (smul a x)))).

(** sparsematrix.hpp:687-709  MultCT(const DenseMatrix& input, DenseMatrix& output) const *)
Definition sp_multCT_dense (A : csr) (X out : dense S) : res (dense S) :=
  assert_ (d_rows X =? c_cols A) ;;;
  out <- d_set_size out (d_cols X) (c_rows A) ;;
  for_ 0 (d_cols X) (d_fill out s0) (fun k out =>
    for_ 0 (c_rows A) out (fun i out =>
      lo <- get (c_ptr A) i ;; hi <- get (c_ptr A) (i + 1) ;;
      v <- for_ lo hi s0 (fun j v =>
             c <- get (c_idx A) j ;; a <- get (c_val A) j ;; x <- d_get X c k ;;
             Ok (sadd v (smul a x))) ;;
      d_set out k i v)).

(** sparsematrix.hpp:711-751  Transpose() const *)
Definition sp_transpose (A : csr) : res csr :=
  ip <- vec (c_cols A + 1) 0 ;;
  ix <- vec (sp_nnz A) 0 ;;
  d <- vec (sp_nnz A) s0 ;;
  ip <- foldM (fun ip col => n <- get ip (col + 1) ;; set ip (col + 1) (n + 1)) (c_idx A) ip ;;
  ip <- for_ 0 (c_cols A) ip (fun i ip =>
          a <- get ip (i + 1) ;; b <- get ip i ;; set ip (i + 1) (a + b)) ;;
  '(ip, ix, d) <- for_entries (c_rows A) (c_ptr A) (ip, ix, d) (fun i j st =>
          let '(ip, ix, d) := st in
          row <- get (c_idx A) j ;; v <- get (c_val A) j ;;
          p <- get ip row ;; ix <- set ix p i ;; d <- set d p v ;;
          ip <- set ip row (p + 1) ;;
          Ok (ip, ix, d)) ;;
  ip <- for_down (c_cols A) 0 ip (fun i ip => a <- get ip (i - 1) ;; set ip i a) ;;
  ip <- set ip 0 0 ;;
  sp_make ip ix d (c_cols A) (c_rows A).

(** sparsematrix.hpp:778-801  GetDiag() const *)
Definition sp_get_diag (A : csr) : res (list T) :=
  assert_ (c_rows A =? c_cols A) ;;;
  out <- vec (c_rows A) s0 ;;
  for_ 0 (c_rows A) out (fun i out =>
    lo <- get (c_ptr A) i ;; hi <- get (c_ptr A) (i + 1) ;;
    v <- for_ lo hi s0 (fun j v =>
           c <- get (c_idx A) j ;; if c =? i then get (c_val A) j else Ok v) ;;
    set out i v).

(** Members that run over all entries and rewrite data_ only. *)
Definition sp_upd_data (A : csr) (body : Z -> Z -> list T -> res (list T)) : res csr :=
  d <- for_entries (c_rows A) (c_ptr A) (c_val A) body ;;
  Ok (CSR (c_rows A) (c_cols A) (c_ptr A) (c_idx A) d).

(** sparsematrix.hpp:803-818  AddDiag(const std::vector<T>& diag) *)
Definition sp_add_diag (A : csr) (diag : list T) : res csr :=
  assert_ (c_rows A =? c_cols A) ;;;
  sp_upd_data A (fun i j d =>
    c <- get (c_idx A) j ;;
    if c =? i then a <- get d j ;; b <- get diag i ;; set d j (sadd a b) else Ok d).

(** sparsematrix.hpp:820-835  AddDiag(T val) *)
Definition sp_add_diag_val (A : csr) (v : T) : res csr :=
  assert_ (c_rows A =? c_cols A) ;;;
  sp_upd_data A (fun i j d =>
    c <- get (c_idx A) j ;;
    if c =? i then a <- get d j ;; set d j (sadd a v) else Ok d).

(** sparsematrix.hpp:846-909  GetSubMatrix(rows, cols, marker) const.
    Result: (submatrix, marker afterwards). *)
Definition sp_submatrix (A : csr) (rows cols marker : list Z) : res (csr * list Z) :=
  assert_ (c_cols A <=? zlen marker) ;;;
  ip <- vec (zlen rows + 1) 0 ;;
  ip <- set ip 0 0 ;;
  marker <- for_ 0 (zlen cols) marker (fun i marker => c <- get cols i ;; set marker c i) ;;
  '(ip, n) <- for_ 0 (zlen rows) (ip, 0) (fun i st =>
      let (ip, n) := st in
      row <- get rows i ;;
      assert_ (row <? c_rows A) ;;;
      lo <- get (c_ptr A) row ;; hi <- get (c_ptr A) (row + 1) ;;
      n <- for_ lo hi n (fun j n =>
             c <- get (c_idx A) j ;; m <- get marker c ;;
             Ok (if m =? -1 then n else n + 1)) ;;
      ip <- set ip (i + 1) n ;;
      Ok (ip, n)) ;;
  ix <- vec n 0 ;;
  d <- vec n s0 ;;
  '(ix, d, total) <- foldM (fun st row =>
      lo <- get (c_ptr A) row ;; hi <- get (c_ptr A) (row + 1) ;;
      for_ lo hi st (fun j st =>
        let '(ix, d, total) := st in
        c <- get (c_idx A) j ;; m <- get marker c ;;
        if m =? -1 then Ok (ix, d, total)
        else ix <- set ix total m ;;
             v <- get (c_val A) j ;; d <- set d total v ;;
             Ok (ix, d, total + 1))) rows (ix, d, 0) ;;
  marker <- foldM (fun marker i => set marker i (-1)) cols marker ;;
  B <- sp_make ip ix d (zlen rows) (zlen cols) ;;
  Ok (B, marker).

(** sparsematrix.hpp:837-844  GetSubMatrix(rows, cols) const *)
Definition sp_submatrix_new (A : csr) (rows cols : list Z) : res csr :=
  marker <- vec (c_cols A) (-1) ;;
  r <- sp_submatrix A rows cols marker ;; Ok (fst r).

(** sparsematrix.hpp:960-970 and 1002-1012  GetIndices(int row), GetData(int row):
    a copy of the range [indptr[row], indptr[row+1]). *)
Definition sp_row_range {X : Type} (A : csr) (l : list X) (row : Z) : res (list X) :=
  assert_ ((0 <=? row) && (row <? c_rows A)) ;;;
  lo <- get (c_ptr A) row ;; hi <- get (c_ptr A) (row + 1) ;;
  if (0 <=? lo) && (lo <=? hi) && (hi <=? zlen l)
  then Ok (firstn (Z.to_nat (hi - lo)) (skipn (Z.to_nat lo) l))
  else Fail FUB.
Definition sp_get_indices (A : csr) (row : Z) := sp_row_range A (c_idx A) row.
Definition sp_get_data (A : csr) (row : Z) := sp_row_range A (c_val A) row.

(** sparsematrix.hpp:1207-1213  RowSize *)
Definition sp_row_size (A : csr) (row : Z) : res Z :=
  assert_ ((0 <=? row) && (row <? c_rows A)) ;;;
  hi <- get (c_ptr A) (row + 1) ;; lo <- get (c_ptr A) row ;; Ok (hi - lo).

(** sparsematrix.hpp:1034-1052  Mult(const VectorView<U>& input, VectorView<V> output) const *)
Definition sp_mult (A : csr) (x out : list T) : res (list T) :=
  assert_ (zlen x =? c_cols A) ;;;
  assert_ (zlen out =? c_rows A) ;;;
  for_ 0 (c_rows A) out (fun i out =>
    lo <- get (c_ptr A) i ;; hi <- get (c_ptr A) (i + 1) ;;
    v <- for_ lo hi s0 (fun j v =>
           a <- get (c_val A) j ;; c <- get (c_idx A) j ;; xc <- get x c ;;
           Ok (sadd v (smul a xc))) ;;
    set out i v).

(** sparsematrix.hpp:1054-1070  MultAT(const VectorView<U>& input, VectorView<V> output) const *)
Definition sp_multAT (A : csr) (x out : list T) : res (list T) :=
  assert_ (zlen x =? c_rows A) ;;;
  assert_ (zlen out =? c_cols A) ;;;
  for_entries (c_rows A) (c_ptr A) (map (fun _ => s0) out) (fun i j out =>
    c <- get (c_idx A) j ;; a <- get (c_val A) j ;; xi <- get x i ;;
    o <- get out c ;; set out c (sadd o (smul a xi))).

(** sparsematrix.hpp:1014-1022, 1024-1032: the overloads that allocate the output. *)
Definition sp_mult_new (A : csr) (x : list T) : res (list T) :=
  out <- vec (c_rows A) s0 ;; sp_mult A x out.
Definition sp_multAT_new (A : csr) (x : list T) : res (list T) :=
  out <- vec (c_cols A) s0 ;; sp_multAT A x out.

(** sparsematrix.hpp:1100-1168  Mult(const SparseMatrix<U>& rhs, std::vector<int>& marker) const *)
Definition sp_spmult_marker (A B : csr) (marker : list Z) : res csr :=
  assert_ (c_rows B =? c_cols A) ;;;
  let marker := repeat (-1) (Z.to_nat (c_cols B)) in
  ip <- vec (c_rows A + 1) 0 ;;
  ip <- set ip 0 0 ;;
  '(marker1, ip, n) <- for_ 0 (c_rows A) (marker, ip, 0) (fun i st =>
      let '(marker, ip, n) := st in
      lo <- get (c_ptr A) i ;; hi <- get (c_ptr A) (i + 1) ;;
      '(marker, n) <- for_ lo hi (marker, n) (fun j st =>
          c <- get (c_idx A) j ;;
          lo2 <- get (c_ptr B) c ;; hi2 <- get (c_ptr B) (c + 1) ;;
          for_ lo2 hi2 st (fun k st =>
            let (marker, n) := st in
            cb <- get (c_idx B) k ;; m <- get marker cb ;;
            if m =? i then Ok (marker, n)
            else marker <- set marker cb i ;; Ok (marker, n + 1))) ;;
      ip <- set ip (i + 1) n ;;
      Ok (marker, ip, n)) ;;
  let marker := map (fun _ => -1) marker1 in
  ix <- vec n 0 ;;
  d <- vec n s0 ;;
  '(marker, ix, d, total) <- for_ 0 (c_rows A) (marker, ix, d, 0) (fun i st =>
      let row_nnz := snd st in
      lo <- get (c_ptr A) i ;; hi <- get (c_ptr A) (i + 1) ;;
      for_ lo hi st (fun j st =>
        c <- get (c_idx A) j ;;
        lo2 <- get (c_ptr B) c ;; hi2 <- get (c_ptr B) (c + 1) ;;
        for_ lo2 hi2 st (fun k st =>
          let '(marker, ix, d, total) := st in
          cb <- get (c_idx B) k ;; m <- get marker cb ;;
          a <- get (c_val A) j ;; b <- get (c_val B) k ;;
          if m <? row_nnz
          then marker <- set marker cb total ;;
               ix <- set ix total cb ;;
               d <- set d total (smul a b) ;;
               Ok (marker, ix, d, total + 1)
          else o <- get d m ;; d <- set d m (sadd o (smul a b)) ;;
               Ok (marker, ix, d, total)))) ;;
  sp_make ip ix d (c_rows A) (c_cols B).

(** sparsematrix.hpp:1091-1098  Mult(const SparseMatrix<U>& rhs) const *)
Definition sp_spmult (A B : csr) : res csr :=
  marker <- vec (c_cols B) 0 ;; sp_spmult_marker A B marker.

(** sparsematrix.hpp:1170-1180  operator*=(U val) *)
Definition sp_scale (A : csr) (v : T) : csr :=
  CSR (c_rows A) (c_cols A) (c_ptr A) (c_idx A) (map (fun a => smul a v) (c_val A)).

(** sparsematrix.hpp:1182-1194  operator/=(U val) *)
Definition sp_div (A : csr) (v : T) : res csr :=
  assert_ (negb (seqb v s0)) ;;;
  Ok (CSR (c_rows A) (c_cols A) (c_ptr A) (c_idx A) (map (fun a => sdiv a v) (c_val A))).

(** sparsematrix.hpp:1196-1205  operator=(U val) *)
Definition sp_fill (A : csr) (v : T) : res csr :=
  assert_ (negb (seqb v s0)) ;;;
  Ok (CSR (c_rows A) (c_cols A) (c_ptr A) (c_idx A) (map (fun _ => v) (c_val A))).

(** sparsematrix.hpp:1239-1244  Sum *)
Definition sp_sum (A : csr) : T := fold_left sadd (c_val A) s0.

(** sparsematrix.hpp:1246-1257  MaxNorm *)
Definition sp_max_norm (A : csr) : T := fold_left (fun s v => sadd s (sabs v)) (c_val A) s0.

(** sparsematrix.hpp:1283-1297  ScaleRows(const std::vector<T>& values) *)
Definition sp_scale_rows (A : csr) (values : list T) : res csr :=
  assert_ (zlen values =? c_rows A) ;;;
  d <- for_ 0 (c_rows A) (c_val A) (fun i d =>
         s <- get values i ;;
         lo <- get (c_ptr A) i ;; hi <- get (c_ptr A) (i + 1) ;;
         for_ lo hi d (fun j d => a <- get d j ;; set d j (smul a s))) ;;
  Ok (CSR (c_rows A) (c_cols A) (c_ptr A) (c_idx A) d).

(** sparsematrix.hpp:1299-1311  ScaleCols(const std::vector<T>& values) *)
Definition sp_scale_cols (A : csr) (values : list T) : res csr :=
  assert_ (zlen values =? c_cols A) ;;;
  sp_upd_data A (fun i j d =>
    c <- get (c_idx A) j ;; s <- get values c ;; a <- get d j ;; set d j (smul a s)).

(** sparsematrix.hpp:1313-1328  InverseScaleRows(const std::vector<T>& values) *)
Definition sp_inv_scale_rows (A : csr) (values : list T) : res csr :=
  assert_ (zlen values =? c_rows A) ;;;
  d <- for_ 0 (c_rows A) (c_val A) (fun i d =>
         s <- get values i ;;
         assert_ (negb (seqb s s0)) ;;;
         lo <- get (c_ptr A) i ;; hi <- get (c_ptr A) (i + 1) ;;
         for_ lo hi d (fun j d => a <- get d j ;; set d j (sdiv a s))) ;;
  Ok (CSR (c_rows A) (c_cols A) (c_ptr A) (c_idx A) d).

(** sparsematrix.hpp:1330-1345  InverseScaleCols(const std::vector<T>& values) *)
Definition sp_inv_scale_cols (A : csr) (values : list T) : res csr :=
  assert_ (zlen values =? c_cols A) ;;;
  sp_upd_data A (fun i j d =>
    c <- get (c_idx A) j ;; s <- get values c ;;
    assert_ (negb (seqb s s0)) ;;;
    a <- get d j ;; set d j (sdiv a s)).

(** sparsematrix.hpp:1259-1281  ScaleRows, ScaleCols, InverseScaleRows,
    InverseScaleCols with a (diagonal) SparseMatrix: its value array is used. *)
Definition sp_scale_rows_mat (A D : csr) : res csr := sp_scale_rows A (c_val D).
Definition sp_scale_cols_mat (A D : csr) : res csr := sp_scale_cols A (c_val D).
Definition sp_inv_scale_rows_mat (A D : csr) : res csr := sp_inv_scale_rows A (c_val D).
Definition sp_inv_scale_cols_mat (A D : csr) : res csr := sp_inv_scale_cols A (c_val D).

(** sparsematrix.hpp:1347-1361  PermuteCols(const std::vector<int>& perm) *)
Definition sp_permute_cols (A : csr) (perm : list Z) : res csr :=
  assert_ (zlen perm =? c_cols A) ;;;
  ix <- for_ 0 (zlen (c_idx A)) (c_idx A) (fun i ix =>
          c <- get ix i ;; p <- get perm c ;;
          assert_ (0 <=? p) ;;; assert_ (p <? c_cols A) ;;;
          set ix i p) ;;
  Ok (CSR (c_rows A) (c_cols A) (c_ptr A) ix (c_val A)).

(** sparsematrix.hpp:1363-1382  EliminateRowCol(int index) *)
Definition sp_elim_row_col (A : csr) (index : Z) : res csr :=
  assert_ (0 <=? index) ;;; assert_ (index <? c_rows A) ;;; assert_ (index <? c_cols A) ;;;
  sp_upd_data A (fun row j d =>
    col <- get (c_idx A) j ;;
    if (row =? index) || (col =? index)
    then set d j (if col =? row then s1 else s0) else Ok d).

(** sparsematrix.hpp:1384-1403  EliminateRowCol(const U& marker); the marker is a
    vector of flags. *)
Definition sp_elim_row_col_marker (A : csr) (marker : list bool) : res csr :=
  assert_ (c_rows A =? c_cols A) ;;;
  assert_ (c_cols A <=? zlen marker) ;;;
  sp_upd_data A (fun row j d =>
    col <- get (c_idx A) j ;;
    mr <- get marker row ;;
    b <- (if mr : bool then Ok true else get marker col) ;;
    if b : bool then set d j (if row =? col then s1 else s0) else Ok d).

(** sparsematrix.hpp:1405-1415  EliminateRow(int index) *)
Definition sp_elim_row (A : csr) (index : Z) : res csr :=
  assert_ (0 <=? index) ;;; assert_ (index <? c_rows A) ;;;
  lo <- get (c_ptr A) index ;; hi <- get (c_ptr A) (index + 1) ;;
  d <- for_ lo hi (c_val A) (fun j d => set d j s0) ;;
  Ok (CSR (c_rows A) (c_cols A) (c_ptr A) (c_idx A) d).

(** sparsematrix.hpp:1417-1433  EliminateCol(int index) *)
Definition sp_elim_col (A : csr) (index : Z) : res csr :=
  assert_ (0 <=? index) ;;; assert_ ((index <? c_cols A) || (c_cols A =? 0)) ;;;
  sp_upd_data A (fun row j d =>
    c <- get (c_idx A) j ;; if c =? index then set d j s0 else Ok d).

(** sparsematrix.hpp:1435-1451  EliminateCol(const U& marker) *)
Definition sp_elim_col_marker (A : csr) (marker : list bool) : res csr :=
  assert_ (c_cols A <=? zlen marker) ;;;
  sp_upd_data A (fun row j d =>
    c <- get (c_idx A) j ;; m <- get marker c ;; if m : bool then set d j s0 else Ok d).

(** sparsematrix.hpp:1453-1470  EliminateCol(const U& marker, x, b).
    Result: (matrix, b afterwards).  Reads of x and b are unchecked here as in the
    code (VectorView::operator[] asserts i < size; modelled as the checked access). *)
Definition sp_elim_col_bc (A : csr) (marker : list bool) (x b : list T) : res (csr * list T) :=
  assert_ (c_cols A <=? zlen marker) ;;;
  '(d, b) <- for_entries (c_rows A) (c_ptr A) (c_val A, b) (fun row j st =>
      let (d, b) := st in
      c <- get (c_idx A) j ;; m <- get marker c ;;
      if m : bool
      then a <- get d j ;;
           if negb (seqb a s0)
           then xc <- get x c ;; br <- get b row ;;
                b <- set b row (ssub br (smul a xc)) ;;
                d <- set d j s0 ;;
                Ok (d, b)
           else Ok (d, b)
      else Ok (d, b)) ;;
  Ok (CSR (c_rows A) (c_cols A) (c_ptr A) (c_idx A) d, b).

(** sparsematrix.hpp:1472-1500  EliminateZeros(T tolerance) *)
Definition sp_elim_zeros (A : csr) (tol : T) : res csr :=
  '(ip, ix, d) <- for_ 0 (c_rows A) ([0], [], []) (fun i st =>
      lo <- get (c_ptr A) i ;; hi <- get (c_ptr A) (i + 1) ;;
      '(ip, ix, d) <- for_ lo hi st (fun j st =>
          let '(ip, ix, d) := st in
          v <- get (c_val A) j ;;
          if slt tol (sabs v)
          then c <- get (c_idx A) j ;; Ok (ip, ix ++ [c], d ++ [v])
          else Ok (ip, ix, d)) ;;
      Ok (ip ++ [zlen ix], ix, d)) ;;
  Ok (CSR (c_rows A) (c_cols A) ip ix d).

End Sparse.
