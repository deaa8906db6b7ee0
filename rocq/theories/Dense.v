(** Model of DenseMatrix (include/densematrix.hpp, src/densematrix.cpp).
    The element type is an arbitrary [scalar] (the code uses double).
    LAPACK-based members (SVD, QR, Invert) are in DenseFactor.v; dgemm_ is modelled by
    its interface contract in [dgemm_]. *)

From Coq Require Import ZArith List Bool.
From Verif Require Import Base Scalar Spec.
Import ListNotations.
Open Scope Z_scope.

Section Dense.
Context {S : scalar}.
Notation T := (car S).

(** Members of DenseMatrix: rows_, cols_ (from Operator) and data_
    (densematrix.hpp:579). *)
Record dense : Type := Dense {
  d_rows : Z;
  d_cols : Z;
  d_data : list T
}.

(** The object invariant: sizes non-negative, data_.size() == rows_ * cols_. *)
Definition dense_ok (D : dense) : Prop :=
  0 <= d_rows D /\ 0 <= d_cols D /\ zlen (d_data D) = d_rows D * d_cols D.

(** The matrix a (well-formed) object represents: column-major storage. *)
Definition dense_mat (D : dense) : mat S :=
  fun i j => zn s0 (d_data D) (i + j * d_rows D).

(** The index assertions of operator() (densematrix.hpp:587-592). *)
Definition in_range (D : dense) (i j : Z) : bool :=
  (0 <=? i) && (0 <=? j) && (i <? d_rows D) && (j <? d_cols D).

(** densematrix.hpp:597-607  const double& operator()(int row, int col) const *)
Definition d_get (D : dense) (i j : Z) : res T :=
  assert_ (in_range D i j) ;;;
  get (d_data D) (i + j * d_rows D).

(** densematrix.hpp:585-595  this->operator()(row, col) = v *)
Definition d_set (D : dense) (i j : Z) (v : T) : res dense :=
  assert_ (in_range D i j) ;;;
  data <- set (d_data D) (i + j * d_rows D) v ;;
  Ok (Dense (d_rows D) (d_cols D) data).

(** this->operator()(row, col) += v and friends: read, combine, write. *)
Definition d_mod (D : dense) (i j : Z) (f : T -> T) : res dense :=
  a <- d_get D i j ;; d_set D i j (f a).

(** std::vector::resize(n, v): truncate or pad with v. *)
Definition resize {A : Type} (l : list A) (n : Z) (v : A) : list A :=
  firstn (Z.to_nat n) l ++ repeat v (Z.to_nat n - length l)%nat.

(** densematrix.cpp:32  DenseMatrix() *)
Definition d_empty : dense := Dense 0 0 [].

(** densematrix.cpp:46-54  DenseMatrix(int rows, int cols, std::vector<double> data) *)
Definition d_make (rows cols : Z) (data : list T) : res dense :=
  assert_ (0 <=? rows) ;;; assert_ (0 <=? cols) ;;;
  assert_ (zlen data =? rows * cols) ;;;
  Ok (Dense rows cols data).

(** densematrix.cpp:41-44  DenseMatrix(int rows, int cols) *)
Definition d_zeros (rows cols : Z) : res dense :=
  data <- vec (rows * cols) s0 ;; d_make rows cols data.

(** densematrix.cpp:90-98  SetSize(int rows, int cols); resize value-initialises
    with 0.0. *)
Definition d_set_size (D : dense) (rows cols : Z) : res dense :=
  assert_ (0 <=? rows) ;;; assert_ (0 <=? cols) ;;;
  Ok (Dense rows cols (resize (d_data D) (rows * cols) s0)).

(** densematrix.cpp:105-113  SetSize(int rows, int cols, double val) *)
Definition d_set_size_val (D : dense) (rows cols : Z) (v : T) : res dense :=
  assert_ (0 <=? rows) ;;; assert_ (0 <=? cols) ;;;
  Ok (Dense rows cols (resize (d_data D) (rows * cols) v)).

(** densematrix.cpp:340-345  operator=(double val) *)
Definition d_fill (D : dense) (v : T) : dense :=
  Dense (d_rows D) (d_cols D) (map (fun _ => v) (d_data D)).

(** densematrix.cpp:147-158  Transpose(DenseMatrix& transpose) const.
    [out] is the previous content of the output argument. *)
Definition d_transpose_into (D out : dense) : res dense :=
  out <- d_set_size out (d_cols D) (d_rows D) ;;
  for_ 0 (d_rows D) out (fun i out =>
    for_ 0 (d_cols D) out (fun j out =>
      v <- d_get D i j ;; d_set out j i v)).

(** densematrix.cpp:138-145  Transpose() const *)
Definition d_transpose (D : dense) : res dense :=
  out <- d_zeros (d_cols D) (d_rows D) ;; d_transpose_into D out.

(** The same call with the output argument being the object itself:
    A.Transpose(A) (densematrix.cpp:147-158 with transpose aliasing *this).
    rows_ and cols_ are re-read after SetSize changed them. *)
Definition d_transpose_self (D : dense) : res dense :=
  D1 <- d_set_size D (d_cols D) (d_rows D) ;;
  for_ 0 (d_rows D1) D1 (fun i D =>
    for_ 0 (d_cols D) D (fun j D =>
      v <- d_get D i j ;; d_set D j i v)).

(** densematrix.hpp:655-670  Mult(const VectorView<T>& input, VectorView<U> output) const *)
Definition d_mult (D : dense) (x out : list T) : res (list T) :=
  assert_ (zlen x =? d_cols D) ;;;
  assert_ (zlen out =? d_rows D) ;;;
  for_ 0 (d_cols D) (map (fun _ => s0) out) (fun j out =>
    for_ 0 (d_rows D) out (fun i out =>
      a <- d_get D i j ;; xj <- get x j ;; o <- get out i ;;
      set out i (sadd o (smul a xj)))).

(** densematrix.hpp:681-698  MultAT(const VectorView<T>& input, VectorView<U> output) const *)
Definition d_multAT (D : dense) (x out : list T) : res (list T) :=
  assert_ (zlen x =? d_rows D) ;;;
  assert_ (zlen out =? d_cols D) ;;;
  for_ 0 (d_cols D) out (fun j out =>
    v <- for_ 0 (d_rows D) s0 (fun i v =>
           a <- d_get D i j ;; xi <- get x i ;; Ok (sadd v (smul a xi))) ;;
    set out j v).

(** densematrix.hpp:647-653, 672-679: the overloads that allocate the output. *)
Definition d_mult_new (D : dense) (x : list T) : res (list T) :=
  out <- vec (d_rows D) s0 ;; d_mult D x out.
Definition d_multAT_new (D : dense) (x : list T) : res (list T) :=
  out <- vec (d_cols D) s0 ;; d_multAT D x out.

(** densematrix.hpp:726-736  GetCol(int col, VectorView<T>& vect) const *)
Definition d_get_col (D : dense) (col : Z) (v : list T) : res (list T) :=
  assert_ ((0 <=? col) && (col <? d_cols D)) ;;;
  assert_ (zlen v =? d_rows D) ;;;
  for_ 0 (d_rows D) v (fun i v => a <- d_get D i col ;; set v i a).

(** densematrix.hpp:738-748  GetRow(int row, VectorView<T>& vect) const *)
Definition d_get_row (D : dense) (row : Z) (v : list T) : res (list T) :=
  assert_ ((0 <=? row) && (row <? d_rows D)) ;;;
  assert_ (zlen v =? d_cols D) ;;;
  for_ 0 (d_cols D) v (fun i v => a <- d_get D row i ;; set v i a).

(** densematrix.hpp:768-778  SetCol(int col, const VectorView<T>& vect) *)
Definition d_set_col (D : dense) (col : Z) (v : list T) : res dense :=
  assert_ ((0 <=? col) && (col <? d_cols D)) ;;;
  assert_ (zlen v =? d_rows D) ;;;
  for_ 0 (d_rows D) D (fun i D => a <- get v i ;; d_set D i col a).

(** densematrix.hpp:780-790  SetRow(int row, const VectorView<T>& vect) *)
Definition d_set_row (D : dense) (row : Z) (v : list T) : res dense :=
  assert_ ((0 <=? row) && (row <? d_rows D)) ;;;
  assert_ (zlen v =? d_cols D) ;;;
  for_ 0 (d_cols D) D (fun i D => a <- get v i ;; d_set D row i a).

(** Loops "for j < cols_, for i < rows_" over all elements (densematrix.hpp:792-844). *)
Definition d_for_all (D : dense) (f : Z -> Z -> dense -> res dense) : res dense :=
  let rows := d_rows D in
  for_ 0 (d_cols D) D (fun j D => for_ 0 rows D (fun i D => f i j D)).

(** densematrix.hpp:792-802  ScaleRows(const T& values) *)
Definition d_scale_rows (D : dense) (values : list T) : res dense :=
  d_for_all D (fun i j D => s <- get values i ;; d_mod D i j (fun a => smul a s)).

(** densematrix.hpp:804-816  ScaleCols(const T& values) *)
Definition d_scale_cols (D : dense) (values : list T) : res dense :=
  let rows := d_rows D in
  for_ 0 (d_cols D) D (fun j D =>
    s <- get values j ;;
    for_ 0 rows D (fun i D => d_mod D i j (fun a => smul a s))).

(** densematrix.hpp:818-830  InverseScaleRows(const T& values) *)
Definition d_inv_scale_rows (D : dense) (values : list T) : res dense :=
  d_for_all D (fun i j D =>
    s <- get values i ;; assert_ (negb (seqb s s0)) ;;; d_mod D i j (fun a => sdiv a s)).

(** densematrix.hpp:832-846  InverseScaleCols(const T& values) *)
Definition d_inv_scale_cols (D : dense) (values : list T) : res dense :=
  let rows := d_rows D in
  for_ 0 (d_cols D) D (fun j D =>
    s <- get values j ;; assert_ (negb (seqb s s0)) ;;;
    for_ 0 rows D (fun i D => d_mod D i j (fun a => sdiv a s))).

(** densematrix.cpp:263-291  operator-=, operator+=: flat loop over data_. *)
Definition d_zip (op : T -> T -> T) (D E : dense) : res dense :=
  assert_ (d_rows D =? d_rows E) ;;; assert_ (d_cols D =? d_cols E) ;;;
  data <- for_ 0 (d_rows D * d_cols D) (d_data D) (fun i data =>
            a <- get data i ;; b <- get (d_data E) i ;; set data i (op a b)) ;;
  Ok (Dense (d_rows D) (d_cols D) data).
Definition d_add := d_zip sadd.
Definition d_sub := d_zip ssub.

(** densematrix.cpp:303-311  operator*=(double) *)
Definition d_scale (D : dense) (v : T) : dense :=
  Dense (d_rows D) (d_cols D) (map (fun a => smul a v) (d_data D)).

(** densematrix.cpp:323-333  operator/=(double) *)
Definition d_div (D : dense) (v : T) : res dense :=
  assert_ (negb (seqb v s0)) ;;;
  Ok (Dense (d_rows D) (d_cols D) (map (fun a => sdiv a v) (d_data D))).

(** densematrix.cpp:385-411  GetRow(const std::vector<int>& rows, DenseMatrix& dense) *)
Definition d_get_rows (D : dense) (rows : list Z) (out : dense) : res dense :=
  assert_ (d_cols out =? d_cols D) ;;;
  assert_ (d_rows out =? zlen rows) ;;;
  for_ 0 (zlen rows) out (fun i out =>
    row <- get rows i ;;
    for_ 0 (d_cols D) out (fun j out => a <- d_get D row j ;; d_set out i j a)).

(** The window assertions of densematrix.cpp:453-457, 509-513, 534-538. *)
Definition window_ok (D : dense) (si sj ei ej : Z) : bool :=
  ((0 <=? si) && (si <? d_rows D)) && ((0 <=? sj) && (sj <? d_cols D)) &&
  ((0 <=? ei) && (ei <=? d_rows D)) && ((0 <=? ej) && (ej <=? d_cols D)) &&
  ((si <=? ei) && (sj <=? ej)).

(** densematrix.cpp:451-471  GetSubMatrix(start_i, start_j, end_i, end_j, dense) *)
Definition d_get_sub (D : dense) (si sj ei ej : Z) (out : dense) : res dense :=
  assert_ (window_ok D si sj ei ej) ;;;
  out <- d_set_size out (ei - si) (ej - sj) ;;
  for_ 0 (ej - sj) out (fun j out =>
    for_ 0 (ei - si) out (fun i out =>
      a <- d_get D (i + si) (j + sj) ;; d_set out i j a)).

(** densematrix.cpp:481-500  GetSubMatrix(rows, cols, dense) *)
Definition d_get_sub_lists (D : dense) (rows cols : list Z) (out : dense) : res dense :=
  out <- d_set_size out (zlen rows) (zlen cols) ;;
  for_ 0 (zlen cols) (d_fill out s0) (fun j out =>
    col <- get cols j ;;
    for_ 0 (zlen rows) out (fun i out =>
      row <- get rows i ;; a <- d_get D row col ;; d_set out i j a)).

(** densematrix.cpp:507-525  SetSubMatrix(start_i, start_j, end_i, end_j, dense) *)
Definition d_set_sub (D : dense) (si sj ei ej : Z) (B : dense) : res dense :=
  assert_ (window_ok D si sj ei ej) ;;;
  for_ 0 (ej - sj) D (fun j D =>
    for_ 0 (ei - si) D (fun i D =>
      a <- d_get B i j ;; d_set D (i + si) (j + sj) a)).

(** densematrix.cpp:502-505  SetSubMatrix(start_i, start_j, dense) *)
Definition d_set_sub_at (D : dense) (si sj : Z) (B : dense) : res dense :=
  d_set_sub D si sj (si + d_rows B) (sj + d_cols B) B.

(** densematrix.cpp:532-550  SetSubMatrixTranspose(start_i, start_j, end_i, end_j, dense) *)
Definition d_set_sub_T (D : dense) (si sj ei ej : Z) (B : dense) : res dense :=
  assert_ (window_ok D si sj ei ej) ;;;
  for_ 0 (ej - sj) D (fun j D =>
    for_ 0 (ei - si) D (fun i D =>
      a <- d_get B j i ;; d_set D (i + si) (j + sj) a)).

(** densematrix.cpp:527-530  SetSubMatrixTranspose(start_i, start_j, dense) *)
Definition d_set_sub_T_at (D : dense) (si sj : Z) (B : dense) : res dense :=
  d_set_sub_T D si sj (si + d_cols B) (sj + d_rows B) B.

(** densematrix.cpp:552-567  AddSubMatrix(rows, cols, dense) *)
Definition d_add_sub (D : dense) (rows cols : list Z) (B : dense) : res dense :=
  assert_ (zlen rows =? d_rows B) ;;;
  assert_ (zlen cols =? d_cols B) ;;;
  for_ 0 (d_cols B) D (fun j D =>
    for_ 0 (d_rows B) D (fun i D =>
      r <- get rows i ;; c <- get cols j ;; b <- d_get B i j ;;
      d_mod D r c (fun a => sadd a b))).

(** densematrix.cpp:434-438  SetCol(int start, const DenseMatrix& dense) *)
Definition d_set_cols (D : dense) (start : Z) (B : dense) : res dense :=
  d_set_sub D 0 start (d_rows D) (start + d_cols B) B.

(** densematrix.cpp:413-417  SetRow(int start, const DenseMatrix& dense) *)
Definition d_set_rows (D : dense) (start : Z) (B : dense) : res dense :=
  d_set_sub D start 0 (start + d_rows B) (d_cols D) B.

(** densematrix.cpp:721-741  GetDiag *)
Definition d_get_diag (D : dense) : res (list T) :=
  assert_ (d_rows D =? d_cols D) ;;;
  v <- vec (d_rows D) s0 ;;
  for_ 0 (d_rows D) v (fun i v => a <- d_get D i i ;; set v i a).

(** densematrix.hpp:621-644  Sum, Max, Min: std::accumulate, std::max_element,
    std::min_element over data_ (max_element keeps the first maximum: it moves on when
    best < x; min_element moves on when x < best). *)
Definition d_sum (D : dense) : res T :=
  assert_ (negb (zlen (d_data D) =? 0)) ;;; Ok (fold_left sadd (d_data D) s0).
Definition max_element (l : list T) : res T :=
  match l with
  | [] => Fail FUB
  | a :: l => Ok (fold_left (fun m x => if slt m x then x else m) l a)
  end.
Definition min_element (l : list T) : res T :=
  match l with
  | [] => Fail FUB
  | a :: l => Ok (fold_left (fun m x => if slt x m then x else m) l a)
  end.
Definition d_max (D : dense) : res T :=
  assert_ (negb (zlen (d_data D) =? 0)) ;;; max_element (d_data D).
Definition d_min (D : dense) : res T :=
  assert_ (negb (zlen (d_data D) =? 0)) ;;; min_element (d_data D).

(** densematrix.cpp:370-383, 419-432, 440-449, 473-479: the overloads that allocate. *)
Definition d_get_sub_new (D : dense) (si sj ei ej : Z) : res dense :=
  out <- d_zeros (ei - si) (ej - sj) ;; d_get_sub D si sj ei ej out.
Definition d_get_rows_range (D : dense) (start stop : Z) : res dense :=
  out <- d_zeros (stop - start) (d_cols D) ;; d_get_sub D start 0 stop (d_cols D) out.
Definition d_get_cols_range (D : dense) (start stop : Z) : res dense :=
  out <- d_zeros (d_rows D) (stop - start) ;; d_get_sub D 0 start (d_rows D) stop out.
Definition d_get_rows_new (D : dense) (rows : list Z) : res dense :=
  out <- d_zeros (zlen rows) (d_cols D) ;; d_get_rows D rows out.
Definition d_get_sub_lists_new (D : dense) (rows cols : list Z) : res dense :=
  d_get_sub_lists D rows cols d_empty.

(** densematrix.hpp:700-716  GetColView(col): data_.data() + col * rows_, rows_
    elements.  The view as the pair (offset of its first element in data_, length). *)
Definition d_col_view (D : dense) (col : Z) : res (Z * Z) :=
  assert_ ((0 <=? col) && (col <? d_cols D)) ;;; Ok (col * d_rows D, d_rows D).

(** operator.hpp:112-124  SumCols(mats): sum of Cols(). *)
Definition sum_cols (l : list dense) : Z := fold_left (fun s D => s + d_cols D) l 0.

(** densematrix.cpp:751-779  HStack(dense, output) *)
Definition d_hstack (l : list dense) (out : dense) : res dense :=
  match l with
  | [] => Ok out
  | D0 :: _ =>
      let rows := d_rows D0 in
      foldM (fun _ D => assert_ (d_rows D =? rows)) l tt ;;;
      out <- d_set_size out rows (sum_cols l) ;;
      r <- foldM (fun (st : dense * Z) D =>
             let (out, counter) := st in
             if 0 <? d_cols D
             then out <- d_set_cols out counter D ;; Ok (out, counter + d_cols D)
             else Ok (out, counter)) l (out, 0) ;;
      Ok (fst r)
  end.

(** densematrix.cpp:347-368  operator==; [tol] is the constant 1e-12. *)
Definition d_eq (tol : T) (D E : dense) : res bool :=
  if negb ((d_rows E =? d_rows D) && (d_cols E =? d_cols D)) then Ok false
  else for_ 0 (d_cols D) true (fun j b =>
         for_ 0 (d_rows D) b (fun i b =>
           if b then
             a <- d_get D i j ;; c <- d_get E i j ;;
             Ok (negb (slt tol (sabs (ssub a c))))
           else Ok false)).

(** BLAS dgemm: C := op(A) op(B) (alpha = 1, beta = 0) for column-major arrays with
    leading dimensions.  The reference implementation checks its arguments and stops
    through XERBLA when a leading dimension is smaller than max(1, rows of the stored
    array); that outcome is [FThrow].  The result of a legal call is given by its
    documentation. *)
Definition dgemm_ (ta tb : bool) (m n k : Z) (A : list T) (lda : Z) (B : list T) (ldb : Z)
    (ldc : Z) : res (list T) :=
  let nrowa := if ta then k else m in
  let nrowb := if tb then n else k in
  if (lda <? Z.max 1 nrowa) || (ldb <? Z.max 1 nrowb) || (ldc <? Z.max 1 m)
  then Fail FThrow
  else Ok (map (fun q =>
             let i := q mod m in let j := q / m in
             sum_range 0 k (fun l =>
               smul (zn s0 A (if ta then l + i * lda else i + l * lda))
                    (zn s0 B (if tb then j + l * ldb else l + j * ldb))))
           (zrange 0 (m * n))).

(** densematrix.cpp:238-261  dgemm(input, output, AT, BT) *)
Definition d_dgemm (A B : dense) (ta tb : bool) : res dense :=
  let m := if ta then d_cols A else d_rows A in
  let n := if tb then d_rows B else d_cols B in
  let k := if ta then d_rows A else d_cols A in
  data <- dgemm_ ta tb m n k (d_data A) (d_rows A) (d_data B) (d_rows B) m ;;
  Ok (Dense m n data).

(** densematrix.cpp:200-236  Mult, MultAT, MultBT, MultABT (dense arguments) *)
Definition d_matmul (A B : dense) : res dense :=
  assert_ (d_cols A =? d_rows B) ;;; d_dgemm A B false false.
Definition d_matmulAT (A B : dense) : res dense :=
  assert_ (d_rows A =? d_rows B) ;;; d_dgemm A B true false.
Definition d_matmulBT (A B : dense) : res dense :=
  assert_ (d_cols A =? d_cols B) ;;; d_dgemm A B false true.
Definition d_matmulABT (A B : dense) : res dense :=
  assert_ (d_rows A =? d_cols B) ;;; d_dgemm A B true true.

(** Specification: the call returns a well-formed r x c matrix with entries f. *)
Definition d_gives (m : res dense) (r c : Z) (f : mat S) : Prop :=
  exists D, m = Ok D /\ dense_ok D /\ d_rows D = r /\ d_cols D = c /\
    forall i j, 0 <= i < r -> 0 <= j < c -> dense_mat D i j = f i j.

End Dense.

Arguments dense S : clear implicits.
