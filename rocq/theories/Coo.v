(** Model of CooMatrix<T> (include/coomatrix.hpp).
    Simplification: one value type for T, U and double. *)

From Coq Require Import ZArith List Bool.
From Verif Require Import Base Scalar Spec Dense Sparse.
Import ListNotations.
Open Scope Z_scope.

Section Coo.
Context {S : scalar}.
Notation T := (car S).
Notation entry := (entry S).

(** Members: rows_, cols_ (Operator), size_set_, entries_ (coomatrix.hpp:253-255). *)
Record coo : Type := Coo {
  o_rows : Z;
  o_cols : Z;
  o_set : bool;
  o_entries : list entry
}.

(** coomatrix.hpp:258-262  CooMatrix() *)
Definition coo_new : coo := Coo 0 0 false [].

(** coomatrix.hpp:264-274  CooMatrix(int size), CooMatrix(int rows, int cols);
    the assertions are those of Operator(int, int) (operator.cpp:18-23). *)
Definition coo_new_size (rows cols : Z) : res coo :=
  assert_ (0 <=? rows) ;;; assert_ (0 <=? cols) ;;; Ok (Coo rows cols true []).

(** coomatrix.hpp:306-316  SetSize *)
Definition coo_set_size (M : coo) (rows cols : Z) : res coo :=
  assert_ (0 <=? rows) ;;; assert_ (0 <=? cols) ;;; Ok (Coo rows cols true (o_entries M)).

(** coomatrix.hpp:326-340  Add(int i, int j, T val); "val == val" fails for NaN. *)
Definition coo_add (M : coo) (i j : Z) (v : T) : res coo :=
  assert_ (0 <=? i) ;;; assert_ (0 <=? j) ;;; assert_ (seqb v v) ;;;
  (if o_set M then assert_ (i <? o_rows M) ;;; assert_ (j <? o_cols M) else Ok tt) ;;;
  Ok (Coo (o_rows M) (o_cols M) (o_set M) (o_entries M ++ [(i, j, v)])).

(** coomatrix.hpp:342-351  AddSym *)
Definition coo_add_sym (M : coo) (i j : Z) (v : T) : res coo :=
  M <- coo_add M i j v ;;
  if negb (i =? j) then coo_add M j i v else Ok M.

(** coomatrix.hpp:361-384, 393-417  Add(rows, cols, [scale,] DenseMatrix values);
    [f] is the identity or (scale * _).  Add(indices, values) (353-358, 386-391) passes
    the same list twice. *)
Definition coo_add_dense (M : coo) (rows cols : list Z) (f : T -> T) (values : dense S) : res coo :=
  assert_ (zlen rows =? d_rows values) ;;;
  assert_ (zlen cols =? d_cols values) ;;;
  for_ 0 (d_cols values) M (fun j M =>
    col <- get cols j ;;
    for_ 0 (d_rows values) M (fun i M =>
      row <- get rows i ;; v <- d_get values i j ;; coo_add M row col (f v))).

(** coomatrix.hpp:420-432, 448-460  Add(rows, col, [scale,] values) *)
Definition coo_add_col (M : coo) (rows : list Z) (col : Z) (f : T -> T) (values : list T) : res coo :=
  assert_ (zlen rows =? zlen values) ;;;
  for_ 0 (zlen rows) M (fun i M =>
    row <- get rows i ;; v <- get values i ;; coo_add M row col (f v)).

(** coomatrix.hpp:434-446, 462-474  Add(row, cols, [scale,] values) *)
Definition coo_add_row (M : coo) (row : Z) (cols : list Z) (f : T -> T) (values : list T) : res coo :=
  assert_ (zlen cols =? zlen values) ;;;
  for_ 0 (zlen cols) M (fun i M =>
    col <- get cols i ;; v <- get values i ;; coo_add M row col (f v)).

(** coomatrix.hpp:476-490, 492-506  Add(rows, cols, [scale,] const U& values) *)
Definition coo_add_list (M : coo) (rows cols : list Z) (f : T -> T) (values : list T) : res coo :=
  assert_ (zlen rows =? zlen values) ;;;
  assert_ (zlen cols =? zlen values) ;;;
  for_ 0 (zlen cols) M (fun i M =>
    row <- get rows i ;; col <- get cols i ;; v <- get values i ;; coo_add M row col (f v)).

(** coomatrix.hpp:703-724  FindSize *)
Definition coo_find_size (M : coo) : Z * Z :=
  if o_set M then (o_rows M, o_cols M)
  else let '(r, c) := fold_left (fun '(r, c) e => (Z.max r (erow e), Z.max c (ecol e))) (o_entries M) (0, 0) in
       (r + 1, c + 1).

(** coomatrix.hpp:516-535  ToDense(DenseMatrix& dense) const; 507-514 ToDense() *)
Definition coo_to_dense_into (M : coo) (out : dense S) : res (dense S) :=
  let (rows, cols) := coo_find_size M in
  out <- d_set_size out rows cols ;;
  foldM (fun out e => d_mod out (erow e) (ecol e) (fun o => sadd o (evalue e))) (o_entries M) (d_fill out s0).
Definition coo_to_dense (M : coo) : res (dense S) := coo_to_dense_into M d_empty.

(** coomatrix.hpp:537-550, 552-565, 567-582  PermuteRows, PermuteCols, PermuteRowsCols *)
Definition coo_permute_rows (M : coo) (perm : list Z) : res coo :=
  let (rows, cols) := coo_find_size M in
  assert_ (zlen perm =? rows) ;;;
  es <- foldM (fun es e => r <- get perm (erow e) ;; Ok (es ++ [(r, ecol e, evalue e)])) (o_entries M) [] ;;
  Ok (Coo (o_rows M) (o_cols M) (o_set M) es).
Definition coo_permute_cols (M : coo) (perm : list Z) : res coo :=
  let (rows, cols) := coo_find_size M in
  assert_ (zlen perm =? cols) ;;;
  es <- foldM (fun es e => c <- get perm (ecol e) ;; Ok (es ++ [(erow e, c, evalue e)])) (o_entries M) [] ;;
  Ok (Coo (o_rows M) (o_cols M) (o_set M) es).
Definition coo_permute_rows_cols (M : coo) (rp cp : list Z) : res coo :=
  let (rows, cols) := coo_find_size M in
  assert_ (zlen rp =? rows) ;;;
  assert_ (zlen cp =? cols) ;;;
  es <- foldM (fun es e => r <- get rp (erow e) ;; c <- get cp (ecol e) ;; Ok (es ++ [(r, c, evalue e)])) (o_entries M) [] ;;
  Ok (Coo (o_rows M) (o_cols M) (o_set M) es).

(** std::unordered_map<int, int>: only find, size, operator[] and at are used, so the
    iteration order does not matter and an association list is a faithful model. *)
Definition umap : Type := list (Z * Z).
Fixpoint umap_find (m : umap) (k : Z) : option Z :=
  match m with
  | [] => None
  | (k', v) :: m' => if k' =? k then Some v else umap_find m' k
  end.
Fixpoint umap_put (m : umap) (k v : Z) : umap :=
  match m with
  | [] => [(k, v)]
  | (k', v') :: m' => if k' =? k then (k, v) :: m' else (k', v') :: umap_put m' k v
  end.
(** at(): throws when the key is absent. *)
Definition umap_at (m : umap) (k : Z) : res Z :=
  match umap_find m k with Some v => Ok v | None => Fail FThrow end.

(** std::partial_sum(begin(l), end(l), begin(l)) *)
Fixpoint partial_sum_from (a : Z) (l : list Z) : list Z :=
  match l with [] => [] | x :: l' => (a + x) :: partial_sum_from (a + x) l' end.
Definition partial_sum (l : list Z) : list Z := partial_sum_from 0 l.

(** coomatrix.hpp:584-635  ToSparse *)
Definition coo_to_sparse (M : coo) : res (csr S) :=
  let (rows, cols) := coo_find_size M in
  match o_entries M with
  | [] => sp_zero rows cols
  | _ :: _ =>
      ip <- vec (rows + 1) 0 ;;
      im <- vec rows ([] : umap) ;;
      '(ip, im) <- foldM (fun (st : list Z * list umap) e =>
          let (ip, im) := st in
          m <- get im (erow e) ;;
          match umap_find m (ecol e) with
          | Some _ => Ok (ip, im)
          | None => n <- get ip (erow e + 1) ;; ip <- set ip (erow e + 1) (n + 1) ;;
                    im <- set im (erow e) (umap_put m (ecol e) (zlen m)) ;;
                    Ok (ip, im)
          end) (o_entries M) (ip, im) ;;
      let ip := partial_sum ip in
      nnz <- get ip (zlen ip - 1) ;;
      ix <- vec nnz 0 ;;
      d <- vec nnz s0 ;;
      '(ix, d) <- foldM (fun (st : list Z * list T) e =>
          let (ix, d) := st in
          p <- get ip (erow e) ;; m <- get im (erow e) ;; q <- umap_at m (ecol e) ;;
          ix <- set ix (p + q) (ecol e) ;;
          o <- get d (p + q) ;; d <- set d (p + q) (sadd o (evalue e)) ;;
          Ok (ix, d)) (o_entries M) (ix, d) ;;
      sp_make ip ix d rows cols
  end.

(** coomatrix.hpp:637-653  Mult; Rows() and Cols() are those of Operator, so rows_ and
    cols_ even when the size is not set. *)
Definition coo_mult (M : coo) (x out : list T) : res (list T) :=
  assert_ (o_rows M =? zlen out) ;;;
  assert_ (o_cols M =? zlen x) ;;;
  foldM (fun out e =>
    xj <- get x (ecol e) ;; o <- get out (erow e) ;;
    set out (erow e) (sadd o (smul (evalue e) xj))) (o_entries M) (map (fun _ => s0) out).

(** coomatrix.hpp:655-671  MultAT (the same two assertions) *)
Definition coo_multAT (M : coo) (x out : list T) : res (list T) :=
  assert_ (o_rows M =? zlen out) ;;;
  assert_ (o_cols M =? zlen x) ;;;
  foldM (fun out e =>
    xi <- get x (erow e) ;; o <- get out (ecol e) ;;
    set out (ecol e) (sadd o (smul (evalue e) xi))) (o_entries M) (map (fun _ => s0) out).

(** operator.cpp:60-88: the overloads that allocate the result. *)
Definition coo_mult_new (M : coo) (x : list T) : res (list T) :=
  out <- vec (o_rows M) s0 ;; coo_mult M x out.
Definition coo_multAT_new (M : coo) (x : list T) : res (list T) :=
  out <- vec (o_cols M) s0 ;; coo_multAT M x out.

(** coomatrix.hpp:689-701  EliminateZeros(double tolerance = 0) *)
Definition coo_elim_zeros (M : coo) (tol : T) : coo :=
  Coo (o_rows M) (o_cols M) (o_set M) (filter (fun e => negb (slt (sabs (evalue e)) tol)) (o_entries M)).

End Coo.

Arguments coo S : clear implicits.
