(** The arithmetic on int, with overflow.

    The other files compute sizes and indices in Z.  Here the functions whose results depend on
    sums, products and counters of type int are written again with every such operation checked: a
    result outside the range of int is undefined behaviour.  Loop counters are not checked: in
    [for (int i = lo; i < hi; ++i)] the counter never exceeds [hi], an int. *)

From Coq Require Import ZArith List Bool.
From Verif Require Import Base Scalar Spec Dense Sparse Coo Block.
Import ListNotations.
Open Scope Z_scope.

Definition int_max : Z := 2147483647.
Definition int_min : Z := -2147483648.
Definition is_int (a : Z) : Prop := int_min <= a <= int_max.

(** The value of an expression of type int whose exact value is [a] *)
Definition i32 (a : Z) : res Z := if (int_min <=? a) && (a <=? int_max) then Ok a else Fail FUB.

Section I32.
Context {S : scalar}.
Notation T := (car S).
Notation dense := (dense S).
Notation csr := (csr S).

(** densematrix.cpp:46-54 *)
Definition d_make_i (rows cols : Z) (data : list T) : res dense :=
  assert_ (0 <=? rows) ;;; assert_ (0 <=? cols) ;;;
  n <- i32 (rows * cols) ;;
  assert_ (zlen data =? n) ;;;
  Ok (Dense rows cols data).

(** densematrix.cpp:41-44 *)
Definition d_zeros_i (rows cols : Z) : res dense :=
  n <- i32 (rows * cols) ;; data <- vec n s0 ;; d_make_i rows cols data.

(** densematrix.cpp:90-98, 105-113 *)
Definition d_set_size_val_i (D : dense) (rows cols : Z) (v : T) : res dense :=
  assert_ (0 <=? rows) ;;; assert_ (0 <=? cols) ;;;
  n <- i32 (rows * cols) ;;
  Ok (Dense rows cols (resize (d_data D) n v)).

(** densematrix.hpp:585-607: row + (col * rows_) *)
Definition d_get_i (D : dense) (i j : Z) : res T :=
  assert_ (in_range D i j) ;;;
  m <- i32 (j * d_rows D) ;; k <- i32 (i + m) ;; get (d_data D) k.

Definition d_set_i (D : dense) (i j : Z) (v : T) : res dense :=
  assert_ (in_range D i j) ;;;
  m <- i32 (j * d_rows D) ;; k <- i32 (i + m) ;;
  data <- set (d_data D) k v ;;
  Ok (Dense (d_rows D) (d_cols D) data).

(** densematrix.cpp:147-158, 138-145  Transpose *)
Definition d_transpose_i (D : dense) : res dense :=
  out <- d_zeros_i (d_cols D) (d_rows D) ;;
  out <- d_set_size_val_i out (d_cols D) (d_rows D) s0 ;;
  for_ 0 (d_rows D) out (fun i out =>
    for_ 0 (d_cols D) out (fun j out =>
      v <- d_get_i D i j ;; d_set_i out j i v)).

(** sparsematrix.hpp:458-464  SparseMatrix(rows, cols) *)
Definition sp_zero_i (rows cols : Z) : res csr :=
  assert_ (0 <=? rows) ;;; assert_ (0 <=? cols) ;;;
  n <- i32 (rows + 1) ;; p <- vec n 0 ;; Ok (CSR rows cols p [] []).

(** The row loop of most functions: indptr_[i + 1] *)
Definition for_entries_i {St : Type} (rows : Z) (ip : list Z) (s : St) (body : Z -> Z -> St -> res St) : res St :=
  for_ 0 rows s (fun i s =>
    lo <- get ip i ;; i1 <- i32 (i + 1) ;; hi <- get ip i1 ;;
    for_ lo hi s (fun j s => body i j s)).

(** sparsematrix.hpp:711-751  Transpose *)
Definition sp_transpose_i (A : csr) : res csr :=
  n <- i32 (c_cols A + 1) ;; ip <- vec n 0 ;;
  nnz <- i32 (sp_nnz A) ;;
  ix <- vec nnz 0 ;;
  d <- vec nnz s0 ;;
  ip <- foldM (fun ip col => c1 <- i32 (col + 1) ;; n <- get ip c1 ;; n1 <- i32 (n + 1) ;; set ip c1 n1) (c_idx A) ip ;;
  ip <- for_ 0 (c_cols A) ip (fun i ip =>
          i1 <- i32 (i + 1) ;; a <- get ip i1 ;; b <- get ip i ;; c <- i32 (a + b) ;; set ip i1 c) ;;
  '(ip, ix, d) <- for_entries_i (c_rows A) (c_ptr A) (ip, ix, d) (fun i j st =>
          let '(ip, ix, d) := st in
          row <- get (c_idx A) j ;; v <- get (c_val A) j ;;
          p <- get ip row ;; ix <- set ix p i ;; d <- set d p v ;;
          p1 <- i32 (p + 1) ;; ip <- set ip row p1 ;;
          Ok (ip, ix, d)) ;;
  ip <- for_down (c_cols A) 0 ip (fun i ip => a <- get ip (i - 1) ;; set ip i a) ;;
  ip <- set ip 0 0 ;;
  sp_make ip ix d (c_cols A) (c_rows A).

(** sparsematrix.hpp:846-909  GetSubMatrix; rows.size() and cols.size() are stored in ints *)
Definition sp_submatrix_i (A : csr) (rows cols marker : list Z) : res (csr * list Z) :=
  assert_ (c_cols A <=? zlen marker) ;;;
  ip <- vec (zlen rows + 1) 0 ;;
  ip <- set ip 0 0 ;;
  nr <- i32 (zlen rows) ;; nc <- i32 (zlen cols) ;;
  marker <- for_ 0 nc marker (fun i marker => c <- get cols i ;; set marker c i) ;;
  '(ip, n) <- for_ 0 nr (ip, 0) (fun i st =>
      let (ip, n) := st in
      row <- get rows i ;;
      assert_ (row <? c_rows A) ;;;
      lo <- get (c_ptr A) row ;; r1 <- i32 (row + 1) ;; hi <- get (c_ptr A) r1 ;;
      n <- for_ lo hi n (fun j n =>
             c <- get (c_idx A) j ;; m <- get marker c ;;
             if m =? -1 then Ok n else i32 (n + 1)) ;;
      i1 <- i32 (i + 1) ;; ip <- set ip i1 n ;;
      Ok (ip, n)) ;;
  ix <- vec n 0 ;;
  d <- vec n s0 ;;
  '(ix, d, total) <- foldM (fun st row =>
      lo <- get (c_ptr A) row ;; r1 <- i32 (row + 1) ;; hi <- get (c_ptr A) r1 ;;
      for_ lo hi st (fun j st =>
        let '(ix, d, total) := st in
        c <- get (c_idx A) j ;; m <- get marker c ;;
        if m =? -1 then Ok (ix, d, total)
        else ix <- set ix total m ;;
             v <- get (c_val A) j ;; d <- set d total v ;;
             t1 <- i32 (total + 1) ;; Ok (ix, d, t1))) rows (ix, d, 0) ;;
  marker <- foldM (fun marker i => set marker i (-1)) cols marker ;;
  B <- sp_make ip ix d nr nc ;;
  Ok (B, marker).

(** sparsematrix.hpp:1100-1168  Mult(rhs, marker) *)
Definition sp_spmult_marker_i (A B : csr) : res csr :=
  assert_ (c_rows B =? c_cols A) ;;;
  let marker := repeat (-1) (Z.to_nat (c_cols B)) in
  n <- i32 (c_rows A + 1) ;; ip <- vec n 0 ;;
  ip <- set ip 0 0 ;;
  '(marker1, ip, n) <- for_ 0 (c_rows A) (marker, ip, 0) (fun i st =>
      let '(marker, ip, n) := st in
      lo <- get (c_ptr A) i ;; i1 <- i32 (i + 1) ;; hi <- get (c_ptr A) i1 ;;
      '(marker, n) <- for_ lo hi (marker, n) (fun j st =>
          c <- get (c_idx A) j ;;
          lo2 <- get (c_ptr B) c ;; c1 <- i32 (c + 1) ;; hi2 <- get (c_ptr B) c1 ;;
          for_ lo2 hi2 st (fun k st =>
            let (marker, n) := st in
            cb <- get (c_idx B) k ;; m <- get marker cb ;;
            if m =? i then Ok (marker, n)
            else marker <- set marker cb i ;; n1 <- i32 (n + 1) ;; Ok (marker, n1))) ;;
      i1 <- i32 (i + 1) ;; ip <- set ip i1 n ;;
      Ok (marker, ip, n)) ;;
  let marker := map (fun _ => -1) marker1 in
  ix <- vec n 0 ;;
  d <- vec n s0 ;;
  '(marker, ix, d, total) <- for_ 0 (c_rows A) (marker, ix, d, 0) (fun i st =>
      let row_nnz := snd st in
      lo <- get (c_ptr A) i ;; i1 <- i32 (i + 1) ;; hi <- get (c_ptr A) i1 ;;
      for_ lo hi st (fun j st =>
        c <- get (c_idx A) j ;;
        lo2 <- get (c_ptr B) c ;; c1 <- i32 (c + 1) ;; hi2 <- get (c_ptr B) c1 ;;
        for_ lo2 hi2 st (fun k st =>
          let '(marker, ix, d, total) := st in
          cb <- get (c_idx B) k ;; m <- get marker cb ;;
          a <- get (c_val A) j ;; b <- get (c_val B) k ;;
          if m <? row_nnz
          then marker <- set marker cb total ;;
               ix <- set ix total cb ;;
               d <- set d total (smul a b) ;;
               t1 <- i32 (total + 1) ;;
               Ok (marker, ix, d, t1)
          else o <- get d m ;; d <- set d m (sadd o (smul a b)) ;;
               Ok (marker, ix, d, total)))) ;;
  sp_make ip ix d (c_rows A) (c_cols B).

(** sparsematrix.hpp:1091-1098 *)
Definition sp_spmult_i (A B : csr) : res csr :=
  marker <- vec (c_cols B) 0 ;; sp_spmult_marker_i A B.

(** coomatrix.hpp:703-724  FindSize *)
Definition coo_find_size_i (M : coo S) : res (Z * Z) :=
  if Coo.o_set M then Ok (Coo.o_rows M, Coo.o_cols M)
  else let '(r, c) := fold_left (fun '(r, c) e => (Z.max r (erow e), Z.max c (ecol e))) (o_entries M) (0, 0) in
       r1 <- i32 (r + 1) ;; c1 <- i32 (c + 1) ;; Ok (r1, c1).

(** std::partial_sum over ints *)
Fixpoint partial_sum_i (a : Z) (l : list Z) : res (list Z) :=
  match l with [] => Ok [] | x :: l' => b <- i32 (a + x) ;; r <- partial_sum_i b l' ;; Ok (b :: r) end.

(** coomatrix.hpp:584-635  ToSparse *)
Definition coo_to_sparse_i (M : coo S) : res csr :=
  '(rows, cols) <- coo_find_size_i M ;;
  match o_entries M with
  | [] => sp_zero_i rows cols
  | _ :: _ =>
      n <- i32 (rows + 1) ;; ip <- vec n 0 ;;
      im <- vec rows ([] : umap) ;;
      '(ip, im) <- foldM (fun (st : list Z * list umap) e =>
          let (ip, im) := st in
          m <- get im (erow e) ;;
          match umap_find m (ecol e) with
          | Some _ => Ok (ip, im)
          | None => r1 <- i32 (erow e + 1) ;; n <- get ip r1 ;; n1 <- i32 (n + 1) ;; ip <- set ip r1 n1 ;;
                    sz <- i32 (zlen m) ;;
                    im <- set im (erow e) (umap_put m (ecol e) sz) ;;
                    Ok (ip, im)
          end) (o_entries M) (ip, im) ;;
      ip <- partial_sum_i 0 ip ;;
      nnz <- get ip (zlen ip - 1) ;;
      ix <- vec nnz 0 ;;
      d <- vec nnz s0 ;;
      '(ix, d) <- foldM (fun (st : list Z * list T) e =>
          let (ix, d) := st in
          p <- get ip (erow e) ;; m <- get im (erow e) ;; q <- umap_at m (ecol e) ;;
          k <- i32 (p + q) ;;
          ix <- set ix k (ecol e) ;;
          o <- get d k ;; d <- set d k (sadd o (evalue e)) ;;
          Ok (ix, d)) (o_entries M) (ix, d) ;;
      sp_make ip ix d rows cols
  end.

(** blockmatrix.hpp:224-236, 240: the counting part of Combine and the size of indptr; a nnz that
    does not fit is narrowed by mat.nnz() and left out here *)
Definition bm_nnz_i (M : bmat S) : res Z :=
  foldM (fun n row => foldM (fun n B => i32 (n + sp_nnz B)) row n) (bm_A M) 0.

(** blockmatrix.hpp:240-288 *)
Definition bm_combine_i (M : bmat S) : res csr :=
  nnz <- bm_nnz_i M ;;
  r1 <- i32 (bm_rows M + 1) ;;
  ip <- vec r1 0 ;; ix <- vec nnz 0 ;; d <- vec nnz s0 ;;
  ip <- set ip 0 0 ;;
  '(ip, ix, d, _) <- for_ 0 (zlen (bm_ro M) - 1) (ip, ix, d, 0) (fun i s =>
    lo <- get (bm_ro M) i ;; i1 <- i32 (i + 1) ;; hi <- get (bm_ro M) i1 ;;
    '(_, s) <- for_ lo hi (0, s) (fun row st =>
      let '(local_row, s) := st in
      s <- for_ 0 (zlen (bm_co M) - 1) s (fun j s =>
        B <- bm_at M i j ;;
        if (c_rows B =? 0) || (c_cols B =? 0) then Ok s
        else
          offset <- get (bm_co M) j ;;
          l1 <- i32 (local_row + 1) ;;
          b <- get (c_ptr B) local_row ;; e <- get (c_ptr B) l1 ;;
          for_ b e s (fun jj s =>
            c <- get (c_idx B) jj ;; a <- get (c_val B) jj ;; col <- i32 (offset + c) ;;
            let '(ip, ix, d, n) := s in
            ix <- set ix n col ;; d <- set d n a ;; n1 <- i32 (n + 1) ;; Ok (ip, ix, d, n1))) ;;
      l1 <- i32 (local_row + 1) ;;
      let '(ip, ix, d, n) := s in
      r1 <- i32 (row + 1) ;; ip <- set ip r1 n ;; Ok (l1, (ip, ix, d, n))) ;;
    Ok s) ;;
  sp_make ip ix d (bm_rows M) (bm_cols M).

End I32.
