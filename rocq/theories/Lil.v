(** Model of LilMatrix<T> (include/lilmatrix.hpp).
    Simplification: one value type for T, U and double. *)

From Coq Require Import ZArith List Bool Permutation Sorting.Sorted.
From Verif Require Import Base Scalar Spec Dense Sparse.
Import ListNotations.
Open Scope Z_scope.

Section Lil.
Context {S : scalar}.
Notation T := (car S).

(** One std::pair<int, T> of a row list. *)
Notation node := (Z * T)%type.

(** Members: rows_, cols_ (Operator), size_set_, entries_ (lilmatrix.hpp:176-178). *)
Record lil : Type := Lil {
  l_rows : Z;
  l_cols : Z;
  l_set : bool;
  l_lists : list (list node)
}.

(** lilmatrix.hpp:181-185  LilMatrix() *)
Definition lil_new : lil := Lil 0 0 false [].

(** lilmatrix.hpp:187-198  LilMatrix(int size), LilMatrix(int rows, int cols); the
    assertions are those of Operator(int, int) (operator.cpp:18-23). *)
Definition lil_new_size (rows cols : Z) : res lil :=
  assert_ (0 <=? rows) ;;; assert_ (0 <=? cols) ;;;
  ls <- vec rows [] ;; Ok (Lil rows cols true ls).

(** lilmatrix.hpp:249-256  SetSize: nothing is checked, entries_ keeps its length. *)
Definition lil_set_size (M : lil) (rows cols : Z) : lil := Lil rows cols true (l_lists M).

(** entries_.resize(n) for n at least the present length *)
Definition grow_lists (ls : list (list node)) (n : Z) : list (list node) :=
  ls ++ repeat [] (Z.to_nat (n - zlen ls)).

(** lilmatrix.hpp:258-276  Add(int i, int j, T val); "val == val" fails for NaN. *)
Definition lil_add (M : lil) (i j : Z) (v : T) : res lil :=
  assert_ (0 <=? i) ;;; assert_ (0 <=? j) ;;; assert_ (seqb v v) ;;;
  ls <- (if l_set M then assert_ (i <? l_rows M) ;;; assert_ (j <? l_cols M) ;;; Ok (l_lists M)
         else Ok (if zlen (l_lists M) <=? i then grow_lists (l_lists M) (i + 1) else l_lists M)) ;;
  row <- get ls i ;;
  ls <- set ls i ((j, v) :: row) ;;
  Ok (Lil (l_rows M) (l_cols M) (l_set M) ls).

(** lilmatrix.hpp:278-287  AddSym *)
Definition lil_add_sym (M : lil) (i j : Z) (v : T) : res lil :=
  M <- lil_add M i j v ;;
  if negb (i =? j) then lil_add M j i v else Ok M.

(** lilmatrix.hpp:296-319  Add(rows, cols, DenseMatrix values); 289-294
    Add(indices, values) passes the same list twice. *)
Definition lil_add_dense (M : lil) (rows cols : list Z) (values : dense S) : res lil :=
  assert_ (zlen rows =? d_rows values) ;;;
  assert_ (zlen cols =? d_cols values) ;;;
  for_ 0 (d_cols values) M (fun j M =>
    col <- get cols j ;;
    for_ 0 (d_rows values) M (fun i M =>
      row <- get rows i ;; v <- d_get values i j ;; lil_add M row col v)).

(** lilmatrix.hpp:495-515  FindSize; Rows() and Cols() (231-247) return its components. *)
Definition lil_find_size (M : lil) : Z * Z :=
  if l_set M then (l_rows M, l_cols M)
  else (zlen (l_lists M) + 1,
        fold_left (fun c row => fold_left (fun c n => Z.max c (fst n)) row c) (l_lists M) 0 + 1).

(** lilmatrix.hpp:330-350  ToDense(DenseMatrix& dense) const; 321-328 ToDense() *)
Definition lil_to_dense_into (M : lil) (out : dense S) : res (dense S) :=
  let (rows, cols) := lil_find_size M in
  out <- d_set_size out rows cols ;;
  for_ 0 (zlen (l_lists M)) (d_fill out s0) (fun i out =>
    row <- get (l_lists M) i ;;
    foldM (fun out (n : node) => d_mod out i (fst n) (fun o => sadd o (snd n))) row out).
Definition lil_to_dense (M : lil) : res (dense S) := lil_to_dense_into M d_empty.

(** std::list<std::pair<int, T>>::sort() orders by operator< of std::pair: first the
    column, then the value.  Any function that permutes its argument into non-decreasing
    order is allowed. *)
Definition node_lt (a b : node) : bool :=
  (fst a <? fst b) || (negb (fst b <? fst a) && slt (snd a) (snd b)).
Definition list_sorter : Type := list node -> list node.
Definition list_sorts (srt : list_sorter) : Prop :=
  forall l, Forall (fun n => seqb (snd n) (snd n) = true) l ->
    Permutation l (srt l) /\ StronglySorted (fun a b => node_lt b a = false) (srt l).

(** lilmatrix.hpp:385-402  the loop over one row: merge neighbours with equal column *)
Definition lil_row_loop (cur : Z) (row : list node) (ix : list Z) (d : list T) : res (list Z * list T) :=
  foldM (fun (st : list Z * list T) (n : node) =>
    let (ix, d) := st in
    same <- (if negb (zlen ix =? cur) then b <- get ix (zlen ix - 1) ;; Ok (fst n =? b) else Ok false) ;;
    if (same : bool)
    then b <- get d (zlen d - 1) ;; d <- set d (zlen d - 1) (sadd b (snd n)) ;; Ok (ix, d)
    else Ok (ix ++ [fst n], d ++ [snd n])) row (ix, d).

(** lilmatrix.hpp:352-408  ToSparse.  entries_ is mutable and gets sorted, so the new
    state of the object is returned too. *)
Definition lil_to_sparse (srt : list_sorter) (M : lil) : res (csr S * lil) :=
  let (rows, cols) := lil_find_size M in
  match l_lists M with
  | [] => A <- sp_zero rows cols ;; Ok (A, M)
  | _ :: _ =>
      let ls := map srt (l_lists M) in
      ip <- vec (rows + 1) 0 ;;
      ip <- set ip 0 0 ;;
      '(ip, ix, d) <- for_ 0 (zlen ls) (ip, [], []) (fun i (st : list Z * list Z * list T) =>
          let '(ip, ix, d) := st in
          cur <- get ip i ;;
          row <- get ls i ;;
          '(ix, d) <- lil_row_loop cur row ix d ;;
          ip <- set ip (i + 1) (zlen d) ;;
          Ok (ip, ix, d)) ;;
      A <- sp_make ip ix d rows cols ;;
      Ok (A, Lil (l_rows M) (l_cols M) (l_set M) ls)
  end.

(** lilmatrix.hpp:410-432  Mult *)
Definition lil_mult (M : lil) (x out : list T) : res (list T) :=
  assert_ (fst (lil_find_size M) =? zlen out) ;;;
  assert_ (snd (lil_find_size M) =? zlen x) ;;;
  for_ 0 (zlen (l_lists M)) (map (fun _ => s0) out) (fun i out =>
    row <- get (l_lists M) i ;;
    foldM (fun out (n : node) =>
      xj <- get x (fst n) ;; o <- get out i ;; set out i (sadd o (smul (snd n) xj))) row out).

(** lilmatrix.hpp:434-456  MultAT (the same two assertions) *)
Definition lil_multAT (M : lil) (x out : list T) : res (list T) :=
  assert_ (fst (lil_find_size M) =? zlen out) ;;;
  assert_ (snd (lil_find_size M) =? zlen x) ;;;
  for_ 0 (zlen (l_lists M)) (map (fun _ => s0) out) (fun i out =>
    row <- get (l_lists M) i ;;
    foldM (fun out (n : node) =>
      xi <- get x i ;; o <- get out (fst n) ;; set out (fst n) (sadd o (smul (snd n) xi))) row out).

(** operator.cpp:60-88: the overloads that allocate the result. *)
Definition lil_mult_new (M : lil) (x : list T) : res (list T) :=
  out <- vec (fst (lil_find_size M)) s0 ;; lil_mult M x out.
Definition lil_multAT_new (M : lil) (x : list T) : res (list T) :=
  out <- vec (snd (lil_find_size M)) s0 ;; lil_multAT M x out.

(** lilmatrix.hpp:481-493  EliminateZeros(double tolerance = 0) *)
Definition lil_elim_zeros (M : lil) (tol : T) : lil :=
  Lil (l_rows M) (l_cols M) (l_set M)
    (map (filter (fun n : node => negb (slt (sabs (snd n)) tol))) (l_lists M)).

End Lil.

Arguments lil S : clear implicits.
