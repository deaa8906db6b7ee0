(** Model of include/blockvector.hpp, include/blockmatrix.hpp, src/blockoperator.cpp and of
    the overloads of src/operator.cpp that allocate or resize the output. *)

From Coq Require Import ZArith List Bool.
From Verif Require Import Base Scalar Spec Dense Sparse Vec.
Import ListNotations.
Open Scope Z_scope.

(** offsets.back() *)
Definition back (l : list Z) : res Z := get l (zlen l - 1).

Section Block.
Context {S : scalar}.
Notation T := (car S).
Notation csr := (csr S).

(* ---------------------------------------------------------------- BlockVector *)

Variable grow : Z -> Z -> Z.

(** blockvector.hpp:74-86  BlockVector(offsets) and BlockVector(offsets, val): the Vector part
    is a new variable of the state, offsets_ is returned beside it. *)
Definition bv_new (st : vstate S) (offs : list Z) (t : T) : res (vstate S * list Z) :=
  n <- back offs ;; st <- st_new grow st n t ;; Ok (st, offs).

(** blockvector.hpp:88-93  BlockVector(const VectorView<T>& data, offsets) *)
Definition bv_of_view (st : vstate S) (r : vref) (offs : list Z) : res (vstate S * list Z) :=
  st <- st_of_view grow st r ;; Ok (st, offs).

(** blockvector.hpp:130-150  GetBlock(int block), both overloads; [w] is the Vector part.
    Only the upper bound of the block number is checked. *)
Definition bv_block (w : vector) (offs : list Z) (i : Z) : res view :=
  assert_ (i <? zlen offs - 1) ;;;
  lo <- get offs i ;; hi <- get offs (i + 1) ;;
  v_make (v_buf (w_view w)) (v_off (w_view w) + lo) (hi - lo).

(* ---------------------------------------------------------------- BlockMatrix *)

(** blockmatrix.hpp:109-112  row_offsets_, col_offsets_, A_; Operator: rows_, cols_ *)
Record bmat : Type := BMat {
  bm_rows : Z;
  bm_cols : Z;
  bm_ro : list Z;
  bm_co : list Z;
  bm_A : list (list csr)
}.

(** blockmatrix.hpp:115-120  BlockMatrix() *)
Definition bm_empty : bmat := BMat 0 0 [0] [0] [].

(** blockmatrix.hpp:131-138  BlockMatrix(row_offsets, col_offsets); operator.cpp:18-23 checks
    the sizes *)
Definition bm_new (ro co : list Z) : res bmat :=
  rows <- back ro ;; cols <- back co ;;
  assert_ (0 <=? rows) ;;; assert_ (0 <=? cols) ;;;
  row <- vec (zlen co - 1) sp_empty ;;
  A <- vec (zlen ro - 1) row ;;
  Ok (BMat rows cols ro co A).

(** blockmatrix.hpp:122-129  BlockMatrix(offsets) *)
Definition bm_new_square (offs : list Z) : res bmat := bm_new offs offs.

(** blockmatrix.hpp:148-152, 162-170  move constructor and swap: the new object has empty
    offset lists, not {0} *)
Definition bm_move (M : bmat) : bmat * bmat := (M, BMat 0 0 [] [] []).
Definition bm_swap (M N : bmat) : bmat * bmat := (N, M).

(** A_[i][j] *)
Definition bm_at (M : bmat) (i j : Z) : res csr := row <- get (bm_A M) i ;; get row j.

(** blockmatrix.hpp:184-191  GetBlock *)
Definition bm_get_block (M : bmat) (i j : Z) : res csr :=
  assert_ (i <? zlen (bm_ro M) - 1) ;;; assert_ (j <? zlen (bm_co M) - 1) ;;; bm_at M i j.

(** blockmatrix.hpp:193-203  SetBlock *)
Definition bm_set_block (M : bmat) (i j : Z) (B : csr) : res bmat :=
  assert_ (i <? zlen (bm_ro M) - 1) ;;; assert_ (j <? zlen (bm_co M) - 1) ;;;
  r1 <- get (bm_ro M) (i + 1) ;; r0 <- get (bm_ro M) i ;; assert_ (c_rows B =? r1 - r0) ;;;
  c1 <- get (bm_co M) (j + 1) ;; c0 <- get (bm_co M) j ;; assert_ (c_cols B =? c1 - c0) ;;;
  row <- get (bm_A M) i ;; row <- set row j B ;; A <- set (bm_A M) i row ;;
  Ok (BMat (bm_rows M) (bm_cols M) (bm_ro M) (bm_co M) A).

(** blockmatrix.hpp:205-222  Transpose *)
Definition bm_transpose (M : bmat) : res bmat :=
  N <- bm_new (bm_co M) (bm_ro M) ;;
  for_ 0 (zlen (bm_ro M) - 1) N (fun i N =>
    for_ 0 (zlen (bm_co M) - 1) N (fun j N =>
      B <- bm_get_block M i j ;; bm_set_block N j i B)).

(** The nest shared by Combine, Mult and MultAT:
      for i, for row in row_offsets_[i] .. row_offsets_[i+1]-1 (local_row counts along):
        start(row)
        for j: if A_[i][j] has no rows or no columns, continue
               for jj in its row local_row: visit(row, col_offsets_[j] + column, value)
        finish(row)
    The bodies never write the block matrix. *)
Definition bm_for {St : Type} (M : bmat) (s : St) (start : Z -> St -> res St)
    (visit : Z -> Z -> T -> St -> res St) (finish : Z -> St -> res St) : res St :=
  for_ 0 (zlen (bm_ro M) - 1) s (fun i s =>
    lo <- get (bm_ro M) i ;; hi <- get (bm_ro M) (i + 1) ;;
    '(_, s) <- for_ lo hi (0, s) (fun row st =>
      let '(local_row, s) := st in
      s <- start row s ;;
      s <- for_ 0 (zlen (bm_co M) - 1) s (fun j s =>
        B <- bm_at M i j ;;
        if (c_rows B =? 0) || (c_cols B =? 0) then Ok s
        else
          offset <- get (bm_co M) j ;;
          b <- get (c_ptr B) local_row ;; e <- get (c_ptr B) (local_row + 1) ;;
          for_ b e s (fun jj s =>
            c <- get (c_idx B) jj ;; a <- get (c_val B) jj ;; visit row (offset + c) a s)) ;;
      s <- finish row s ;;
      Ok (local_row + 1, s)) ;;
    Ok s).

(** blockmatrix.hpp:224-288  Combine.  The array data has type std::vector<double> whatever T
    is; the model has one value type. *)
Definition bm_combine (M : bmat) : res csr :=
  nnz <- foldM (fun n row => foldM (fun n B => Ok (n + sp_nnz B)) row n) (bm_A M) 0 ;;
  ip <- vec (bm_rows M + 1) 0 ;; ix <- vec nnz 0 ;; d <- vec nnz s0 ;;
  ip <- set ip 0 0 ;;
  '(ip, ix, d, _) <- bm_for M (ip, ix, d, 0)
    (fun row st => Ok st)
    (fun row col a st => let '(ip, ix, d, n) := st in
       ix <- set ix n col ;; d <- set d n a ;; Ok (ip, ix, d, n + 1))
    (fun row st => let '(ip, ix, d, n) := st in
       ip <- set ip (row + 1) n ;; Ok (ip, ix, d, n)) ;;
  sp_make ip ix d (bm_rows M) (bm_cols M).

(** blockmatrix.hpp:318-369  Mult(input, output); [out] is the previous content of output *)
Definition bm_mult (M : bmat) (x out : list T) : res (list T) :=
  assert_ (zlen x =? bm_cols M) ;;; assert_ (zlen out =? bm_rows M) ;;;
  '(_, out) <- bm_for M (s0, map (fun _ => s0) out)
    (fun row st => let '(_, out) := st in Ok (s0, out))
    (fun row col a st => let '(v, out) := st in
       xc <- get x col ;; Ok (sadd v (smul a xc), out))
    (fun row st => let '(v, out) := st in out <- set out row v ;; Ok (v, out)) ;;
  Ok out.

(** blockmatrix.hpp:371-417  MultAT(input, output) *)
Definition bm_multAT (M : bmat) (x out : list T) : res (list T) :=
  assert_ (zlen x =? bm_rows M) ;;; assert_ (zlen out =? bm_cols M) ;;;
  bm_for M (map (fun _ => s0) out)
    (fun row out => Ok out)
    (fun row col a out =>
       xr <- get x row ;; o <- get out col ;; set out col (sadd o (smul a xr)))
    (fun row out => Ok out).

(* ---------------------------------------------------------------- Operator *)

(** include/operator.hpp  The interface of an operator: Rows(), Cols(), Mult and MultAT into a
    view.  W is the state operators may keep between calls (mutable members); a call gets the
    input, the previous content of the output, and returns the new content. *)
Record op (W : Type) : Type := Op {
  o_rows : Z;
  o_cols : Z;
  o_mult : W -> list T -> list T -> res (W * list T);
  o_multAT : W -> list T -> list T -> res (W * list T)
}.
Arguments o_rows {W} _.
Arguments o_cols {W} _.
Arguments o_mult {W} _ _ _ _.
Arguments o_multAT {W} _ _ _ _.

(** vector.hpp:177-201  SetSize on the elements (Vec.st_set_size, refined by vops_refine) *)
Definition l_set_size (l : list T) (n : Z) : res (list T) :=
  if n =? zlen l then Ok l
  else assert_ (0 <=? n) ;;; Ok (firstn (Z.to_nat n) l ++ repeat s0 (Z.to_nat (n - zlen l))).

(** operator.cpp:60-65, 75-80  Mult and MultAT(input, Vector<double>& output) *)
Definition op_mult_vec {W} (o : op W) (w : W) (x out : list T) : res (W * list T) :=
  out <- l_set_size out (o_rows o) ;; o_mult o w x out.
Definition op_multAT_vec {W} (o : op W) (w : W) (x out : list T) : res (W * list T) :=
  out <- l_set_size out (o_cols o) ;; o_multAT o w x out.

(** operator.cpp:67-73, 82-88  Mult and MultAT returning a new Vector *)
Definition op_mult_new {W} (o : op W) (w : W) (x : list T) : res (W * list T) :=
  out <- vec (o_rows o) s0 ;; op_mult_vec o w x out.
Definition op_multAT_new {W} (o : op W) (w : W) (x : list T) : res (W * list T) :=
  out <- vec (o_cols o) s0 ;; op_multAT_vec o w x out.

(** std::inner_product over equally long vectors (vectorview.hpp:455-478) *)
Definition l_inner (x y : list T) : res T :=
  assert_ (zlen x =? zlen y) ;;;
  for_ 0 (zlen x) s0 (fun i s => a <- get x i ;; b <- get y i ;; Ok (sadd s (smul a b))).

(** operator.cpp:90-93  InnerProduct: y.Mult(Mult(x)) *)
Definition op_inner {W} (o : op W) (w : W) (x y : list T) : res (W * T) :=
  '(w, z) <- op_mult_new o w x ;; s <- l_inner y z ;; Ok (w, s).

(** operator.hpp:106-110  the MultAT of a class that does not override it *)
Definition op_no_multAT {W} (w : W) (x out : list T) : res (W * list T) := Fail FThrow.

(** The matrix classes as operators; they keep no state. *)
Definition sp_op (A : csr) : op unit :=
  Op unit (c_rows A) (c_cols A)
    (fun w x out => y <- sp_mult A x out ;; Ok (w, y))
    (fun w x out => y <- sp_multAT A x out ;; Ok (w, y)).
Definition bm_op (M : bmat) : op unit :=
  Op unit (bm_rows M) (bm_cols M)
    (fun w x out => y <- bm_mult M x out ;; Ok (w, y))
    (fun w x out => y <- bm_multAT M x out ;; Ok (w, y)).

(* ---------------------------------------------------------------- BlockOperator *)

(** include/blockoperator.hpp:85-93  without the buffers.  The blocks are pointers to operators
    that must outlive the object; the model holds the operators themselves. *)
Record bop (W : Type) : Type := BOp {
  bo_rows : Z;
  bo_cols : Z;
  bo_ro : list Z;
  bo_co : list Z;
  bo_A : list (list (option (op W)))
}.
Arguments bo_rows {W} _.
Arguments bo_cols {W} _.
Arguments bo_ro {W} _.
Arguments bo_co {W} _.
Arguments bo_A {W} _.

(** The mutable members x_, y_, tmp_. *)
Record bbuf : Type := BBuf { bb_x : list T; bb_y : list T; bb_tmp : list T }.

(** blockoperator.cpp:23-30  BlockOperator(row_offsets, col_offsets) *)
Definition bo_new (W : Type) (ro co : list Z) : res (bop W * bbuf) :=
  rows <- back ro ;; cols <- back co ;;
  assert_ (0 <=? rows) ;;; assert_ (0 <=? cols) ;;;
  row <- vec (zlen co - 1) None ;;
  A <- vec (zlen ro - 1) row ;;
  x <- vec cols s0 ;; y <- vec rows s0 ;;
  Ok (BOp W rows cols ro co A, BBuf x y []).

(** blockoperator.cpp:14-21  BlockOperator(offsets) *)
Definition bo_new_square (W : Type) (offs : list Z) : res (bop W * bbuf) := bo_new W offs offs.

(** A_[i][j] *)
Definition bo_at {W} (B : bop W) (i j : Z) : res (option (op W)) := row <- get (bo_A B) i ;; get row j.

(** blockoperator.cpp:67-73  GetBlock *)
Definition bo_get_block {W} (B : bop W) (i j : Z) : res (option (op W)) :=
  assert_ (i <? zlen (bo_ro B) - 1) ;;; assert_ (j <? zlen (bo_co B) - 1) ;;; bo_at B i j.

(** blockoperator.cpp:75-84  SetBlock *)
Definition bo_set_block {W} (B : bop W) (i j : Z) (o : op W) : res (bop W) :=
  assert_ (i <? zlen (bo_ro B) - 1) ;;; assert_ (j <? zlen (bo_co B) - 1) ;;;
  r1 <- get (bo_ro B) (i + 1) ;; r0 <- get (bo_ro B) i ;; assert_ (o_rows o =? r1 - r0) ;;;
  c1 <- get (bo_co B) (j + 1) ;; c0 <- get (bo_co B) j ;; assert_ (o_cols o =? c1 - c0) ;;;
  row <- get (bo_A B) i ;; row <- set row j (Some o) ;; A <- set (bo_A B) i row ;;
  Ok (BOp W (bo_rows B) (bo_cols B) (bo_ro B) (bo_co B) A).

(** blockvector.hpp:130-139  GetBlock of x_ or y_, whose offsets are [offs]: position and size of
    the view; reading or writing it outside the elements is undefined. *)
Definition l_block (l : list T) (offs : list Z) (i : Z) : res (Z * Z) :=
  assert_ (i <? zlen offs - 1) ;;;
  lo <- get offs i ;; hi <- get offs (i + 1) ;; assert_ (0 <=? hi - lo) ;;; Ok (lo, hi - lo).
Definition l_read (l : list T) (b : Z * Z) : res (list T) :=
  for_ 0 (snd b) [] (fun k r => a <- get l (fst b + k) ;; Ok (r ++ [a])).
(** vectorview.hpp:551-564  view += tmp *)
Definition l_add (l : list T) (b : Z * Z) (tmp : list T) : res (list T) :=
  assert_ (snd b =? zlen tmp) ;;;
  for_ 0 (snd b) l (fun k l =>
    t <- get tmp k ;; a <- get l (fst b + k) ;; set l (fst b + k) (sadd a t)).

(** blockoperator.cpp:86-115  Mult.  x_ = input resizes x_; output = y_ copies. *)
Definition bo_mult {W} (B : bop W) (w : W) (u : bbuf) (x out : list T) : res (W * bbuf * list T) :=
  assert_ (zlen x =? bo_cols B) ;;; assert_ (zlen out =? bo_rows B) ;;;
  '(w, y, tmp) <- for_ 0 (zlen (bo_ro B) - 1) (w, map (fun _ => s0) (bb_y u), bb_tmp u) (fun i st =>
    let '(w, y, tmp) := st in
    row_y <- l_block y (bo_ro B) i ;;
    tmp <- l_set_size tmp (snd row_y) ;;
    for_ 0 (zlen (bo_co B) - 1) (w, y, tmp) (fun j st =>
      let '(w, y, tmp) := st in
      o <- bo_at B i j ;;
      match o with
      | None => Ok (w, y, tmp)
      | Some o =>
          b <- l_block x (bo_co B) j ;; xj <- l_read x b ;;
          '(w, tmp) <- op_mult_vec o w xj tmp ;;
          y <- l_add y row_y tmp ;;
          Ok (w, y, tmp)
      end)) ;;
  assert_ (zlen y =? zlen out) ;;;
  Ok (w, BBuf x y tmp, y).

(** blockoperator.cpp:117-150  MultAT *)
Definition bo_multAT {W} (B : bop W) (w : W) (u : bbuf) (x out : list T) : res (W * bbuf * list T) :=
  assert_ (zlen x =? bo_rows B) ;;; assert_ (zlen out =? bo_cols B) ;;;
  '(w, y, tmp) <- for_ 0 (zlen (bo_co B) - 1) (w, map (fun _ => s0) (bb_x u), bb_tmp u) (fun j st =>
    let '(w, y, tmp) := st in
    row_x <- l_block y (bo_co B) j ;;
    tmp <- l_set_size tmp (snd row_x) ;;
    for_ 0 (zlen (bo_ro B) - 1) (w, y, tmp) (fun i st =>
      let '(w, y, tmp) := st in
      o <- bo_at B i j ;;
      match o with
      | None => Ok (w, y, tmp)
      | Some o =>
          b <- l_block x (bo_ro B) i ;; xi <- l_read x b ;;
          '(w, tmp) <- op_multAT_vec o w xi tmp ;;
          y <- l_add y row_x tmp ;;
          Ok (w, y, tmp)
      end)) ;;
  assert_ (zlen y =? zlen out) ;;;
  Ok (w, BBuf y x tmp, y).

(** A BlockOperator as an operator: its own buffers are part of the state. *)
Definition bo_op {W} (B : bop W) : op (W * bbuf) :=
  Op (W * bbuf) (bo_rows B) (bo_cols B)
    (fun w x out => '(w1, u, y) <- bo_mult B (fst w) (snd w) x out ;; Ok ((w1, u), y))
    (fun w x out => '(w1, u, y) <- bo_multAT B (fst w) (snd w) x out ;; Ok ((w1, u), y)).

End Block.

Arguments bmat S : clear implicits.
Arguments op S W : clear implicits.
Arguments bop S W : clear implicits.
Arguments bbuf S : clear implicits.
Arguments o_rows {S W} _.
Arguments o_cols {S W} _.
Arguments o_mult {S W} _ _ _ _.
Arguments o_multAT {S W} _ _ _ _.
Arguments bo_rows {S W} _.
Arguments bo_cols {S W} _.
Arguments bo_ro {S W} _.
Arguments bo_co {S W} _.
Arguments bo_A {S W} _.
