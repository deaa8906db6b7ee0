(** Model of modules/parlinalgcpp: offsets, column maps, ParMatrix, ParAdd, ParSplit and the
    parallel vector reductions.

    Processes: a value that every rank holds is a list indexed by rank, and a collective call is
    a function on such lists.  The collectives are those of the MPI standard: MPI_Scan and
    MPI_Bcast on int arrays, MPI_Allreduce on one double.  All ranks make the calls in the same
    order, so a collective is one step of the model; between two collectives the ranks do not
    interact and their order does not matter.  hypre objects built from the arrays are not
    modelled, except that hypre_CSRMatrixReorder permutes the entries of each row of diag. *)

From Coq Require Import ZArith List Bool.
From Verif Require Import Base Scalar Spec Dense Sparse SparseMore Coo Vec.
Import ListNotations.
Open Scope Z_scope.

(* ---------------------------------------------------------------- MPI *)

(** f(lo) + ... + f(hi-1) *)
Definition zsum (lo hi : Z) (f : Z -> Z) : Z := fold_right Z.add 0 (map f (zrange lo hi)).

(** Each of the p ranks runs f (its rank). *)
Definition ranks {A} (p : Z) (f : Z -> res A) : res (list A) :=
  foldM (fun acc r => x <- f r ;; Ok (acc ++ [x])) (zrange 0 p) [].

(** MPI_Scan(..., MPI_INT, MPI_SUM): rank r receives the elementwise sum of the buffers of the
    ranks 0 .. r.  Buffers of different lengths: undefined. *)
Definition mpi_scan (bufs : list (list Z)) : res (list (list Z)) :=
  let n := zlen (zn [] bufs 0) in
  if forallb (fun b => zlen b =? n) bufs
  then Ok (map (fun r => map (fun i => zsum 0 (r + 1) (fun q => zn 0 (zn [] bufs q) i)) (zrange 0 n)) (zrange 0 (zlen bufs)))
  else Fail FUB.

(** MPI_Bcast(..., root): every rank receives the buffer of root. *)
Definition mpi_bcast {A} (root : Z) (bufs : list A) : res (list A) :=
  b <- get bufs root ;; Ok (map (fun _ => b) bufs).

(* ---------------------------------------------------------------- offsets *)

(** parutilities.cpp:128-132 *)
Definition offsets_fill (scan local : list Z) (off : list (list Z)) : res (list (list Z)) :=
  for_ 0 (zlen local) off (fun i off =>
    s <- get scan i ;; l <- get local i ;;
    o <- get off i ;; o <- set o 0 (s - l) ;; o <- set o 1 s ;; set off i o).

(** parutilities.cpp:139-142 *)
Definition offsets_total (scan : list Z) (n : Z) (off : list (list Z)) : res (list (list Z)) :=
  for_ 0 n off (fun i off => s <- get scan i ;; o <- get off i ;; o <- set o 2 s ;; set off i o).

(** parutilities.cpp:115-145  GenerateOffsets(comm, local_sizes); [sizes] holds the argument of
    every rank.  HYPRE_AssumedPartitionCheck is a configuration constant and taken to be true. *)
Definition generate_offsets (sizes : list (list Z)) : res (list (list (list Z))) :=
  let p := zlen sizes in
  scan <- mpi_scan sizes ;;
  off <- ranks p (fun r =>
    local <- get sizes r ;; s <- get scan r ;;
    off <- vec (zlen local) [0; 0; 0] ;; offsets_fill s local off) ;;
  scan <- mpi_bcast (p - 1) scan ;;
  ranks p (fun r => local <- get sizes r ;; s <- get scan r ;; o <- get off r ;; offsets_total s (zlen local) o).

(** parutilities.cpp:147-155  GenerateOffsets(comm, local_size) *)
Definition generate_offsets1 (sizes : list Z) : res (list (list Z)) :=
  offs <- generate_offsets (map (fun s => [s]) sizes) ;;
  ranks (zlen sizes) (fun r => o <- get offs r ;; assert_ (zlen o =? 1) ;;; get o 0).

(* ---------------------------------------------------------------- ParMatrix *)

Section Par.
Context {S : scalar}.
Notation T := (car S).
Notation csr := (csr S).
Notation coo := (coo S).

(** parutilities.cpp:157-185  SortColumnMap *)
Definition sort_column_map (srt : sorter) (col_map : list Z) (M : coo) : res (list Z * coo) :=
  let n := zlen col_map in
  let perm := srt (fun i j => zn 0 col_map i <? zn 0 col_map j) (zrange 0 n) in
  col_index <- vec n 0 ;;
  col_index <- for_ 0 n col_index (fun i c => p <- get perm i ;; set c p i) ;;
  M <- coo_permute_cols M col_index ;;
  col_index <- for_ 0 n col_index (fun i c => p <- get perm i ;; g <- get col_map p ;; set c i g) ;;
  Ok (col_index, M).

(** parmatrix.hpp, paroperator.hpp: row_starts_, col_starts_, diag_, offd_, col_map_ *)
Record parmat : Type := ParMat {
  pm_rs : list Z;
  pm_cs : list Z;
  pm_diag : csr;
  pm_offd : csr;
  pm_map : list Z
}.

(** Operator::Rows/Cols, ParOperator::GlobalRows/GlobalCols (paroperator.cpp:104-146) *)
Definition pm_rows (A : parmat) : Z := c_rows (pm_diag A).
Definition pm_cols (A : parmat) : Z := c_cols (pm_diag A).
Definition pm_grows (A : parmat) : Z := zn 0 (pm_rs A) 2.
Definition pm_gcols (A : parmat) : Z := zn 0 (pm_cs A) 2.

(** parmatrix.cpp:70-114  Init(); [reorder] is hypre_CSRMatrixReorder, applied to diag_ in place
    by HypreCreate (parmatrix.cpp:157-190) *)
Definition pm_init (reorder : csr -> csr) (rs cs : list Z) (diag offd : csr) (col_map : list Z) : res parmat :=
  assert_ (zlen rs =? 3) ;;; assert_ (zlen cs =? 3) ;;;
  r0 <- get rs 0 ;; r1 <- get rs 1 ;; r2 <- get rs 2 ;;
  c0 <- get cs 0 ;; c1 <- get cs 1 ;; c2 <- get cs 2 ;;
  assert_ (0 <=? r0) ;;; assert_ (r1 <=? r2) ;;; assert_ (0 <=? c0) ;;; assert_ (c1 <=? c2) ;;;
  let n := zlen col_map in
  offd <- (if (c_rows offd =? 0) && (c_cols offd =? 0) then sp_zero (r1 - r0) 0 else Ok offd) ;;
  assert_ (c_rows diag =? r1 - r0) ;;; assert_ (c_cols diag =? c1 - c0) ;;;
  assert_ (c_rows offd =? r1 - r0) ;;; assert_ (c_cols offd =? n) ;;;
  for_ 0 n tt (fun i _ =>
    g <- get col_map i ;;
    assert_ ((0 <=? g) && (g <? c2)) ;;; assert_ ((c1 <=? g) || (g <? c0)) ;;;
    (if 0 <? i then h <- get col_map (i - 1) ;; assert_ (h <? g) else Ok tt) ;;;
    (if i <? n - 1 then h <- get col_map (i + 1) ;; assert_ (g <? h) else Ok tt)) ;;;
  Ok (ParMat rs cs (reorder diag) offd col_map).

(** parmatrix.cpp:57-68, paroperator.cpp:26-36  ParMatrix(comm, row_starts, col_starts, diag,
    offd, col_map) *)
Definition pm_make (reorder : csr -> csr) (rs cs : list Z) (diag offd : csr) (col_map : list Z) : res parmat :=
  r0 <- get rs 0 ;; r1 <- get rs 1 ;; c0 <- get cs 0 ;; c1 <- get cs 1 ;;
  assert_ (0 <=? r1 - r0) ;;; assert_ (0 <=? c1 - c0) ;;;
  assert_ (3 <=? zlen rs) ;;; assert_ (3 <=? zlen cs) ;;;
  pm_init reorder rs cs diag offd col_map.

(** parmatrix.cpp:21-38  ParMatrix(comm, diag, offd, col_map): collective *)
Definition pm_make_all (reorder : csr -> csr) (parts : list (csr * csr * list Z)) : res (list parmat) :=
  starts <- generate_offsets (map (fun x => [c_rows (fst (fst x)); c_cols (fst (fst x))]) parts) ;;
  ranks (zlen parts) (fun r =>
    x <- get parts r ;; s <- get starts r ;; assert_ (zlen s =? 2) ;;;
    rs <- get s 0 ;; cs <- get s 1 ;;
    pm_init reorder rs cs (fst (fst x)) (snd (fst x)) (snd x)).

(* ---------------------------------------------------------------- ParAdd *)

(** The two nested loops over the stored entries of the first [rows] rows *)
Definition for_stored {A} (rows : Z) (M : csr) (a : A) (f : Z -> Z -> T -> A -> res A) : res A :=
  for_entries rows (c_ptr M) a (fun i j a => c <- get (c_idx M) j ;; v <- get (c_val M) j ;; f i c v a).

(** parutilities.cpp:239-252  diag_to_coo *)
Definition diag_to_coo (rows : Z) (alpha : T) (M : csr) (out : coo) : res coo :=
  for_stored rows M out (fun i c v out => coo_add out i c (smul alpha v)).

(** parutilities.cpp:260-286  offd_to_coo; the state is (coo_offd, marker, col_map) *)
Definition offd_to_coo (rows : Z) (alpha : T) (M : csr) (mat_col_map : list Z)
    (st : coo * list Z * list Z) : res (coo * list Z * list Z) :=
  for_stored rows M st (fun i c v st =>
    let '(out, marker, col_map) := st in
    g <- get mat_col_map c ;;
    m <- get marker g ;;
    if 0 <=? m then out <- coo_add out i m (smul alpha v) ;; Ok (out, marker, col_map)
    else
      out <- coo_add out i (zlen col_map) v ;;
      marker <- set marker g (zlen col_map) ;;
      Ok (out, marker, col_map ++ [g])).

Definition zlist_eqb (a b : list Z) : bool := if list_eq_dec Z.eq_dec a b then true else false.

(** parutilities.cpp:221-304  ParAdd(alpha, A, beta, B, marker): the sum and the marker
    afterwards.  Equality of communicators is not modelled. *)
Definition par_add_marker (srt : sorter) (reorder : csr -> csr) (alpha : T) (A : parmat) (beta : T) (B : parmat)
    (marker : list Z) : res (parmat * list Z) :=
  assert_ (pm_rows A =? pm_rows B) ;;; assert_ (pm_cols A =? pm_cols B) ;;;
  assert_ (pm_grows A =? pm_grows B) ;;; assert_ (pm_gcols A =? pm_gcols B) ;;;
  assert_ (zlist_eqb (pm_rs A) (pm_rs B)) ;;;
  assert_ (pm_gcols A <=? zlen marker) ;;;
  let rows := pm_rows A in
  diag <- coo_new_size rows (pm_cols A) ;;
  diag <- diag_to_coo rows alpha (pm_diag A) diag ;;
  diag <- diag_to_coo rows beta (pm_diag B) diag ;;
  let marker := map (fun _ => -1) marker in
  st <- offd_to_coo rows alpha (pm_offd A) (pm_map A) (coo_new, marker, []) ;;
  '(offd, marker, col_map) <- offd_to_coo rows beta (pm_offd B) (pm_map B) st ;;
  offd <- coo_set_size offd rows (zlen col_map) ;;
  '(col_map, offd) <- sort_column_map srt col_map offd ;;
  marker <- foldM (fun m g => set m g (-1)) col_map marker ;;
  D <- coo_to_sparse diag ;;
  O <- coo_to_sparse offd ;;
  C <- pm_make reorder (pm_rs A) (pm_cs A) D O col_map ;;
  Ok (C, marker).

(** parutilities.cpp:215-219  ParAdd(alpha, A, beta, B) *)
Definition par_add (srt : sorter) (reorder : csr -> csr) (alpha : T) (A : parmat) (beta : T) (B : parmat) : res parmat :=
  marker <- vec (pm_gcols A) (-1) ;;
  '(C, _) <- par_add_marker srt reorder alpha A beta B marker ;; Ok C.

(** parutilities.cpp:210-213  ParAdd(A, B) *)
Definition par_add1 srt reorder (A B : parmat) : res parmat := par_add srt reorder s1 A s1 B.
(** parutilities.cpp:306-309  ParSub(A, B) *)
Definition par_sub1 srt reorder (A B : parmat) : res parmat := par_add srt reorder s1 A (sopp s1) B.
(** parutilities.cpp:311-314  ParSub(alpha, A, beta, B) *)
Definition par_sub srt reorder (alpha : T) (A : parmat) (beta : T) (B : parmat) : res parmat :=
  par_add srt reorder alpha A (sopp beta) B.
(** parutilities.cpp:316-320  ParSub(alpha, A, beta, B, marker) *)
Definition par_sub_marker srt reorder (alpha : T) (A : parmat) (beta : T) (B : parmat) (marker : list Z) :=
  par_add_marker srt reorder alpha A (sopp beta) B marker.

(* ---------------------------------------------------------------- ParSplit *)

(** parutilities.cpp:22-32  local_part *)
Definition split_part (part : list Z) (myid : Z) : res (list Z) :=
  for_ 0 (zlen part) [] (fun i l => q <- get part i ;; Ok (if q =? myid then l ++ [i] else l)).

(** parutilities.cpp:39-44  tmp *)
Definition split_tmp (n : Z) (local_part starts : list Z) : res (list Z) :=
  tmp <- vec n 0 ;;
  for_ 0 (zlen local_part) tmp (fun i t => v <- get local_part i ;; s <- get starts 0 ;; set t v (i + s)).

(** parutilities.cpp:51-112  the part after the collectives; the loop state is (local_diag,
    local_offd, col_map, col_map_index) *)
Definition split_local (srt : sorter) (reorder : csr -> csr) (A : csr) (local_part starts perm : list Z) : res parmat :=
  let n := c_rows A in
  let nl := zlen local_part in
  col_map_index <- vec n (-1) ;;
  local_index <- vec n (-1) ;;
  local_index <- for_ 0 nl local_index (fun i l => v <- get local_part i ;; p <- get perm v ;; set l p i) ;;
  s0 <- get starts 0 ;; s1 <- get starts 1 ;;
  '(diag, offd, col_map, _) <- for_ 0 nl (coo_new, coo_new, [], col_map_index) (fun lv st =>
    vertex <- get local_part lv ;;
    lo <- get (c_ptr A) vertex ;; hi <- get (c_ptr A) (vertex + 1) ;;
    for_ lo hi st (fun j st =>
      let '(diag, offd, col_map, cmi) := st in
      col <- get (c_idx A) j ;; v <- get (c_val A) j ;;
      p <- get perm col ;;
      if (s0 <=? p) && (p <? s1) then
        lc <- get local_index p ;;
        assert_ ((0 <=? lc) && (lc <? nl)) ;;;
        if lv <=? lc then diag <- coo_add_sym diag lv lc v ;; Ok (diag, offd, col_map, cmi)
        else Ok (diag, offd, col_map, cmi)
      else
        lc <- get cmi p ;;
        if 0 <=? lc then offd <- coo_add offd lv lc v ;; Ok (diag, offd, col_map, cmi)
        else
          cmi <- set cmi p (zlen col_map) ;;
          offd <- coo_add offd lv (zlen col_map) v ;;
          Ok (diag, offd, col_map ++ [p], cmi))) ;;
  diag <- coo_set_size diag nl nl ;;
  offd <- coo_set_size offd nl (zlen col_map) ;;
  '(col_map, offd) <- sort_column_map srt col_map offd ;;
  D <- coo_to_sparse diag ;;
  O <- coo_to_sparse offd ;;
  pm_make reorder starts starts D O col_map.

(** parutilities.cpp:8-113  ParSplit on p ranks that all pass the same matrix and partition *)
Definition par_split (srt : sorter) (reorder : csr -> csr) (p : Z) (A : csr) (part : list Z) : res (list parmat) :=
  assert_ (c_rows A =? c_cols A) ;;;
  locals <- ranks p (split_part part) ;;
  starts <- generate_offsets1 (map zlen locals) ;;
  tmp <- ranks p (fun r => l <- get locals r ;; s <- get starts r ;; split_tmp (c_rows A) l s) ;;
  perm <- mpi_scan tmp ;;
  perm <- mpi_bcast (p - 1) perm ;;
  ranks p (fun r => l <- get locals r ;; s <- get starts r ;; q <- get perm r ;; split_local srt reorder A l s q).

(* ---------------------------------------------------------------- in place operations *)

(** The same layout with other blocks *)
Definition pm_with (A : parmat) (diag offd : csr) : parmat := ParMat (pm_rs A) (pm_cs A) diag offd (pm_map A).

(** parmatrix.cpp:302-308  operator*= *)
Definition pm_scale (A : parmat) (t : T) : parmat := pm_with A (sp_scale (pm_diag A) t) (sp_scale (pm_offd A) t).

(** parmatrix.cpp:310-316  operator=(double) *)
Definition pm_fill (A : parmat) (t : T) : res parmat :=
  D <- sp_fill (pm_diag A) t ;; O <- sp_fill (pm_offd A) t ;; Ok (pm_with A D O).

(** parmatrix.cpp:122-131  copy constructor: HypreCreate reorders the copied diag_ *)
Definition pm_copy (reorder : csr -> csr) (A : parmat) : parmat := pm_with A (reorder (pm_diag A)) (pm_offd A).

(** parmatrix.cpp:318-324  unary minus *)
Definition pm_neg (reorder : csr -> csr) (A : parmat) : parmat := pm_scale (pm_copy reorder A) (sopp s1).

(** parmatrix.cpp:338-346  AddDiag(double), AddDiag(std::vector) *)
Definition pm_add_diag_val (A : parmat) (t : T) : res parmat :=
  D <- sp_add_diag_val (pm_diag A) t ;; Ok (pm_with A D (pm_offd A)).
Definition pm_add_diag (A : parmat) (vals : list T) : res parmat :=
  D <- sp_add_diag (pm_diag A) vals ;; Ok (pm_with A D (pm_offd A)).

(** Both blocks changed by the same call *)
Definition pm_both (f : csr -> res csr) (A : parmat) : res parmat :=
  D <- f (pm_diag A) ;; O <- f (pm_offd A) ;; Ok (pm_with A D O).
(** parmatrix.cpp:370-392  ScaleRows, InverseScaleRows, by a diagonal matrix or a vector *)
Definition pm_scale_rows (A : parmat) (values : list T) := pm_both (fun M => sp_scale_rows M values) A.
Definition pm_inv_scale_rows (A : parmat) (values : list T) := pm_both (fun M => sp_inv_scale_rows M values) A.
Definition pm_scale_rows_mat (A : parmat) (D : csr) := pm_both (fun M => sp_scale_rows_mat M D) A.
Definition pm_inv_scale_rows_mat (A : parmat) (D : csr) := pm_both (fun M => sp_inv_scale_rows_mat M D) A.
(** parmatrix.cpp:394-398  EliminateRow *)
Definition pm_elim_row (A : parmat) (index : Z) := pm_both (fun M => sp_elim_row M index) A.

(** std::max *)
Definition smax2 (a b : T) : T := if slt a b then b else a.

(** parmatrix.cpp:354-363  MaxNorm(): collective; MPI_MAX over the ranks *)
Definition par_max_norm (As : list parmat) : res (list T) :=
  let local := map (fun A => smax2 (sp_max_norm (pm_diag A)) (sp_max_norm (pm_offd A))) As in
  match local with
  | [] => Ok []
  | a :: l => Ok (map (fun _ => fold_left smax2 l a) As)
  end.

(* ---------------------------------------------------------------- vectors *)

(** MPI_Allreduce(..., 1, MPI_DOUBLE, MPI_SUM): what rank r receives for the contributions of
    all ranks.  MPI leaves the order and the bracketing of the additions open. *)
Definition allreduce : Type := Z -> list T -> T.

(** parvector.cpp:229-237, 153-161, 209-212  ParVector::Mult, Mult, and ParMult(comm, lhs, rhs) when lhs is a
    VectorView or a Vector (for a ParVector see ParVec.v); a rank holds a heap and two views *)
Definition par_mult (red : allreduce) (ws : list (heap S * view * view)) : res (list T) :=
  local <- ranks (zlen ws) (fun r => '(h, x, y) <- get ws r ;; v_inner h x y) ;;
  Ok (map (fun r => red r local) (zrange 0 (zlen ws))).

(** parvector.cpp:214-222, 204-207, 224-227  ParVector::L2Norm, L2Norm, and ParL2Norm(comm, vect) of a VectorView or a
    Vector *)
Definition par_l2norm (red : allreduce) (sqrt : T -> T) (ws : list (heap S * view)) : res (list T) :=
  s <- par_mult red (map (fun '(h, x) => (h, x, x)) ws) ;; Ok (map sqrt s).

(** parvector.cpp:163-179  LocalSum, GlobalSum *)
Definition par_sum (red : allreduce) (ws : list (heap S * view)) : res (list T) :=
  local <- ranks (zlen ws) (fun r => '(h, x) <- get ws r ;; v_sum h x) ;;
  Ok (map (fun r => red r local) (zrange 0 (zlen ws))).

(** parvector.cpp:181-184  SubAvg(ParVector&); [n] is GlobalSize() *)
Definition par_sub_avg (red : allreduce) (n : Z) (ws : list (heap S * view)) : res (list (heap S)) :=
  s <- par_sum red ws ;;
  ranks (zlen ws) (fun r => '(h, x) <- get ws r ;; t <- get s r ;; v_sub_scalar h x (sdiv t (of_int n))).

(** parvector.cpp:32-50, 93-106  ParVector(comm, vect, part): the checks of Init; the result is
    GlobalSize() *)
Definition pv_init (size : Z) (part : list Z) : res Z :=
  assert_ (2 <=? zlen part) ;;;
  a <- get part 0 ;; b <- get part 1 ;;
  assert_ (0 <=? a) ;;; assert_ (0 <=? b) ;;;
  n <- get part 2 ;;
  assert_ (size =? b - a) ;;;
  assert_ (a <? n) ;;; assert_ (b <=? n) ;;; assert_ (a <=? b) ;;;
  Ok n.

End Par.

Arguments parmat S : clear implicits.
