(** Model of modules/parlinalgcpp/src/hypre_ops.cpp: the threaded product of two distributed
    matrices on one rank.

    A parallel region is a sequence of phases separated by its barriers; in a phase the threads
    interleave as in Threads.v.  An array that no thread writes during a phase is a constant of
    that phase.  The arrays that are written are the shared memory of the phase, numbered in the
    order given in the comment.  hypre_NumThreads() and the number of threads of a region are
    assumed to be the same number n (RowSizes divides by the first, the other regions by the
    second).  hypre_CTAlloc and std::vector::resize fill with zeros. *)

From Coq Require Import ZArith List Bool.
From Verif Require Import Base Scalar Spec Dense Sparse Par Threads.
Import ListNotations.
Open Scope Z_scope.

(** hypre_ops.cpp:88-108, 435-448, 681-693: the rows of thread ii of n *)
Definition thread_range (rows n ii : Z) : Z * Z :=
  let size := Z.quot rows n in
  let rest := rows - size * n in
  if ii <? rest then (ii * size + ii, (ii + 1) * size + ii + 1)
  else (ii * size + rest, (ii + 1) * size + rest).

Section HypreOps.
Context {S : scalar}.
Notation T := (car S).
Notation csr := (csr S).
Notation parmat := (parmat S).

(** Cells hold an int or a double *)
Notation cell := (Z + T)%type.
Notation prog := (prog cell).

Definition rdz (x i : Z) : prog Z := Rd x i (fun v => match v with inl z => Ret z | inr _ => Err FUB end).
Definition rdv (x i : Z) : prog T := Rd x i (fun v => match v with inl _ => Err FUB | inr t => Ret t end).
Definition wrz (x i z : Z) : prog unit := wr x i (inl z).
Definition wrv (x i : Z) (t : T) : prog unit := wr x i (inr t).

(** An array of ints or doubles after a phase *)
Definition ints (m : mem cell) (x : Z) : res (list Z) :=
  a <- get m x ;; foldM (fun acc c => match c with inl z => Ok (acc ++ [z]) | inr _ => Fail FUB end) a [].
Definition doubles (m : mem cell) (x : Z) : res (list T) :=
  a <- get m x ;; foldM (fun acc c => match c with inl _ => Fail FUB | inr t => Ok (acc ++ [t]) end) a [].
Definition zeros (n : Z) : res (list cell) := vec n (inl 0).
Definition dzeros (n : Z) : res (list cell) := vec n (inr s0).

(** All n threads run f (their number) *)
Definition region (n : Z) (sched : list Z) (f : Z -> prog unit) (m : mem cell) : res (mem cell) :=
  '(_, m) <- par_phase sched (map f (zrange 0 n)) m ;; Ok m.

(** The loops over row i of a matrix: for (j = I[i]; j < I[i + 1]; j++), with the column (and the
    value) of entry j: hypre_ops.cpp:144-146, 152-154, 169-171, 186-188, 194-196, 217-219, 458,
    534, 736-739, 745-748, 769-772, 793-796, 802-805, 828-831 *)
Definition over_row {A} (M : csr) (i : Z) (a : A) (f : Z -> A -> res A) : res A :=
  lo <- get (c_ptr M) i ;; hi <- get (c_ptr M) (i + 1) ;;
  for_ lo hi a (fun j a => c <- get (c_idx M) j ;; f c a).
Definition pover_row {A} (M : csr) (i : Z) (a : A) (f : Z -> T -> A -> prog A) : prog A :=
  lo <~ lift (get (c_ptr M) i) ;; hi <~ lift (get (c_ptr M) (i + 1)) ;;
  pfor lo hi a (fun j a => c <~ lift (get (c_idx M) j) ;; v <~ lift (get (c_val M) j) ;; f c v a).

(* ---------------------------------------------------------------- offsets *)

(** hypre_ops.cpp:478-491, 255-268: a thread other than the first adds what the threads before it
    counted.  Memory: 0, 1 row starts (diag, offd); 2, 3 counts of the threads. *)
Definition shift_thread (rows n ii : Z) : prog unit :=
  let '(ns, ne) := thread_range rows n ii in
  d <~ rdz 2 0 ;; o <~ rdz 3 0 ;;
  ' (d, o) <~ pfor 1 ii (d, o) (fun k st => x <~ rdz 2 k ;; y <~ rdz 3 k ;; Ret (fst st + x, snd st + y)) ;;
  pfor ns ne tt (fun i _ =>
    x <~ rdz 0 i ;; wrz 0 i (x + d) ~;; y <~ rdz 1 i ;; wrz 1 i (y + o)).

(** hypre_ops.cpp:476-505 *)
Definition ext_offsets_thread (rows n ii : Z) : prog unit :=
  if negb (ii =? 0) then shift_thread rows n ii
  else
    ' (d, o) <~ pfor 0 n (0, 0) (fun k st => x <~ rdz 2 k ;; y <~ rdz 3 k ;; Ret (fst st + x, snd st + y)) ;;
    wrz 0 rows d ~;; wrz 1 rows o.

(** hypre_ops.cpp:253-280 *)
Definition row_offsets_thread (rows n ii : Z) : prog unit :=
  if negb (ii =? 0) then shift_thread rows n ii
  else
    wrz 0 rows 0 ~;; wrz 1 rows 0 ~;;
    pfor 0 n tt (fun k _ =>
      x <~ rdz 0 rows ;; d <~ rdz 2 k ;; wrz 0 rows (x + d) ~;;
      y <~ rdz 1 rows ;; o <~ rdz 3 k ;; wrz 1 rows (y + o)).

(* ---------------------------------------------------------------- B_ext *)

(** hypre_ops.cpp:459, 535 *)
Definition outside (fc lc c : Z) : bool := (c <? fc) || (lc <? c).

(** hypre_ops.cpp:435-470; memory as in [shift_thread].  [ext] holds the arrays of Bs_ext. *)
Definition ext_count_thread (ext : csr) (fc lc rows n ii : Z) : prog unit :=
  let '(ns, ne) := thread_range rows n ii in
  ' (d, o) <~ pfor ns ne (0, 0) (fun i st =>
    let '(d, o) := st in
    wrz 0 i d ~;; wrz 1 i o ~;;
    lift (over_row ext i (d, o) (fun c st =>
            if outside fc lc c then Ok (fst st, snd st + 1) else Ok (fst st + 1, snd st)))) ;;
  wrz 2 ii d ~;; wrz 3 ii o.

(** hypre_ops.cpp:529-546; memory: 0, 1 B_ext_diag_j, _data; 2, 3 B_ext_offd_j, _data; 4 temp *)
Definition ext_fill_thread (ext : csr) (fc lc : Z) (bdi boi : list Z) (rows n ii : Z) : prog unit :=
  let '(ns, ne) := thread_range rows n ii in
  o <~ lift (get boi ns) ;; d <~ lift (get bdi ns) ;;
  pfor ns ne (d, o) (fun i st =>
    pover_row ext i st (fun c v st =>
      let '(d, o) := st in
      if outside fc lc c
      then wrz 4 o c ~;; wrz 2 o c ~;; wrv 3 o v ~;; Ret (d, o + 1)
      else wrz 0 d (c - fc) ~;; wrv 1 d v ~;; Ret (d + 1, o))) ~;;
  Ret tt.

(** hypre_ops.cpp:561-596: the first thread sorts the global columns and removes repetitions *)
Definition unique_columns (srt : sorter) (temp : list Z) (osize : Z) (mapB : list Z) : res (list Z) :=
  let ncoB := zlen mapB in
  if negb (osize =? 0) || negb (ncoB =? 0) then
    ' (temp, cnt) <- for_ 0 ncoB (temp, osize) (fun i st =>
      let '(temp, cnt) := st in
      g <- get mapB i ;; temp <- set temp cnt g ;; Ok (temp, cnt + 1)) ;;
    ' (temp, k) <- (if negb (cnt =? 0) then
      temp <- sort_range srt Z.ltb temp 0 (cnt - 1 + 1) ;;
      v <- get temp 0 ;;
      ' (temp, k, _) <- for_ 1 cnt (temp, 1, v) (fun i st =>
        let '(temp, k, v) := st in
        x <- get temp i ;;
        if v <? x then temp <- set temp k x ;; Ok (temp, k + 1, x) else Ok st) ;;
      Ok (temp, k)
     else Ok (temp, 0)) ;;
    out <- vec k 0 ;;
    for_ 0 k out (fun i out => x <- get temp i ;; set out i x)
  else Ok [].

(** hypre_ops.cpp:603-606; memory: 0 B_ext_offd_j.  [bsearch] is hypre_BinarySearch. *)
Definition ext_renumber_thread (bsearch : list Z -> Z -> Z -> Z) (cmC boi : list Z) (rows n ii : Z) : prog unit :=
  let '(ns, ne) := thread_range rows n ii in
  pfor ns ne tt (fun i _ =>
    lo <~ lift (get boi i) ;; hi <~ lift (get boi (i + 1)) ;;
    pfor lo hi tt (fun j _ => x <~ rdz 0 j ;; wrz 0 j (bsearch cmC x (zlen cmC)))).

(** hypre_ops.cpp:613-630 *)
Definition map_columns (cmC mapB : list Z) : res (list Z) :=
  let ncoB := zlen mapB in
  if negb (ncoB =? 0) then
    m <- vec ncoB 0 ;;
    ' (m, _) <- for_ 0 (zlen cmC) (m, 0) (fun i st =>
      let '(m, cnt) := st in
      if cnt =? ncoB then Ok st
      else
        a <- get cmC i ;; b <- get mapB cnt ;;
        if a =? b then m <- set m cnt i ;; Ok (m, cnt + 1) else Ok st) ;;
    Ok m
  else Ok [].

(** hypre_ops.cpp:403-608: B_ext_diag, B_ext_offd (with the columns renumbered) and
    col_map_offd_C.  [ext] is what hypre_ParCSRMatrixExtractBExt returns; without it (one process)
    the pointers are null. *)
Definition split_ext (n : Z) (sched : Z -> list Z) (srt : sorter) (bsearch : list Z -> Z -> Z -> Z)
    (ext : option csr) (ncoA : Z) (B : parmat) : res (csr * csr * list Z) :=
  let ext := match ext with Some e => e | None => CSR 0 0 [] [] [] end in
  fc <- get (pm_cs B) 0 ;;
  let ncdB := c_cols (pm_diag B) in
  let lc := fc + ncdB - 1 in
  bdi <- zeros (ncoA + 1) ;; boi <- zeros (ncoA + 1) ;; myd <- zeros n ;; myo <- zeros n ;;
  m <- region n (sched 1) (ext_count_thread ext fc lc ncoA n) [bdi; boi; myd; myo] ;;
  m <- region n (sched 2) (ext_offsets_thread ncoA n) m ;;
  bdi <- ints m 0 ;; boi <- ints m 1 ;;
  dsize <- get bdi ncoA ;; osize <- get boi ncoA ;;
  dj <- zeros dsize ;; dd <- dzeros dsize ;; oj <- zeros osize ;; od <- dzeros osize ;;
  temp <- zeros (osize + zlen (pm_map B)) ;;
  m <- region n (sched 3) (ext_fill_thread ext fc lc bdi boi ncoA n) [dj; dd; oj; od; temp] ;;
  dj <- ints m 0 ;; dd <- doubles m 1 ;; od <- doubles m 3 ;; temp <- ints m 4 ;; oj <- get m 2 ;;
  cmC <- unique_columns srt temp osize (pm_map B) ;;
  m <- region n (sched 4) (ext_renumber_thread bsearch cmC boi ncoA n) [oj] ;;
  oj <- ints m 0 ;;
  Ok (CSR ncoA ncdB bdi dj dd, CSR ncoA (zlen cmC) boi oj od, cmC).

(* ---------------------------------------------------------------- first pass *)

(** hypre_ops.cpp:162-166, 173-177, 204-208, 227-231 *)
Definition count_one (b : Z) (st : list Z * Z) (i3 : Z) : res (list Z * Z) :=
  let '(marker, c) := st in
  mk <- get marker i3 ;;
  if mk <? b then marker <- set marker i3 c ;; Ok (marker, c + 1) else Ok (marker, c).

(** hypre_ops.cpp:129-234: row i1 of RowSizes; state: B_marker, jj_count_diag, jj_count_offd *)
Definition count_row (A B : parmat) (Dx Ox : csr) (mBC : list Z) (allsquare : bool) (i1 : Z)
    (st : list Z * Z * Z) : res (list Z * Z * Z) :=
  let '(marker, d, o) := st in
  let bd := d in let bo := o in
  let ncdB := c_cols (pm_diag B) in
  let on_diag i3 st := let '(marker, d, o) := st in ' (marker, d) <- count_one bd (marker, d) i3 ;; Ok (marker, d, o) in
  let on_offd i3 st := let '(marker, d, o) := st in ' (marker, o) <- count_one bo (marker, o) i3 ;; Ok (marker, d, o) in
  st <- (if allsquare then marker <- set marker i1 d ;; Ok (marker, d + 1, o) else Ok (marker, d, o)) ;;
  st <- (if negb (c_cols (pm_offd A) =? 0)
    then over_row (pm_offd A) i1 st (fun i2 st =>
      st <- over_row Ox i2 st (fun j st => on_offd (ncdB + j) st) ;;
      over_row Dx i2 st (fun j st => on_diag j st))
    else Ok st) ;;
  over_row (pm_diag A) i1 st (fun i2 st =>
    st <- over_row (pm_diag B) i2 st (fun j st => on_diag j st) ;;
    if negb (c_cols (pm_offd B) =? 0)
    then over_row (pm_offd B) i2 st (fun j st => k <- get mBC j ;; on_offd (ncdB + k) st)
    else Ok st).

(** hypre_ops.cpp:110-246; memory: 0, 1 C_diag_i, C_offd_i; 2, 3 jj_count_diag_array,
    jj_count_offd_array *)
Definition row_sizes_thread (A B : parmat) (Dx Ox : csr) (mBC : list Z) (allsquare : bool) (ncoC rows n ii : Z) : prog unit :=
  let '(ns, ne) := thread_range rows n ii in
  marker <~ lift (vec (c_cols (pm_diag B) + ncoC) (-1)) ;;
  ' (_, d, o) <~ pfor ns ne (marker, 0, 0) (fun i1 st =>
    let '(_, d, o) := st in
    st <~ lift (count_row A B Dx Ox mBC allsquare i1 st) ;;
    wrz 0 i1 d ~;; wrz 1 i1 o ~;; Ret st) ;;
  wrz 2 ii d ~;; wrz 3 ii o.

(** hypre_ops.cpp:33-295  RowSizes: C_diag_i and C_offd_i *)
Definition row_sizes (n : Z) (sched : Z -> list Z) (A B : parmat) (Dx Ox : csr) (mBC : list Z) (allsquare : bool) (ncoC : Z) :
    res (list Z * list Z) :=
  let rows := c_rows (pm_diag A) in
  cdi <- zeros (rows + 1) ;; coi <- zeros (rows + 1) ;; cd <- zeros n ;; co <- zeros n ;;
  m <- region n (sched 5) (row_sizes_thread A B Dx Ox mBC allsquare ncoC rows n) [cdi; coi; cd; co] ;;
  m <- region n (sched 6) (row_offsets_thread rows n) m ;;
  cdi <- ints m 0 ;; coi <- ints m 1 ;; Ok (cdi, coi).

(* ---------------------------------------------------------------- second pass *)

(** hypre_ops.cpp:756-766, 774-784, 813-823, 839-849; arrays xj (columns) and xd (values) *)
Definition fill_one (xj xd sh b : Z) (st : list Z * Z) (i3 : Z) (v : T) : prog (list Z * Z) :=
  let '(marker, c) := st in
  mk <~ lift (get marker i3) ;;
  if mk <? b
  then marker <~ lift (set marker i3 c) ;; wrv xd c v ~;; wrz xj c (i3 - sh) ~;; Ret (marker, c + 1)
  else old <~ rdv xd mk ;; wrv xd mk (sadd old v) ~;; Ret (marker, c).

(** hypre_ops.cpp:719-852: row i1; memory: 0, 1 C_diag_j, _data; 2, 3 C_offd_j, _data *)
Definition fill_row (A B : parmat) (Dx Ox : csr) (mBC : list Z) (allsquare : bool) (i1 : Z) (st : list Z * Z * Z) : prog (list Z * Z * Z) :=
  let '(marker, d, o) := st in
  let bd := d in let bo := o in
  let ncdB := c_cols (pm_diag B) in
  let on_diag i3 v st := let '(marker, d, o) := st in ' (marker, d) <~ fill_one 0 1 0 bd (marker, d) i3 v ;; Ret (marker, d, o) in
  let on_offd i3 v st := let '(marker, d, o) := st in ' (marker, o) <~ fill_one 2 3 ncdB bo (marker, o) i3 v ;; Ret (marker, d, o) in
  st <~ (if allsquare
    then marker <~ lift (set marker i1 d) ;; wrv 1 d s0 ~;; wrz 0 d i1 ~;; Ret (marker, d + 1, o)
    else Ret (marker, d, o)) ;;
  st <~ (if negb (c_cols (pm_offd A) =? 0)
    then pover_row (pm_offd A) i1 st (fun i2 a st =>
      st <~ pover_row Ox i2 st (fun j b st => on_offd (ncdB + j) (smul a b) st) ;;
      pover_row Dx i2 st (fun j b st => on_diag j (smul a b) st))
    else Ret st) ;;
  pover_row (pm_diag A) i1 st (fun i2 a st =>
    st <~ pover_row (pm_diag B) i2 st (fun j b st => on_diag j (smul a b) st) ;;
    if negb (c_cols (pm_offd B) =? 0)
    then pover_row (pm_offd B) i2 st (fun j b st => k <~ lift (get mBC j) ;; on_offd (ncdB + k) (smul a b) st)
    else Ret st).

(** hypre_ops.cpp:679-855 *)
Definition fill_thread (A B : parmat) (Dx Ox : csr) (mBC : list Z) (allsquare : bool) (ncoC : Z) (cdi coi : list Z) (rows n ii : Z) : prog unit :=
  let '(ns, ne) := thread_range rows n ii in
  d <~ lift (get cdi ns) ;; o <~ lift (get coi ns) ;;
  marker <~ lift (vec (c_cols (pm_diag B) + ncoC) (-1)) ;;
  pfor ns ne (marker, d, o) (fun i1 st => fill_row A B Dx Ox mBC allsquare i1 st) ~;;
  Ret tt.

(** hypre_ops.cpp:297-891  ParMatrix::Mult(other) on one rank *)
Definition par_mult (n : Z) (sched : Z -> list Z) (srt : sorter) (bsearch : list Z -> Z -> Z -> Z) (reorder : csr -> csr)
    (ext : option csr) (A B : parmat) : res parmat :=
  assert_ ((pm_gcols A =? pm_grows B) && (c_cols (pm_diag A) =? c_rows (pm_diag B))) ;;;
  let rows := c_rows (pm_diag A) in
  let allsquare := rows =? c_cols (pm_diag B) in
  ' (Dx, Ox, cmC) <- split_ext n sched srt bsearch ext (c_cols (pm_offd A)) B ;;
  mBC <- map_columns cmC (pm_map B) ;;
  ' (cdi, coi) <- row_sizes n sched A B Dx Ox mBC allsquare (zlen cmC) ;;
  dsize <- get cdi rows ;; osize <- get coi rows ;;
  dj <- zeros dsize ;; dd <- dzeros dsize ;; oj <- zeros osize ;; od <- dzeros osize ;;
  m <- region n (sched 7) (fill_thread A B Dx Ox mBC allsquare (zlen cmC) cdi coi rows n) [dj; dd; oj; od] ;;
  dj <- ints m 0 ;; dd <- doubles m 1 ;; oj <- ints m 2 ;; od <- doubles m 3 ;;
  c0 <- get (pm_cs B) 0 ;; c1 <- get (pm_cs B) 1 ;;
  D <- sp_make cdi dj dd rows (c1 - c0) ;;
  O <- sp_make coi oj od rows (zlen cmC) ;;
  pm_make reorder (pm_rs A) (pm_cs B) D O cmC.

End HypreOps.
