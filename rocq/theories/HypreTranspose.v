(** Model of modules/parlinalgcpp/src/hypre_ops.cpp: ParMatrix::Transpose, and of RAP in
    parutilities.cpp.

    Communication: hypre_ParCSRCommHandleCreate with job 12 (int) or 2 (double), followed by
    hypre_ParCSRCommHandleDestroy, sends the i-th segment of the receive side of a communication
    package to the i-th receive process and fills the i-th segment of the send side from the i-th
    send process.  The model is a function of the data of all ranks; a message that was not sent,
    or has another length than expected, is undefined. *)

From Coq Require Import ZArith List Bool.
From Verif Require Import Base Scalar Spec Dense Sparse SparseMore Par HypreOps.
Import ListNotations.
Open Scope Z_scope.

(** The members of hypre_ParCSRCommPkg that Transpose reads (hypre_ops.cpp:964-970): send_procs,
    send_map_starts, send_map_elmts, recv_procs, recv_vec_starts *)
Record commpkg := Pkg { k_sp : list Z; k_ss : list Z; k_se : list Z; k_rp : list Z; k_rs : list Z }.

Fixpoint index_of (l : list Z) (x i : Z) : res Z :=
  match l with [] => Fail FUB | y :: l => if y =? x then Ok i else index_of l x (i + 1) end.

(** The elements lo .. hi-1 of a buffer *)
Definition slice {V} (l : list V) (lo hi : Z) : res (list V) :=
  foldM (fun acc i => x <- get l i ;; Ok (acc ++ [x])) (zrange lo hi) [].

(** What rank q sends to rank r; [rp], [rs] and [bufs] hold the receive processes, the starts of
    the segments and the buffer of every rank. *)
Definition message {V} (rp rs : list (list Z)) (bufs : list (list V)) (q r : Z) : res (list V) :=
  procs <- get rp q ;; i <- index_of procs r 0 ;;
  st <- get rs q ;; lo <- get st i ;; hi <- get st (i + 1) ;;
  b <- get bufs q ;; slice b lo hi.

(** What rank r receives: the buffer is allocated with hypre_CTAlloc (hypre_ops.cpp:972, 1028,
    1035) and filled segment by segment. *)
Definition receive {V} (d : V) (rp rs : list (list Z)) (bufs : list (list V)) (sp ss : list Z) (r : Z) : res (list V) :=
  n <- get ss (zlen sp) ;; buf <- vec n d ;;
  for_ 0 (zlen sp) buf (fun i buf =>
    q <- get sp i ;; m <- message rp rs bufs q r ;;
    lo <- get ss i ;; hi <- get ss (i + 1) ;;
    if zlen m =? hi - lo
    then for_ 0 (zlen m) buf (fun k buf => x <- get m k ;; set buf (lo + k) x)
    else Fail FUB).

Section HypreTranspose.
Context {S : scalar}.
Notation T := (car S).
Notation csr := (csr S).
Notation parmat := (parmat S).

(** hypre_ops.cpp:958-962, 974-982: the transposed offd block with global column numbers and the
    sizes of its rows (AT_tmp_i, AT_tmp_j, AT_tmp_data) *)
Definition outgoing (A : parmat) : res (list Z * list Z * list T) :=
  M <- sp_transpose (pm_offd A) ;;
  first <- get (pm_rs A) 0 ;;
  let cols := c_cols (pm_offd A) in
  n <- get (c_ptr M) cols ;;
  tj <- for_ 0 n (c_idx M) (fun i tj => x <- get tj i ;; set tj i (x + first)) ;;
  ti <- for_ 0 cols (c_ptr M) (fun i ti => b <- get ti (i + 1) ;; a <- get ti i ;; set ti i (b - a)) ;;
  Ok (ti, tj, c_val M).

(** hypre_ops.cpp:951, 988-1006: the starts of the messages to receive (tmp_send_map_starts) and
    the starts of the rows (AT_offd_i); [bi] is AT_buf_i *)
Definition row_starts (cols : Z) (k : commpkg) (bi : list Z) : res (list Z * list Z) :=
  oi <- vec (cols + 1) 0 ;;
  let ns := zlen (k_sp k) in
  tss <- vec (ns + 1) 0 ;;
  s <- get (k_ss k) 0 ;; tss <- set tss 0 s ;;
  ' (tss, oi) <- for_ 0 ns (tss, oi) (fun i st =>
    let '(tss, oi) := st in
    x <- get tss i ;; tss <- set tss (i + 1) x ;;
    lo <- get (k_ss k) i ;; hi <- get (k_ss k) (i + 1) ;;
    for_ lo hi (tss, oi) (fun j st =>
      let '(tss, oi) := st in
      b <- get bi j ;;
      x <- get tss (i + 1) ;; tss <- set tss (i + 1) (x + b) ;;
      e <- get (k_se k) j ;; y <- get oi (e + 1) ;; oi <- set oi (e + 1) (y + b) ;;
      Ok (tss, oi))) ;;
  oi <- for_ 0 cols oi (fun i oi => a <- get oi (i + 1) ;; b <- get oi i ;; set oi (i + 1) (a + b)) ;;
  Ok (tss, oi).

(** hypre_ops.cpp:1008-1018: the starts of the messages to send (tmp_recv_vec_starts) *)
Definition message_starts (k : commpkg) (ti : list Z) : res (list Z) :=
  let nr := zlen (k_rp k) in
  trs <- vec (nr + 1) 0 ;;
  s <- get (k_rs k) 0 ;; trs <- set trs 0 s ;;
  for_ 0 nr trs (fun i trs =>
    x <- get trs i ;; trs <- set trs (i + 1) x ;;
    lo <- get (k_rs k) i ;; hi <- get (k_rs k) (i + 1) ;;
    for_ lo hi trs (fun j trs =>
      t <- get ti j ;; x <- get trs (i + 1) ;; set trs (i + 1) (x + t))).

(** hypre_ops.cpp:1047-1082: places the entries in their rows.  hypre_ops.cpp:1047-1051 resizes
    only when there are entries; the vectors were empty before. *)
Definition place (cols : Z) (k : commpkg) (bi bj : list Z) (bd : list T) (oi : list Z) : res (list Z * list Z * list T * Z) :=
  n <- get oi cols ;;
  oj <- vec n 0 ;; od <- vec n s0 ;;
  ' (oi, oj, od, cnt) <- for_ 0 (zlen (k_sp k)) (oi, oj, od, 0) (fun i st =>
    lo <- get (k_ss k) i ;; hi <- get (k_ss k) (i + 1) ;;
    for_ lo hi st (fun j st =>
      let '(oi, oj, od, cnt) := st in
      e <- get (k_se k) j ;; p <- get oi e ;; b <- get bi j ;;
      ' (oj, od, p, cnt) <- for_ 0 b (oj, od, p, cnt) (fun _ st =>
        let '(oj, od, p, cnt) := st in
        v <- get bd cnt ;; od <- set od p v ;;
        c <- get bj cnt ;; oj <- set oj p c ;;
        Ok (oj, od, p + 1, cnt + 1)) ;;
      oi <- set oi e p ;;
      Ok (oi, oj, od, cnt))) ;;
  oi <- for_down cols 0 oi (fun i oi => a <- get oi (i - 1) ;; set oi i a) ;;
  oi <- set oi 0 0 ;;
  Ok (oi, oj, od, cnt).

(** hypre_ops.cpp:1084-1107: col_map_offd_AT; qsort0(v, 0, n - 1) sorts the first n elements *)
Definition sorted_columns (srt : sorter) (bj : list Z) (cnt : Z) : res (list Z) :=
  ' (bj, k) <- (if negb (cnt =? 0) then
    bj <- sort_range srt Z.ltb bj 0 (cnt - 1 + 1) ;;
    v <- get bj 0 ;;
    ' (bj, k, _) <- for_ 1 cnt (bj, 1, v) (fun i st =>
      let '(bj, k, v) := st in
      x <- get bj i ;;
      if v <? x then bj <- set bj k x ;; Ok (bj, k + 1, x) else Ok st) ;;
    Ok (bj, k)
   else Ok (bj, 0)) ;;
  cm <- vec k 0 ;;
  for_ 0 k cm (fun i cm => x <- get bj i ;; set cm i x).

(** hypre_ops.cpp:1117-1119 *)
Definition renumber_columns (bsearch : list Z -> Z -> Z -> Z) (cm oj : list Z) (cnt : Z) : res (list Z) :=
  for_ 0 cnt oj (fun i oj => x <- get oj i ;; set oj i (bsearch cm x (zlen cm))).

(** hypre_ops.cpp:1123-1165: the result from the offd block; HYPRE_NO_GLOBAL_PARTITION is taken to
    be defined *)
Definition transposed (reorder : csr -> csr) (A : parmat) (oi oj : list Z) (od : list T) (cm : list Z) : res parmat :=
  r0 <- get (pm_cs A) 0 ;; r1 <- get (pm_cs A) 1 ;; c0 <- get (pm_rs A) 0 ;; c1 <- get (pm_rs A) 1 ;;
  D <- sp_transpose (pm_diag A) ;;
  O <- sp_make oi oj od (c_cols (pm_diag A)) (zlen cm) ;;
  pm_make reorder [r0; r1; pm_gcols A] [c0; c1; pm_grows A] D O cm.

(** hypre_ops.cpp:893-1166  ParMatrix::Transpose on all ranks; [ks] holds the communication package
    that hypre built for each rank. *)
Definition par_transpose (srt : sorter) (bsearch : list Z -> Z -> Z -> Z) (reorder : csr -> csr) (ks : list commpkg) (As : list parmat) : res (list parmat) :=
  let p := zlen As in
  if 1 <? p then
    out <- ranks p (fun r => A <- get As r ;; outgoing A) ;;
    let ti := map (fun x => fst (fst x)) out in let tj := map (fun x => snd (fst x)) out in let td := map snd out in
    let rp := map k_rp ks in
    bi <- ranks p (fun r => k <- get ks r ;; receive 0 rp (map k_rs ks) ti (k_sp k) (k_ss k) r) ;;
    st <- ranks p (fun r => A <- get As r ;; k <- get ks r ;; b <- get bi r ;; row_starts (c_cols (pm_diag A)) k b) ;;
    rs <- ranks p (fun r => k <- get ks r ;; t <- get ti r ;; message_starts k t) ;;
    bj <- ranks p (fun r => k <- get ks r ;; s <- get st r ;; receive 0 rp rs tj (k_sp k) (fst s) r) ;;
    bd <- ranks p (fun r => k <- get ks r ;; s <- get st r ;; receive s0 rp rs td (k_sp k) (fst s) r) ;;
    ranks p (fun r =>
      A <- get As r ;; k <- get ks r ;; s <- get st r ;; b <- get bi r ;; j <- get bj r ;; d <- get bd r ;;
      ' (oi, oj, od, cnt) <- place (c_cols (pm_diag A)) k b j d (snd s) ;;
      cm <- sorted_columns srt j cnt ;;
      oj <- renumber_columns bsearch cm oj cnt ;;
      transposed reorder A oi oj od cm)
  else
    ranks p (fun r => A <- get As r ;; oi <- vec (c_cols (pm_diag A) + 1) 0 ;; transposed reorder A oi [] [] []).

(** hypre_ops.cpp:297-891 on all ranks: ParMatrix::Mult with n r threads on rank r; [extract] stands
    for hypre_ParCSRMatrixExtractBExt. *)
Definition par_product (n : Z -> Z) (sched : Z -> Z -> list Z) (srt : sorter) (bsearch : list Z -> Z -> Z -> Z) (reorder : csr -> csr)
    (extract : list parmat -> list parmat -> list (option csr)) (As Bs : list parmat) : res (list parmat) :=
  ranks (zlen As) (fun r => A <- get As r ;; B <- get Bs r ;; ext <- get (extract As Bs) r ;; par_mult (n r) (sched r) srt bsearch reorder ext A B).

(** parutilities.cpp:197-203  RAP(R, A, P); the two products may run with different schedules. *)
Definition rap (n : Z -> Z) (sched1 sched2 : Z -> Z -> list Z) (srt : sorter) (bsearch : list Z -> Z -> Z -> Z) (reorder : csr -> csr)
    (extract : list parmat -> list parmat -> list (option csr)) (ks : list commpkg) (Rs As Ps : list parmat) : res (list parmat) :=
  Ts <- par_transpose srt bsearch reorder ks Rs ;;
  AP <- par_product n sched1 srt bsearch reorder extract As Ps ;;
  par_product n sched2 srt bsearch reorder extract Ts AP.

(** parutilities.cpp:205-208  RAP(A, P) *)
Definition rap2 n sched1 sched2 srt bsearch reorder extract ks (As Ps : list parmat) : res (list parmat) :=
  rap n sched1 sched2 srt bsearch reorder extract ks Ps As Ps.

End HypreTranspose.
