(** The arithmetic on int, with overflow, of the parallel module: offsets over the ranks and the
    rows of a thread. *)

From Coq Require Import ZArith List Bool.
From Verif Require Import Base Scalar Spec Dense Sparse Coo Par HypreOps I32.
Import ListNotations.
Open Scope Z_scope.

(** parutilities.cpp:115-155  GenerateOffsets(comm, local_size) for one size per rank.  MPI_Scan
    with MPI_INT and MPI_SUM adds ints in the order of the ranks. *)
Definition generate_offsets1_i (sizes : list Z) : res (list (list Z)) :=
  scan <- partial_sum_i 0 sizes ;;
  total <- get scan (zlen sizes - 1) ;;
  ranks (zlen sizes) (fun r =>
    s <- get scan r ;; l <- get sizes r ;; first <- i32 (s - l) ;; Ok [first; s; total]).

(** hypre_ops.cpp:88-108, 435-448, 681-693 *)
Definition thread_range_i (rows n ii : Z) : res (Z * Z) :=
  let size := Z.quot rows n in
  p <- i32 (size * n) ;; rest <- i32 (rows - p) ;;
  if ii <? rest then
    a <- i32 (ii * size) ;; ns <- i32 (a + ii) ;;
    b <- i32 (ii + 1) ;; c <- i32 (b * size) ;; d <- i32 (c + ii) ;; ne <- i32 (d + 1) ;;
    Ok (ns, ne)
  else
    a <- i32 (ii * size) ;; ns <- i32 (a + rest) ;;
    b <- i32 (ii + 1) ;; c <- i32 (b * size) ;; ne <- i32 (c + rest) ;;
    Ok (ns, ne).
