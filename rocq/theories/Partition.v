(** Model of modules/partition/include/partition.hpp: the graph handed to Metis and the
    relabelling of its answer.

    idx_t is int (the code only compiles for that choice: [RemoveEmpty] takes vector<int>&).
    The conversion of a weight to idx_t is any function; Metis is any function from the call's
    arguments to the contents of the array [part]. *)

From Coq Require Import ZArith List Bool.
From Verif Require Import Base Scalar Spec Sparse.
Import ListNotations.
Open Scope Z_scope.

(** partition.hpp:50-83  RemoveEmpty *)
Definition remove_empty (part : list Z) : res (list Z) :=
  assert_ (0 <? zlen part) ;;;
  m <- max_elem part ;;
  let num_parts := m + 1 in
  counter <- vec num_parts 0 ;;
  shifter <- vec num_parts 0 ;;
  counter <- foldM (fun c i => x <- get c i ;; set c i (x + 1)) part counter ;;
  '(shift, shifter) <- for_ 0 num_parts (0, shifter) (fun i st =>
      let '(shift, shifter) := st in
      c <- get counter i ;;
      let shift := if c =? 0 then shift + 1 else shift in
      shifter <- set shifter i shift ;;
      Ok (shift, shifter)) ;;
  for_ 0 (zlen part) part (fun i part =>
      p <- get part i ;; s <- get shifter p ;; set part i (p - s)).

Section Partition.
Context {S : scalar}.
Notation T := (car S).
Notation csr := (csr S).

(** partition.hpp:14-48  MakeAdjacencyInfo(mat, weighted).  [to_idx] is the conversion of a
    value to idx_t.  reserve of a negative number (converted to size_t) throws length_error. *)
Definition make_adjacency (to_idx : T -> Z) (A : csr) (weighted : bool) : res (list Z * list Z * list Z) :=
  assert_ (c_cols A =? c_rows A) ;;;
  let num_edges := Z.quot (sp_nnz A - c_rows A) 2 in
  ip <- vec (c_rows A + 1) 0 ;;
  (if num_edges <? 0 then Fail FThrow else Ok tt) ;;;
  ip <- set ip 0 0 ;;
  for_ 0 (c_rows A) (ip, [], []) (fun i st =>
      lo <- get (c_ptr A) i ;; hi <- get (c_ptr A) (i + 1) ;;
      '(ip, ix, d) <- for_ lo hi st (fun j st =>
          let '(ip, ix, d) := st in
          col <- get (c_idx A) j ;;
          if negb (col =? i) then
            w <- (if weighted then v <- get (c_val A) j ;; Ok (sabs v) else Ok s1) ;;
            Ok (ip, ix ++ [col], d ++ [to_idx w])
          else Ok (ip, ix, d)) ;;
      ip <- set ip (i + 1) (zlen ix) ;;
      Ok (ip, ix, d)).

(** The arguments of METIS_PartGraphKway that matter: number of vertices, xadj, adjncy, adjwgt,
    number of parts, ubvec, the contiguity option. *)
Definition metis : Type := Z -> list Z -> list Z -> list Z -> Z -> T -> bool -> list Z.

(** partition.hpp:106-152  Partition.  The status Metis returns is ignored by the code. *)
Definition partition (to_idx : T -> Z) (call : metis) (A : csr) (num_parts : Z) (unbalance : T)
    (contig weighted : bool) : res (list Z) :=
  assert_ (0 <? num_parts) ;;;
  assert_ (num_parts <=? c_rows A) ;;;
  assert_ (c_cols A =? c_rows A) ;;;
  if num_parts <? 2 then vec (c_rows A) 0
  else
    '(xadj, adjncy, adjwgt) <- make_adjacency to_idx A weighted ;;
    remove_empty (call (c_rows A) xadj adjncy adjwgt num_parts unbalance contig).

End Partition.
