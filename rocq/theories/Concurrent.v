(** Calls of members by several threads of the user's program at the same time.  The objects lie in the
    shared memory of Threads.v; a call is a program that reads and writes single cells. *)

From Coq Require Import ZArith List Bool.
From Verif Require Import Base Scalar Spec Sparse Threads.
Import ListNotations.
Open Scope Z_scope.

Section Concurrent.
Context {S : scalar}.
Notation T := (car S).

(** A cell of memory: an int or a number. *)
Inductive cell : Type := CI (z : Z) | CV (v : T).

Notation prog := (prog cell).

Definition rd_int (x i : Z) : prog Z := Rd x i (fun c => match c with CI z => Ret z | CV _ => Err FUB end).
Definition rd_val (x i : Z) : prog T := Rd x i (fun c => match c with CV v => Ret v | CI _ => Err FUB end).

(** A SparseMatrix in memory (sparsematrix.hpp:438-441, operator.hpp): its sizes, which no member below
    changes, and the arrays behind indptr_, indices_ and data_. *)
Record smat : Type := SMat { s_rows : Z; s_cols : Z; s_nnz : Z; s_ptr : Z; s_idx : Z; s_val : Z }.

(** sparsematrix.hpp:1034-1052  Mult(input, output) const; nx and ny are the sizes of the views.  As in the
    rest of the model the loop bound indptr_[i + 1] is read once per row. *)
Definition t_mult (M : smat) (X nx Y ny : Z) : prog unit :=
  lift (assert_ (nx =? s_cols M)) ~;;
  lift (assert_ (ny =? s_rows M)) ~;;
  pfor 0 (s_rows M) tt (fun i _ =>
    lo <~ rd_int (s_ptr M) i ;; hi <~ rd_int (s_ptr M) (i + 1) ;;
    v <~ pfor lo hi s0 (fun j v =>
           a <~ rd_val (s_val M) j ;; c <~ rd_int (s_idx M) j ;; xc <~ rd_val X c ;;
           Ret (sadd v (smul a xc))) ;;
    wr Y i (CV v)).

(** sparsematrix.hpp:1054-1070  MultAT(input, output) const *)
Definition t_multAT (M : smat) (X nx Y ny : Z) : prog unit :=
  lift (assert_ (nx =? s_rows M)) ~;;
  lift (assert_ (ny =? s_cols M)) ~;;
  pfor 0 ny tt (fun i _ => wr Y i (CV s0)) ~;;
  pfor 0 (s_rows M) tt (fun i _ =>
    lo <~ rd_int (s_ptr M) i ;; hi <~ rd_int (s_ptr M) (i + 1) ;;
    pfor lo hi tt (fun j _ =>
      c <~ rd_int (s_idx M) j ;; a <~ rd_val (s_val M) j ;; xi <~ rd_val X i ;;
      o <~ rd_val Y c ;; wr Y c (CV (sadd o (smul a xi))))).

(** sparsematrix.hpp:1170-1180  operator*=(U val) *)
Definition t_scale (M : smat) (v : T) : prog unit :=
  pfor 0 (s_nnz M) tt (fun j _ => a <~ rd_val (s_val M) j ;; wr (s_val M) j (CV (smul a v))).

Definition rd_ints (x n : Z) : prog (list Z) := pfor 0 n [] (fun i l => z <~ rd_int x i ;; Ret (l ++ [z])).
Definition rd_vals (x n : Z) : prog (list T) := pfor 0 n [] (fun i l => z <~ rd_val x i ;; Ret (l ++ [z])).

(** A const member of SparseMatrix that returns a new object (Transpose, ToDense, Mult of two sparse matrices, GetSubMatrix, ...): it reads the
    objects and computes in storage no other thread knows.  Simplified: every array is read once, before the computation. *)
Definition t_load (M : smat) : prog (csr S) :=
  p <~ rd_ints (s_ptr M) (s_rows M + 1) ;; i <~ rd_ints (s_idx M) (s_nnz M) ;; v <~ rd_vals (s_val M) (s_nnz M) ;;
  Ret (CSR (s_rows M) (s_cols M) p i v).
Definition t_new {R} (Ms : list smat) (f : list (csr S) -> res R) : prog R :=
  As <~ pfold (fun l M => A <~ t_load M ;; Ret (l ++ [A])) Ms [] ;; lift (f As).

Inductive call (R : Type) : Type :=
| CMult (M : smat) (X nx Y ny : Z)
| CMultAT (M : smat) (X nx Y ny : Z)
| CScale (M : smat) (v : T)
| CNew (Ms : list smat) (f : list (csr S) -> res R).

Definition t_call {R} (c : call R) : prog (option R) :=
  match c with
  | CMult _ M X nx Y ny => t_mult M X nx Y ny ~;; Ret None
  | CMultAT _ M X nx Y ny => t_multAT M X nx Y ny ~;; Ret None
  | CScale _ M v => t_scale M v ~;; Ret None
  | CNew _ Ms f => r <~ t_new Ms f ;; Ret (Some r)
  end.

(** Members that are const and still write members of the object.  [k] is the rest of the function, whatever it does. *)

(** solvers.cpp:145-152  PCGSolver::Mult: A_->Mult(x, Ap_) with the member Ap_, for a SparseMatrix A_ *)
Definition t_pcg {R} (M : smat) (X Ap : Z) (k : prog R) : prog R := t_mult M X (s_cols M) Ap (s_rows M) ~;; k.

(** solvers.cpp:283-291, 429-439  MINRESSolver::Mult, PMINRESSolver::Mult: w0_ = 0.0 *)
Definition t_minres {R} (W n : Z) (k : prog R) : prog R := pfor 0 n tt (fun i _ => wr W i (CV s0)) ~;; k.

(** blockoperator.cpp:86-91  BlockOperator::Mult: x_ = input (the sizes agree: x_ is not reallocated) *)
Definition t_blockop {R} (X x_ n : Z) (k : prog R) : prog R :=
  pfor 0 n tt (fun i _ => v <~ rd_val X i ;; wr x_ i (CV v)) ~;; k.

(** lilmatrix.hpp:354-370  LilMatrix::ToSparse: row.sort() on the mutable lists.  A row is an array of pairs
    (column at 2 i, value at 2 i + 1); of what the sort does only the writes of places whose content changes are
    modelled: those every sort makes. *)
Definition t_lil_row {R} (L n : Z) (sort : list (Z * T) -> list (Z * T)) (k : prog R) : prog R :=
  row <~ pfor 0 n [] (fun i l => c <~ rd_int L (2 * i) ;; v <~ rd_val L (2 * i + 1) ;; Ret (l ++ [(c, v)])) ;;
  pfor 0 n tt (fun i _ =>
    '(c, v) <~ lift (get row i) ;; '(c', v') <~ lift (get (sort row) i) ;;
    (if c =? c' then Ret tt else wr L (2 * i) (CI c')) ~;;
    (if seqb v v' then Ret tt else wr L (2 * i + 1) (CV v'))) ~;;
  k.

End Concurrent.

Arguments cell S : clear implicits.
Arguments call S R : clear implicits.
Arguments CMult {S R}. Arguments CMultAT {S R}. Arguments CScale {S R}. Arguments CNew {S R}.
