(** Model of modules/sparsesolver (SparseSolver over UMFPACK) and of the checks of
    include/utilities.hpp.

    UMFPACK is a pair of functions: whether the factorisation of compressed columns succeeds
    (status 0) and what a solve returns ([None]: a status other than 0).  Factorisations live in
    a heap; a solver object holds a pointer to one.  control_ and info_ are not modelled. *)

From Coq Require Import ZArith List Bool.
From Verif Require Import Base Scalar Spec Sparse.
Import ListNotations.
Open Scope Z_scope.

(* ---------------------------------------------------------------- utilities.hpp *)

(** utilities.hpp:9-19  linalgcpp_assert; [ndebug] says whether NDEBUG is defined *)
Definition checked_assert (ndebug b : bool) : res unit :=
  if ndebug then (if negb b then Fail FThrow else Ok tt) else Ok tt.

(** utilities.hpp:21-29  linalgcpp_verify *)
Definition checked_verify (ndebug b : bool) : res unit :=
  if negb b then Fail FThrow else Ok tt.

(* ---------------------------------------------------------------- sparsesolve.cpp *)

Section SparseSolve.
Context {S : scalar}.
Notation T := (car S).
Notation csr := (csr S).

(** sys argument of umfpack_di_solve *)
Inductive system : Type := UMF_A | UMF_At.

(** The compressed arrays are passed as a [csr]; UMFPACK reads them as columns. *)
Record umfpack : Type := Umfpack {
  umf_factor : csr -> bool;
  umf_solve : system -> csr -> list T -> option (list T)
}.

(** The pointer numeric_. *)
Inductive handle : Type := Null | Live (id : Z) | Garbage.

(** sparsesolve.hpp:35-39 *)
Record solver : Type := Solver { ss_A : csr; ss_num : handle }.

(** Factorisations made so far; [None] once freed. *)
Definition heap : Type := list (option csr).

(** sparsesolve.cpp:51-76  Init() *)
Definition ss_init (U : umfpack) (A : csr) (h : heap) : res (handle * heap) :=
  assert_ (negb (sp_nnz A =? 0)) ;;;
  assert_ (umf_factor U A) ;;;
  Ok (Live (zlen h), h ++ [Some A]).

(** sparsesolve.hpp:12  SparseSolver() *)
Definition ss_default : solver := Solver sp_empty Null.

(** sparsesolve.cpp:5-18  SparseSolver(A) *)
Definition ss_make (srt : sorter) (U : umfpack) (A : csr) (h : heap) : res (solver * heap) :=
  assert_ (c_rows A =? c_cols A) ;;;
  if 0 <? sp_nnz A then
    A <- sp_sort srt A ;;
    '(n, h) <- ss_init U A h ;; Ok (Solver A n, h)
  else Ok (Solver A Null, h).

(** sparsesolve.cpp:20-27  copy constructor; numeric_ is not initialised *)
Definition ss_copy (U : umfpack) (s : solver) (h : heap) : res (solver * heap) :=
  if 0 <? sp_nnz (ss_A s) then
    '(n, h) <- ss_init U (ss_A s) h ;; Ok (Solver (ss_A s) n, h)
  else Ok (Solver (ss_A s) Garbage, h).

(** sparsesolve.cpp:29-32, 41-49  move constructor: the new object, whose numeric_ is not
    initialised, is swapped with the source.  Result: (new, moved-from). *)
Definition ss_move (s : solver) : solver * solver := (s, Solver sp_empty Garbage).

(** sparsesolve.cpp:78-85  destructor: freeing a pointer that is not a live factorisation is
    undefined *)
Definition ss_destroy (s : solver) (h : heap) : res heap :=
  match ss_num s with
  | Null => Ok h
  | Garbage => Fail FUB
  | Live id => f <- get h id ;; match f with Some _ => set h id None | None => Fail FUB end
  end.

(** sparsesolve.cpp:87-112, 114-139  Mult and MultAT *)
Definition ss_apply (U : umfpack) (sys : system) (in_size out_size : csr -> Z) (s : solver) (h : heap)
    (x out : list T) : res (list T) :=
  assert_ (zlen x =? in_size (ss_A s)) ;;;
  assert_ (zlen out =? out_size (ss_A s)) ;;;
  match ss_num s with
  | Garbage => Fail FUB
  | Null => Ok (map (fun _ => s0) out)
  | Live id =>
      f <- get h id ;;
      match f with
      | None => Fail FUB
      | Some F => match umf_solve U sys F x with Some y => Ok y | None => Fail FAssert end
      end
  end.

Definition ss_mult (U : umfpack) := ss_apply U UMF_At c_cols c_rows.
Definition ss_multAT (U : umfpack) := ss_apply U UMF_A c_rows c_cols.

(* ---------------------------------------------------------------- histories of objects *)

Inductive sop : Type :=
| SNew (A : csr)                 (* SparseSolver s(A) *)
| SDefault                       (* SparseSolver s *)
| SCopy (i : Z)                  (* SparseSolver s(o_i) *)
| SMove (i : Z)                  (* SparseSolver s(std::move(o_i)) *)
| SAssign (i j : Z)              (* o_i = o_j *)
| SMoveAssign (i j : Z)          (* o_i = std::move(o_j) *)
| SSwap (i j : Z)                (* swap(o_i, o_j) *)
| SDestroy (i : Z).              (* end of the life of o_i *)

(** The objects ever made, [None] once destroyed; and the heap. *)
Definition sstate : Type := list (option solver) * heap.

Definition obj (os : list (option solver)) (i : Z) : res solver :=
  o <- get os i ;; match o with Some s => Ok s | None => Fail FUB end.

(** sparsesolve.cpp:34-39: the parameter of operator= is a copy or a moved object, is swapped
    with the target and destroyed at the end of the call. *)
Definition sstep (srt : sorter) (U : umfpack) (st : sstate) (op : sop) : res sstate :=
  let '(os, h) := st in
  match op with
  | SNew A => '(s, h) <- ss_make srt U A h ;; Ok (os ++ [Some s], h)
  | SDefault => Ok (os ++ [Some ss_default], h)
  | SCopy i => s <- obj os i ;; '(c, h) <- ss_copy U s h ;; Ok (os ++ [Some c], h)
  | SMove i => s <- obj os i ;; let '(a, b) := ss_move s in os <- set os i (Some b) ;; Ok (os ++ [Some a], h)
  | SAssign i j =>
      t <- obj os i ;; s <- obj os j ;;
      '(c, h) <- ss_copy U s h ;;
      os <- set os i (Some c) ;; h <- ss_destroy t h ;; Ok (os, h)
  | SMoveAssign i j =>
      s <- obj os j ;; let '(a, b) := ss_move s in
      os <- set os j (Some b) ;;
      t <- obj os i ;; os <- set os i (Some a) ;; h <- ss_destroy t h ;; Ok (os, h)
  | SSwap i j => a <- obj os i ;; b <- obj os j ;; os <- set os i (Some b) ;; os <- set os j (Some a) ;; Ok (os, h)
  | SDestroy i => s <- obj os i ;; h <- ss_destroy s h ;; os <- set os i None ;; Ok (os, h)
  end.

Definition srun (srt : sorter) (U : umfpack) (ops : list sop) : res sstate := foldM (sstep srt U) ops ([], []).

End SparseSolve.
