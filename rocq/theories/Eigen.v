(** Model of src/eigensolver.cpp and include/eigensolver.hpp.

    The LAPACK routines are arbitrary functions of what they are documented to read; every call
    is guarded by the documented minimal lengths of its arrays (a shorter array is an access
    outside of it, [FUB]).  The status codes are not modelled: the code ignores them. *)

From Coq Require Import ZArith List Bool.
From Verif Require Import Base Scalar Spec Dense Sparse.
Import ListNotations.
Open Scope Z_scope.

Section Eigen.
Context {S : scalar}.
Notation T := (car S).
Notation dense := (dense S).
Notation csr := (csr S).

(** eigensolver.cpp:3-26.  Outputs are given elementwise. *)
Record lapack : Type := Lapack {
  la_trd_work : Z -> Z;                                  (* dsytrd_, lwork = -1 *)
  la_mtr_work : Z -> Z;                                  (* dormtr_, lwork = -1 *)
  la_trd_a : Z -> list T -> Z -> T;                      (* dsytrd_: n, a; the new a *)
  la_trd_d : Z -> list T -> Z -> T;
  la_trd_e : Z -> list T -> Z -> T;
  la_trd_tau : Z -> list T -> Z -> T;
  la_sterf : Z -> list T -> list T -> Z -> T;            (* dsterf_: n, d, e; the eigenvalues *)
  la_sterf_e : Z -> list T -> list T -> Z -> T;          (* what dsterf_ leaves in e *)
  la_stein : Z -> list T -> list T -> Z -> list T -> list Z -> list Z -> Z -> T;
                                                         (* dstein_: n, d, e, m, w, iblock, isplit *)
  la_mtr : Z -> Z -> list T -> list T -> list T -> Z -> T  (* dormtr_: m, n, a, tau, c *)
}.

(** eigensolver.hpp:85-107.  Of the scratch arrays only the length is kept. *)
Record esolver : Type := ESolver {
  es_alloc : Z;                  (* alloc_size_ *)
  es_lwork : Z;                  (* lwork_ *)
  es_A : list T;                 (* A_ *)
  es_work : Z;                   (* work_.size() *)
  es_iwork : Z;                  (* iwork_.size() *)
  es_d : list T;
  es_e : list T;
  es_tau : list T;
  es_iblock : list Z;
  es_isplit : list Z;
  es_ifail : Z                   (* ifail_.size() *)
}.

(** eigensolver.cpp:32-37 *)
Definition es_new : esolver := ESolver (-1) (-1) [] 0 0 [] [] [] [] [] 0.

(** The first n elements of an array a routine reads. *)
Definition reads {A : Type} (n : Z) (l : list A) : res (list A) :=
  if n <=? zlen l then Ok (firstn (Z.to_nat n) l) else Fail FUB.

(** A routine that overwrites the first n elements. *)
Definition writes {A : Type} (n : Z) (f : Z -> A) (l : list A) : res (list A) :=
  if n <=? zlen l then Ok (map f (zrange 0 n) ++ skipn (Z.to_nat n) l) else Fail FUB.

(** A scratch array of at least n elements. *)
Definition scratch (n size : Z) : res unit := if n <=? size then Ok tt else Fail FUB.

(** eigensolver.cpp:136-169  AllocateWorkspace(size); the two workspace queries touch no array *)
Definition allocate (L : lapack) (s : esolver) (size : Z) : esolver :=
  let lwork := Z.max (Z.max (5 * size) (la_trd_work L size)) (la_mtr_work L size) in
  ESolver size lwork (resize (es_A s) (size * size) s0) lwork size
    (resize (es_d s) size s0) (resize (es_e s) size s0) (resize (es_tau s) size s0)
    (resize (es_iblock s) size 1) (resize (es_isplit s) size 0) (es_ifail s).

(** a <= b on values: false when one of them is NaN *)
Definition leq (a b : T) : bool := slt a b || seqb a b.

(** eigensolver.cpp:104-109  while (m < max_evect && evals[m] <= tol) ++m; *)
Fixpoint select (fuel : nat) (evals : list T) (tol : T) (max m : Z) : res Z :=
  match fuel with
  | O => Ok m
  | Datatypes.S fuel =>
      if m <? max
      then v <- get evals m ;; if leq v tol then select fuel evals tol max (m + 1) else Ok m
      else Ok m
  end.

(** eigensolver.cpp:58-134  Solve(mat, rel_tol, max_evect, eigen_pair).  [D] need not be square:
    the routines are told that it is n x n. *)
Definition solve (L : lapack) (s : esolver) (D : dense) (rel_tol : T) (max_evect : Z)
    (pair : list T * dense) : res (esolver * (list T * dense)) :=
  let n := d_rows D in
  if n <? 1 then
    evects <- d_set_size (snd pair) 0 0 ;;
    Ok (s, (resize (fst pair) n s0, evects))
  else
    let s := if es_alloc s <? n then allocate L s n else s in
    let evals := resize (fst pair) n s0 in
    (* mat.CopyData(A_) *)
    let A := d_data D in
    (* dsytrd_ *)
    a <- reads (n * n) A ;;
    assert_ (1 <=? es_lwork s) ;;; scratch (es_lwork s) (es_work s) ;;;
    A <- writes (n * n) (la_trd_a L n a) A ;;
    d_ <- writes n (la_trd_d L n a) (es_d s) ;;
    e_ <- writes (n - 1) (la_trd_e L n a) (es_e s) ;;
    tau_ <- writes (n - 1) (la_trd_tau L n a) (es_tau s) ;;
    (* std::copy_n; auto e_copy = e_; dsterf_ *)
    dn <- reads n d_ ;;
    evals <- writes n (zn s0 dn) evals ;;
    dv <- reads n evals ;; ev <- reads (n - 1) e_ ;;
    evals <- writes n (la_sterf L n dv ev) evals ;;
    (* const double tol = evals.back() * rel_tol; *)
    top <- (if zlen evals =? 0 then Fail FUB else get evals (zlen evals - 1)) ;;
    let tol := (top * rel_tol)%S in
    let max := if max_evect <? 0 then n else max_evect in
    m <- select (Z.to_nat max) evals tol max 1 ;;
    let ifail := m in
    isplit <- set (es_isplit s) 0 n ;;
    evects <- d_set_size (snd pair) n m ;;
    (* dstein_ *)
    dn <- reads n d_ ;; en <- reads (n - 1) e_ ;; w <- reads n evals ;;
    ib <- reads n (es_iblock s) ;; isp <- reads n isplit ;;
    scratch (5 * n) (es_work s) ;;; scratch n (es_iwork s) ;;; scratch m ifail ;;;
    z <- writes (n * m) (la_stein L n dn en m w ib isp) (d_data evects) ;;
    (* dormtr_ *)
    an <- reads (n * n) A ;; taun <- reads (n - 1) tau_ ;; c <- reads (n * m) z ;;
    assert_ (Z.max 1 m <=? es_lwork s) ;;; scratch (es_lwork s) (es_work s) ;;;
    z <- writes (n * m) (la_mtr L n m an taun c) z ;;
    let s := ESolver (es_alloc s) (es_lwork s) A (es_work s) (es_iwork s) d_ e_ tau_ (es_iblock s) isplit ifail in
    Ok (s, (resize evals n s0, Dense (d_rows evects) (d_cols evects) z)).

(** eigensolver.cpp:44-50  Solve(mat, rel_tol, max_evect) *)
Definition solve_new (L : lapack) (s : esolver) (D : dense) (rel_tol : T) (max_evect : Z) :
    res (esolver * (list T * dense)) := solve L s D rel_tol max_evect ([], d_empty).

(** eigensolver.cpp:39-42, 52-56  the overloads for sparse matrices *)
Definition solve_sparse (L : lapack) (s : esolver) (A : csr) (rel_tol : T) (max_evect : Z)
    (pair : list T * dense) : res (esolver * (list T * dense)) :=
  D <- sp_to_dense A ;; solve L s D rel_tol max_evect pair.

(** A history of calls on one solver object: matrix, rel_tol, max_evect, pair passed in. *)
Definition solve_all (L : lapack) (calls : list (dense * T * Z * (list T * dense))) (s : esolver) : res esolver :=
  foldM (fun s c => let '(D, tol, mx, pr) := c in '(s, _) <- solve L s D tol mx pr ;; Ok s) calls s.

End Eigen.
