(** Model of LOBPCG (modules/parlinalgcpp/src/parsolvers.cpp:327-459) on all ranks.

    HYPRE_LOBPCGSolve is a program that asks for products with the operator and for applications of
    the preconditioner and ends with eigenvalues, vectors and a status; nothing else is known of it.
    Vectors are held by rank: one list for every rank. *)

From Coq Require Import ZArith List Bool.
From Verif Require Import Base Scalar Spec Dense Sparse Par ParMatvec.
Import ListNotations.
Open Scope Z_scope.

Section Lobpcg.
Context {S : scalar}.
Notation T := (car S).
Notation parmat := (parmat S).
Notation dvec := (list (list T)).

(** What HYPRE_LOBPCGSolve does next.  hypre_LOBPCGOperatorA calls Matvec with alpha = 1, beta = 0, so
    these are left out; hypre never passes the same vector as x and y. *)
Inductive solver : Type :=
| Finished (evals : list T) (vecs : list dvec) (status : Z)
| Matvec (x y : dvec) (next : dvec -> solver)
| Precond (b x : dvec) (next : dvec -> solver).

(** A ParOperator on all ranks: GetRowStarts(), Rows() and Mult(x, y) on views *)
Record parop : Type := ParOp { po_starts : list (list Z); po_rows : list Z; po_mult : dvec -> dvec -> res dvec }.

(** A ParMatrix as ParOperator *)
Definition mat_op (H : hypre S) (As : list parmat) : parop :=
  ParOp (map pm_rs As) (map (fun A => c_rows (pm_diag A)) As) (view_mult H As).

(** VectorView<double>(data, op->Rows()) on every rank: using elements behind the data is undefined *)
Definition views (P : parop) (x : dvec) : res dvec :=
  ranks (zlen x) (fun r => d <- get x r ;; n <- get (po_rows P) r ;;
    if n <=? zlen d then Ok (firstn (Z.to_nat n) d) else Fail FUB).

(** The output as hypre sees it afterwards: the viewed elements are replaced *)
Definition merged (z y : dvec) : res dvec :=
  ranks (zlen y) (fun r => d <- get z r ;; e <- get y r ;; Ok (d ++ skipn (length d) e)).

(** parsolvers.cpp:327-337  MySolve and 344-355  MyMatvec: both views have op->Rows() elements *)
Definition call (P : parop) (f : dvec -> dvec -> res dvec) (x y : dvec) : res dvec :=
  xv <- views P x ;; yv <- views P y ;; z <- f xv yv ;; merged z y.

(** HYPRE_LOBPCGSolve with MyMatvec and MySolve; without a preconditioner there is nothing to call. *)
Fixpoint solve (P : parop) (pre : option (dvec -> dvec -> res dvec)) (t : solver) : res (list T * list dvec) :=
  match t with
  | Finished e vs _ => Ok (e, vs)      (* parsolvers.cpp:431: the status is not looked at *)
  | Matvec x y k => z <- call P (po_mult P) x y ;; solve P pre (k z)
  | Precond b x k => match pre with Some m => z <- call P m b x ;; solve P pre (k z) | None => Fail FUB end
  end.

(** std::copy(src.begin(), src.end(), dst) *)
Definition copy_in (src dst : list T) : res (list T) :=
  for_ 0 (zlen src) dst (fun k d => v <- get src k ;; set d k v).

(** std::copy(src, src + dst.size(), dst.begin()) *)
Definition copy_out (src dst : list T) : res (list T) :=
  for_ 0 (zlen dst) dst (fun k d => v <- get src k ;; set d k v).

(** parsolvers.cpp:367-444  LOBPCG: xs i r is x[i] on rank r; mv_MultiVectorCreateFromSampleVector
    makes vectors of zeros with row_starts[1] - row_starts[0] elements (401); hl is HYPRE_LOBPCGSolve
    for the vectors it is handed *)
Definition lobpcg (hl : list dvec -> solver) (P : parop) (pre : option (dvec -> dvec -> res dvec)) (xs : list dvec) : res (list T * list dvec) :=
  let p := zlen (po_starts P) in
  mv <- ranks (zlen xs) (fun i => xi <- get xs i ;; ranks p (fun r => x <- get xi r ;; st <- get (po_starts P) r ;; a <- get st 0 ;; b <- get st 1 ;;
    d <- vec (b - a) s0 ;; copy_in x d)) ;;
  ev <- solve P pre (hl mv) ;;
  ys <- ranks (zlen xs) (fun i => xi <- get xs i ;; vi <- get (snd ev) i ;; ranks p (fun r => x <- get xi r ;; v <- get vi r ;; copy_out v x)) ;;
  Ok (fst ev, ys).

(** parsolvers.cpp:447-457  the overload without start vectors: Randomize fills vectors of Rows()
    elements, the vectors are dropped at the end; rnd i r k is the k-th number on rank r *)
Definition lobpcg_random (rnd : Z -> Z -> Z -> T) (hl : list dvec -> solver) (P : parop) (pre : option (dvec -> dvec -> res dvec)) (n : Z) : res (list T) :=
  xs <- ranks n (fun i => ranks (zlen (po_starts P)) (fun r => m <- get (po_rows P) r ;; d <- vec m s0 ;;
    for_ 0 m d (fun k d => set d k (rnd i r k)))) ;;
  ev <- lobpcg hl P pre xs ;; Ok (fst ev).

End Lobpcg.

Arguments solver S : clear implicits.
Arguments parop S : clear implicits.
