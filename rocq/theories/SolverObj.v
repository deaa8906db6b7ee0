(** Solver objects in a program: construction, copies, moves, assignments, swaps, the setters,
    SetOperator and Mult, while the operators they point to change or are destroyed.

    The members are those of Life.v; the computations are those of Solver.v.  Operators live at
    addresses, and an address whose operator was destroyed holds [None]: reading it is [FUB].  The
    functions that Dot_ may point to are the entries of a table.  An operator has no state of its
    own here (a [BlockOperator], whose buffers change, is left out). *)

From Coq Require Import ZArith List Bool.
From Verif Require Import Base Scalar Spec Block Solver Life.
Import ListNotations.
Open Scope Z_scope.

Section SolverObj.
Context {S : scalar}.
Notation T := (car S).
(** std::sqrt, the constant -1e12 of solvers.cpp:188, and the functions Dot_ may point to *)
Context (root : T -> T) (floor : T) (dots : list (dotp S)).

Definition memory_of_ops : Type := list (option (op S unit)).

(** *p for a pointer p to an operator *)
Definition deref (m : memory_of_ops) (p : Z) : res (op S unit) :=
  o <- get m p ;; match o with Some A => Ok A | None => Fail FUB end.

(** Dereferencing a pointer that may be null *)
Definition deref_opt (m : memory_of_ops) (p : option Z) : res (op S unit) :=
  match p with Some p => deref m p | None => Fail FUB end.

(** Calling Dot_ *)
Definition dot_at (d : option Z) : res (dotp S) :=
  match d with Some d => get dots d | None => Fail FUB end.

(** What the members of a Solver pass to Mult *)
Definition so_par (b : sobj S) : sparams S := SParams (so_max b) (so_rel b) (so_abs b) floor.

(** solvers.cpp:13-24  Solver(A, max_iter, rel_tol, abs_tol, verbose, Dot): operator.cpp:25-30 copies
    the size *)
Definition so_make (A : op S unit) (a max : Z) (rel abs : T) (verbose : bool) (d : Z) : res (sobj S) :=
  op_copy (o_rows A) (o_cols A) ;;;
  let b := SObj (o_rows A) (o_cols A) (Some a) max verbose rel abs (Some d) 0 in
  solver_checks A (so_par b) ;;; Ok b.

(** num_iter_ = k *)
Definition so_count (b : sobj S) (k : Z) : sobj S :=
  SObj (so_rows b) (so_cols b) (so_A b) (so_max b) (so_verbose b) (so_rel b) (so_abs b) (so_dot b) k.

(** solvers.cpp:39-42  GetNumIterations *)
Definition so_get_num (b : sobj S) : Z := so_num b.

(** solvers.hpp:60  GetOperator *)
Definition so_get_operator (b : sobj S) : option Z := so_A b.

(** solvers.cpp:44-47  SetVerbose *)
Definition so_set_verbose (b : sobj S) (v : bool) : sobj S :=
  SObj (so_rows b) (so_cols b) (so_A b) (so_max b) v (so_rel b) (so_abs b) (so_dot b) (so_num b).

(** solvers.cpp:49-52  SetMaxIter *)
Definition so_set_max (b : sobj S) (k : Z) : sobj S :=
  SObj (so_rows b) (so_cols b) (so_A b) k (so_verbose b) (so_rel b) (so_abs b) (so_dot b) (so_num b).

(** solvers.cpp:54-57  SetRelTol *)
Definition so_set_rel (b : sobj S) (t : T) : sobj S :=
  SObj (so_rows b) (so_cols b) (so_A b) (so_max b) (so_verbose b) t (so_abs b) (so_dot b) (so_num b).

(** solvers.cpp:59-62  SetAbsTol *)
Definition so_set_abs (b : sobj S) (t : T) : sobj S :=
  SObj (so_rows b) (so_cols b) (so_A b) (so_max b) (so_verbose b) (so_rel b) t (so_dot b) (so_num b).

(** solvers.cpp:64-70  SetOperator *)
Definition so_set_operator (m : memory_of_ops) (b : sobj S) (a : Z) : res (sobj S) :=
  A <- deref m a ;; old <- deref_opt m (so_A b) ;;
  assert_ (o_rows A =? o_rows old) ;;;
  assert_ (o_cols A =? o_cols old) ;;;
  Ok (SObj (so_rows b) (so_cols b) (Some a) (so_max b) (so_verbose b) (so_rel b) (so_abs b) (so_dot b) (so_num b)).

(** A solver class: the special members (Life.v), the base, the constructors, Mult, and what an
    exception thrown by Mult leaves: num_iter_ and the work vectors may then hold anything. *)
Record skind (O : Type) : Type := SKind {
  sk_class : class O;
  sk_base : O -> sobj S;
  sk_put : O -> sobj S -> O;
  sk_make : memory_of_ops -> Z -> option Z -> Z -> T -> T -> bool -> Z -> res O;
  sk_mult : memory_of_ops -> O -> list T -> list T -> res (O * list T);
  sk_torn : O -> Z * (Z -> list T) -> O
}.

(** solvers.cpp:91-114  PCGSolver(A, [M], ...) *)
Definition pg_make (m : memory_of_ops) (a : Z) (M : option Z) (max : Z) (rel abs : T) (verbose : bool) (d : Z) : res (pcgobj S) :=
  A <- deref m a ;;
  b <- so_make A a max rel abs verbose d ;;
  P <- match M with Some p => o <- deref m p ;; Ok (Some o) | None => Ok None end ;;
  u <- pcg_new A P (so_par b) ;;
  Ok (PcgObj b (Some M) (pb_Ap u) (pb_r u) (pb_p u) (pb_z u)).

(** solvers.cpp:145-223  PCGSolver::Mult *)
Definition pg_mult (m : memory_of_ops) (o : pcgobj S) (b x : list T) : res (pcgobj S * list T) :=
  let base := pg_base o in
  match so_A base with
  | None => Fail FAssert
  | Some a =>
      A <- deref m a ;;
      assert_ (zlen x =? o_rows A) ;;; assert_ (zlen b =? o_rows A) ;;;
      P <- match pg_M o with
           | None => Fail FUB
           | Some None => Ok None
           | Some (Some p) => M <- deref m p ;; Ok (Some M)
           end ;;
      dot <- dot_at (so_dot base) ;;
      '(_, u, x, k) <- pcg_mult A P dot (so_par base) tt (PBuf (pg_Ap o) (pg_r o) (pg_p o) (pg_z o)) b x ;;
      Ok (PcgObj (so_count base k) (pg_M o) (pb_Ap u) (pb_r u) (pb_p u) (pb_z u), x)
  end.

Definition pg_kind : skind (pcgobj S) := SKind _ pcg_class (pg_base)
  (fun o b => PcgObj b (pg_M o) (pg_Ap o) (pg_r o) (pg_p o) (pg_z o))
  pg_make pg_mult
  (fun o t => PcgObj (so_count (pg_base o) (fst t)) (pg_M o) (snd t 0) (snd t 1) (snd t 2) (snd t 3)).

(** solvers.cpp:244-252  MINRESSolver(A, ...); there is no constructor with a preconditioner *)
Definition mr_make (m : memory_of_ops) (a : Z) (M : option Z) (max : Z) (rel abs : T) (verbose : bool) (d : Z) : res (mrobj S) :=
  match M with
  | Some _ => Fail FUB
  | None =>
      A <- deref m a ;;
      b <- so_make A a max rel abs verbose d ;;
      u <- minres_new A None (so_par b) ;;
      Ok (MrObj b (mb_w0 u) (mb_w1 u) (mb_v0 u) (mb_v1 u) (mb_q u))
  end.

(** solvers.cpp:283-361  MINRESSolver::Mult *)
Definition mr_mult (m : memory_of_ops) (o : mrobj S) (b x : list T) : res (mrobj S * list T) :=
  let base := mr_base o in
  match so_A base with
  | None => Fail FAssert
  | Some a =>
      A <- deref m a ;;
      assert_ (zlen x =? o_rows A) ;;; assert_ (zlen b =? o_rows A) ;;;
      dot <- dot_at (so_dot base) ;;
      '(_, u, _, x, k) <- minres_mult root A dot (so_par base) tt
                            (MBuf (mr_w0 o) (mr_w1 o) (mr_v0 o) (mr_v1 o) [] (mr_q o)) b x ;;
      Ok (MrObj (so_count base k) (mb_w0 u) (mb_w1 u) (mb_v0 u) (mb_v1 u) (mb_q u), x)
  end.

Definition mr_kind : skind (mrobj S) := SKind _ minres_class (mr_base)
  (fun o b => MrObj b (mr_w0 o) (mr_w1 o) (mr_v0 o) (mr_v1 o) (mr_q o))
  mr_make mr_mult
  (fun o t => MrObj (so_count (mr_base o) (fst t)) (snd t 0) (snd t 1) (snd t 2) (snd t 3) (snd t 4)).

(** solvers.cpp:382-396  PMINRESSolver(A, M, ...); there is no constructor without a preconditioner *)
Definition pmr_make (m : memory_of_ops) (a : Z) (M : option Z) (max : Z) (rel abs : T) (verbose : bool) (d : Z) : res (pmrobj S) :=
  match M with
  | None => Fail FUB
  | Some p =>
      A <- deref m a ;;
      b <- so_make A a max rel abs verbose d ;;
      P <- deref m p ;;
      u <- minres_new A (Some P) (so_par b) ;;
      Ok (PmrObj b (Some M) (mb_w0 u) (mb_w1 u) (mb_v0 u) (mb_v1 u) (mb_u1 u) (mb_q u))
  end.

(** solvers.cpp:429-515  PMINRESSolver::Mult *)
Definition pmr_mult (m : memory_of_ops) (o : pmrobj S) (b x : list T) : res (pmrobj S * list T) :=
  let base := pm_base o in
  match so_A base with
  | None => Fail FAssert
  | Some a =>
      A <- deref m a ;;
      assert_ (zlen b =? o_rows A) ;;; assert_ (zlen x =? o_cols A) ;;;
      P <- match pm_M o with Some (Some p) => deref m p | _ => Fail FUB end ;;
      dot <- dot_at (so_dot base) ;;
      '(_, u, _, x, k) <- pminres_mult root A P dot (so_par base) tt
                            (MBuf (pm_w0 o) (pm_w1 o) (pm_v0 o) (pm_v1 o) (pm_u1 o) (pm_q o)) b x ;;
      Ok (PmrObj (so_count base k) (pm_M o) (mb_w0 u) (mb_w1 u) (mb_v0 u) (mb_v1 u) (mb_u1 u) (mb_q u), x)
  end.

Definition pmr_kind : skind (pmrobj S) := SKind _ pminres_class (pm_base)
  (fun o b => PmrObj b (pm_M o) (pm_w0 o) (pm_w1 o) (pm_v0 o) (pm_v1 o) (pm_u1 o) (pm_q o))
  pmr_make pmr_mult
  (fun o t => PmrObj (so_count (pm_base o) (fst t)) (pm_M o) (snd t 0) (snd t 1) (snd t 2) (snd t 3) (snd t 4) (snd t 5)).

(** The statements of a program: on its solvers, numbered in the order of their construction, and
    on its operators *)
Inductive act : Type :=
| ADefault                                        (* Solver z; *)
| ANew (a : Z) (M : option Z) (max : Z) (rel abs : T) (verbose : bool) (d : Z)
| ACopy (y : Z) | AMove (y : Z) | AAssign (x y : Z) | AMoveAssign (x y : Z) | ASwap (x y : Z)
| AVerbose (x : Z) (v : bool) | AMaxIter (x k : Z) | ARelTol (x : Z) (t : T) | AAbsTol (x : Z) (t : T)
| ASetOperator (x a : Z)
| AMult (x : Z) (b v : list T) (t : Z * (Z -> list T))   (* t: what remains if it throws *)
| AGetNum (x : Z) | AGetOperator (x : Z) | ARows (x : Z) | ACols (x : Z)
| AChange (a : Z) (B : option (op S unit)).        (* the operator at a is modified or destroyed *)

(** What the program sees *)
Inductive out : Type := OVec (v : list T) | OThrow | OInt (k : Z) | OPtr (p : option Z).

Arguments sk_class {O}. Arguments sk_base {O}. Arguments sk_put {O}. Arguments sk_make {O}. Arguments sk_mult {O}. Arguments sk_torn {O}.

Section Run.
Context {O : Type} (K : skind O).

Definition on_base (st : list O) (x : Z) (f : sobj S -> res (sobj S)) : res (list O) :=
  o <- get st x ;; b <- f (sk_base K o) ;; set st x (sk_put K o b).
Definition see (st : list O) (x : Z) (f : sobj S -> out) : res (list out) :=
  o <- get st x ;; Ok [f (sk_base K o)].
Definition special (m : memory_of_ops) (st : list O) (p : lop O) : res (memory_of_ops * list O * list out) :=
  st <- lstep (sk_class K) st p ;; Ok (m, st, []).

Definition astep (w : memory_of_ops * list O) (p : act) : res (memory_of_ops * list O * list out) :=
  let (m, st) := w in
  match p with
  | ADefault => Ok (m, st ++ [k_fresh (sk_class K)], [])
  | ANew a M max rel abs verbose d => o <- sk_make K m a M max rel abs verbose d ;; Ok (m, st ++ [o], [])
  | ACopy y => special m st (LCopy y)
  | AMove y => special m st (LMove y)
  | AAssign x y => special m st (LAssign x y)
  | AMoveAssign x y => special m st (LMoveAssign x y)
  | ASwap x y => special m st (LSwap x y)
  | AVerbose x v => st <- on_base st x (fun b => Ok (so_set_verbose b v)) ;; Ok (m, st, [])
  | AMaxIter x k => st <- on_base st x (fun b => Ok (so_set_max b k)) ;; Ok (m, st, [])
  | ARelTol x t => st <- on_base st x (fun b => Ok (so_set_rel b t)) ;; Ok (m, st, [])
  | AAbsTol x t => st <- on_base st x (fun b => Ok (so_set_abs b t)) ;; Ok (m, st, [])
  | ASetOperator x a => st <- on_base st x (fun b => so_set_operator m b a) ;; Ok (m, st, [])
  | AMult x b v t =>
      o <- get st x ;;
      match sk_mult K m o b v with
      | Ok (o, v) => st <- set st x o ;; Ok (m, st, [OVec v])
      | Fail FThrow => st <- set st x (sk_torn K o t) ;; Ok (m, st, [OThrow])
      | Fail e => Fail e
      end
  | AGetNum x => r <- see st x (fun b => OInt (so_get_num b)) ;; Ok (m, st, r)
  | AGetOperator x => r <- see st x (fun b => OPtr (so_get_operator b)) ;; Ok (m, st, r)
  | ARows x => r <- see st x (fun b => OInt (so_rows b)) ;; Ok (m, st, r)
  | ACols x => r <- see st x (fun b => OInt (so_cols b)) ;; Ok (m, st, r)
  | AChange a B => m <- set m a B ;; Ok (m, st, [])
  end.

(** What the program sees until it ends or fails, and how it fails *)
Fixpoint arun (w : memory_of_ops * list O) (ps : list act) : list out * option fault :=
  match ps with
  | [] => ([], None)
  | p :: ps =>
      match astep w p with
      | Ok (w, o) => let (os, e) := arun w ps in (o ++ os, e)
      | Fail e => ([], Some e)
      end
  end.

End Run.
End SolverObj.

Arguments memory_of_ops S : clear implicits.
Arguments skind S O : clear implicits.
Arguments act S : clear implicits.
Arguments out S : clear implicits.
Arguments sk_class {S O}. Arguments sk_base {S O}. Arguments sk_put {S O}. Arguments sk_make {S O}. Arguments sk_mult {S O}. Arguments sk_torn {S O}.
