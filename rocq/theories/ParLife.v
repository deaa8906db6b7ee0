(** Model of the objects of modules/parlinalgcpp that hold hypre objects: ParVector, ParOperator,
    ParMatrix, ParSolver and its subclasses, ParSmoother.

    hypre objects live in a heap and are named by pointers; a pointer member may be null, may name an
    object, or may be uninitialised ([Garbage]).  The arrays of an object (std::vector members) are
    boxes: a content and the identity of the storage.  A hypre object refers to storage by its
    identity; storage is never shared or reused, so the reference is right exactly when the owner of
    the hypre object still has that storage.  Copying an array makes new storage, std::swap exchanges
    the storages.  The communicator is reduced to whether it is a valid one (comm_ > 0 and
    myid_ >= 0).  hypre functions follow their documentation: a solver is created, gets parameters,
    is set up for a matrix and may then solve; releasing or using something else is undefined. *)

From Coq Require Import ZArith List Bool.
From Verif Require Import Base Scalar Spec Dense Sparse Par HypreNorms.
Import ListNotations.
Open Scope Z_scope.

Inductive pointer : Type := Null | Live (id : Z) | Garbage.

(** The functions a ParSolver is given: parsolvers.hpp:20-35 (no_create, ...), those of BoomerAMG,
    ParaSails, PCG, and DiagScale; [FnGarbage]: an uninitialised function pointer *)
Inductive fn : Type := FnNone | FnAMG | FnSails | FnPCG | FnDiag | FnGarbage.

Definition fn_eqb (a b : fn) : bool :=
  match a, b with
  | FnNone, FnNone | FnAMG, FnAMG | FnSails, FnSails | FnPCG, FnPCG | FnDiag, FnDiag | FnGarbage, FnGarbage => true
  | _, _ => false
  end.

(** Names of the parameters set at parsolvers.cpp:128-138, 179-185, 244-246 *)
Inductive param : Type :=
| CoarsenType | AggNumLevels | RelaxType | NumSweeps | StrongThreshold | InterpType | PMaxElmts | MaxLevels
| PrintLevel | MaxIter | Tol | Params | Filter | Sym | Loadbal | Reuse | Logging.

Record box (A : Type) : Type := Box { b_id : Z; b_val : A }.
Arguments Box {A} _ _.
Arguments b_id {A} _.
Arguments b_val {A} _.

Section ParLife.
Context {S : scalar}.
Notation T := (car S).
Notation csr := (csr S).
Notation parmat := (parmat S).

Inductive value : Type := Num (n : Z) | Real (t : T) | Pair (t : T) (n : Z).

(** A function handed to hypre: the setup or the solve function of a kind of solver *)
Inductive callback : Type := SetupOf (f : fn) | SolveOf (f : fn).

(** hypre solver: kind, parameters set so far, matrix it is set up for, preconditioner (function
    that applies it, function that sets it up, solver: the arguments of HYPRE_ParCSRPCGSetPrecond) *)
Record hsolver : Type := HSol {
  hs_kind : fn;
  hs_set : list (param * value);
  hs_for : option parmat;
  hs_pre : option (callback * callback * pointer)
}.

Inductive hobj : Type :=
| HVector (part : Z) (data : option Z)             (* hypre_ParVector: partition, data *)
| HMatrix (rs cs diag offd map : Z)                (* hypre_ParCSRMatrix: the arrays it points to *)
| HSolver (s : hsolver).

(** The hypre objects ever made, [None] once released; and the number of storages ever made. *)
Record heap : Type := Heap { h_objs : list (option hobj); h_next : Z }.

Definition new_obj (o : hobj) (h : heap) : pointer * heap :=
  (Live (zlen (h_objs h)), Heap (h_objs h ++ [Some o]) (h_next h)).

Definition store {A} (a : A) (h : heap) : box A * heap :=
  (Box (h_next h) a, Heap (h_objs h) (h_next h + 1)).

Definition deref (h : heap) (p : pointer) : res hobj :=
  match p with
  | Live id => o <- get (h_objs h) id ;; match o with Some x => Ok x | None => Fail FUB end
  | _ => Fail FUB
  end.

(** Release the object p names; [is] says whether it is of the kind the function expects. *)
Definition release (is : hobj -> bool) (h : heap) (p : pointer) : res heap :=
  x <- deref h p ;;
  match p with
  | Live id => if is x then os <- set (h_objs h) id None ;; Ok (Heap os (h_next h)) else Fail FUB
  | _ => Fail FUB
  end.

Definition is_vector (o : hobj) : bool := match o with HVector _ _ => true | _ => false end.
Definition is_matrix (o : hobj) : bool := match o with HMatrix _ _ _ _ _ => true | _ => false end.
Definition is_solver (k : fn) (o : hobj) : bool := match o with HSolver s => fn_eqb (hs_kind s) k | _ => false end.

(* ---------------------------------------------------------------- ParOperator *)

(** operator.hpp:126-130, paroperator.hpp:85-101 *)
Record opobj : Type := OpObj {
  op_rows : Z; op_cols : Z;
  op_comm : bool;
  op_rs : box (list Z); op_cs : box (list Z);
  op_x : pointer; op_b : pointer
}.

(** paroperator.cpp:56-67  InitVector *)
Definition init_vector (starts : box (list Z)) (h : heap) : res (pointer * heap) :=
  assert_ (3 <=? zlen (b_val starts)) ;;; Ok (new_obj (HVector (b_id starts) None) h).

(** paroperator.cpp:69-76  DestroyVector *)
Definition destroy_vector (p : pointer) (h : heap) : res heap :=
  match p with Null => Ok h | _ => release is_vector h p end.

(** paroperator.cpp:8-12  ParOperator() *)
Definition op_default (h : heap) : opobj * heap :=
  let '(rs, h) := store [] h in let '(cs, h) := store [] h in
  (OpObj 0 0 false rs cs Null Null, h).

(** paroperator.cpp:48-54  HypreCreate *)
Definition op_create (o : opobj) (h : heap) : res (opobj * heap) :=
  '(x, h) <- init_vector (op_rs o) h ;;
  '(b, h) <- init_vector (op_cs o) h ;;
  Ok (OpObj (op_rows o) (op_cols o) (op_comm o) (op_rs o) (op_cs o) x b, h).

(** paroperator.cpp:26-35  ParOperator(comm, row_starts, col_starts) *)
Definition op_make (rs cs : list Z) (h : heap) : res (opobj * heap) :=
  r0 <- get rs 0 ;; r1 <- get rs 1 ;; c0 <- get cs 0 ;; c1 <- get cs 1 ;;
  assert_ (0 <=? r1 - r0) ;;; assert_ (0 <=? c1 - c0) ;;;
  let '(rsb, h) := store rs h in let '(csb, h) := store cs h in
  assert_ (3 <=? zlen rs) ;;; assert_ (3 <=? zlen cs) ;;;
  op_create (OpObj (r1 - r0) (c1 - c0) true rsb csb Null Null) h.

(** paroperator.cpp:37-46  copy constructor *)
Definition op_copy (o : opobj) (h : heap) : res (opobj * heap) :=
  let '(rs, h) := store (b_val (op_rs o)) h in
  let '(cs, h) := store (b_val (op_cs o)) h in
  let c := OpObj (op_rows o) (op_cols o) (op_comm o) rs cs Null Null in
  if op_comm o then op_create c h else Ok (c, h).

(** paroperator.cpp:78-87  HypreDestroy and the destructor *)
Definition op_destroy (o : opobj) (h : heap) : res heap :=
  h <- destroy_vector (op_x o) h ;; destroy_vector (op_b o) h.

(** paroperator.cpp:89-99, operator.cpp:53-57  swap *)
Definition op_swap (l r : opobj) : opobj * opobj :=
  (OpObj (op_rows r) (op_cols r) (op_comm r) (op_rs r) (op_cs r) (op_x r) (op_b r),
   OpObj (op_rows l) (op_cols l) (op_comm l) (op_rs l) (op_cs l) (op_x l) (op_b l)).

(* ---------------------------------------------------------------- ParMatrix *)

(** parmatrix.hpp:284-291 *)
Record matobj : Type := MatObj {
  mo_op : opobj;
  mo_A : pointer;
  mo_diag : box csr; mo_offd : box csr; mo_map : box (list Z)
}.

(** The matrix an object holds *)
Definition mo_val (m : matobj) : parmat :=
  ParMat (b_val (op_rs (mo_op m))) (b_val (op_cs (mo_op m))) (b_val (mo_diag m)) (b_val (mo_offd m)) (b_val (mo_map m)).

(** The arrays that a hypre matrix made from the members of m points to *)
Definition mo_view (m : matobj) : hobj :=
  HMatrix (b_id (op_rs (mo_op m))) (b_id (op_cs (mo_op m))) (b_id (mo_diag m)) (b_id (mo_offd m)) (b_id (mo_map m)).

(** parmatrix.cpp:8-12  ParMatrix() *)
Definition mat_default (h : heap) : matobj * heap :=
  let '(o, h) := op_default h in
  let '(d, h) := store sp_empty h in let '(f, h) := store sp_empty h in let '(c, h) := store [] h in
  (MatObj o Null d f c, h).

(** parmatrix.cpp:157-190  HypreCreate: A_ is null whenever it is called, so that HypreDestroy does
    nothing; hypre_CSRMatrixReorder changes diag_ in place *)
Definition mat_create (reorder : csr -> csr) (m : matobj) (h : heap) : matobj * heap :=
  let '(p, h) := new_obj (mo_view m) h in
  (MatObj (mo_op m) p (Box (b_id (mo_diag m)) (reorder (b_val (mo_diag m)))) (mo_offd m) (mo_map m), h).

(** parmatrix.cpp:57-68, 70-114  ParMatrix(comm, row_starts, col_starts, diag, offd, col_map); the
    checks and the content are those of [pm_make] *)
Definition mat_make (reorder : csr -> csr) (rs cs : list Z) (diag offd : csr) (col_map : list Z) (h : heap) : res (matobj * heap) :=
  A <- pm_make (fun d => d) rs cs diag offd col_map ;;
  '(o, h) <- op_make rs cs h ;;
  let '(d, h) := store (pm_diag A) h in let '(f, h) := store (pm_offd A) h in let '(c, h) := store (pm_map A) h in
  Ok (mat_create reorder (MatObj o Null d f c) h).

(** parmatrix.cpp:122-131  copy constructor *)
Definition mat_copy (reorder : csr -> csr) (m : matobj) (h : heap) : res (matobj * heap) :=
  '(o, h) <- op_copy (mo_op m) h ;;
  let '(d, h) := store (b_val (mo_diag m)) h in
  let '(f, h) := store (b_val (mo_offd m)) h in
  let '(c, h) := store (b_val (mo_map m)) h in
  let n := MatObj o Null d f c in
  match mo_A m with Null => Ok (n, h) | _ => Ok (mat_create reorder n h) end.

(** parmatrix.cpp:133-143  swap *)
Definition mat_swap (l r : matobj) : matobj * matobj :=
  let '(ol, or) := op_swap (mo_op l) (mo_op r) in
  (MatObj ol (mo_A r) (mo_diag r) (mo_offd r) (mo_map r), MatObj or (mo_A l) (mo_diag l) (mo_offd l) (mo_map l)).

(** parmatrix.cpp:145-149  move constructor: (new, moved-from) *)
Definition mat_move (m : matobj) (h : heap) : (matobj * matobj) * heap :=
  let '(n, h) := mat_default h in (mat_swap n m, h).

(** parmatrix.cpp:117-120, 192-203  destructor and HypreDestroy, then the base class *)
Definition mat_destroy (m : matobj) (h : heap) : res heap :=
  h <- (match mo_A m with Null => Ok h | p => release is_matrix h p end) ;; op_destroy (mo_op m) h.

(** What hypre finds when it is given A_ *)
Definition mat_deref (h : heap) (m : matobj) : res parmat :=
  o <- deref h (mo_A m) ;;
  match o, mo_view m with
  | HMatrix a b c d e, HMatrix a' b' c' d' e' =>
      if (a =? a') && (b =? b') && (c =? c') && (d =? d') && (e =? e') then Ok (mo_val m) else Fail FUB
  | _, _ => Fail FUB
  end.

(* ---------------------------------------------------------------- ParVector *)

(** parvector.hpp:85-96; [None] for an uninitialised global_size_ *)
Record vecobj : Type := VecObj {
  vo_data : box (list T);
  vo_comm : bool;
  vo_p : pointer;
  vo_part : box (list Z);
  vo_gsize : option Z
}.

(** parvector.cpp:8-11  ParVector() *)
Definition vec_default (h : heap) : vecobj * heap :=
  let '(d, h) := store [] h in let '(p, h) := store [] h in (VecObj d false Null p None, h).

(** parvector.cpp:94-108  HypreCreate: a communicator and a partition are needed; the pointer held
    before is null whenever it is called *)
Definition vec_create (v : vecobj) (h : heap) : res (vecobj * heap) :=
  if vo_comm v then
    match vo_gsize v with
    | None => Fail FUB
    | Some _ =>
        let '(p, h) := new_obj (HVector (b_id (vo_part v)) (Some (b_id (vo_data v)))) h in
        Ok (VecObj (vo_data v) (vo_comm v) p (vo_part v) (vo_gsize v), h)
    end
  else Fail FUB.

(** parvector.cpp:25-50  ParVector(comm, vect, part) *)
Definition vec_make (l : list T) (part : list Z) (h : heap) : res (vecobj * heap) :=
  n <- pv_init (zlen l) part ;;
  let '(d, h) := store l h in let '(p, h) := store part h in
  vec_create (VecObj d true Null p (Some n)) h.

(** parvector.cpp:54-59  copy constructor *)
Definition vec_copy (v : vecobj) (h : heap) : res (vecobj * heap) :=
  let '(d, h) := store (b_val (vo_data v)) h in let '(p, h) := store (b_val (vo_part v)) h in
  vec_create (VecObj d (vo_comm v) Null p (vo_gsize v)) h.

(** parvector.cpp:74-82  swap *)
Definition vec_swap (l r : vecobj) : vecobj * vecobj :=
  (VecObj (vo_data r) (vo_comm r) (vo_p r) (vo_part r) (vo_gsize r), VecObj (vo_data l) (vo_comm l) (vo_p l) (vo_part l) (vo_gsize l)).

(** parvector.cpp:61-65  move constructor: (new, moved-from) *)
Definition vec_move (v : vecobj) (h : heap) : (vecobj * vecobj) * heap :=
  let '(d, h) := store [] h in let '(p, h) := store [] h in
  (vec_swap (VecObj d false Null p (Some 0)) v, h).

(** parvector.cpp:89-92, 110-117  destructor *)
Definition vec_destroy (v : vecobj) (h : heap) : res heap :=
  match vo_p v with Null => Ok h | p => release is_vector h p end.

(** vector.hpp:176-187  Vector::SetSize(size), inherited: growing makes new storage (a std::vector
    whose capacity is its size) *)
Definition vec_set_size (v : vecobj) (n : Z) (h : heap) : vecobj * heap :=
  let l := resize (b_val (vo_data v)) n s0 in
  let '(d, h) := if n <=? zlen (b_val (vo_data v)) then (Box (b_id (vo_data v)) l, h) else store l h in
  (VecObj d (vo_comm v) (vo_p v) (vo_part v) (vo_gsize v), h).

(** What hypre finds when it is given pvect_ *)
Definition vec_deref (h : heap) (v : vecobj) : res (list T) :=
  o <- deref h (vo_p v) ;;
  match o with
  | HVector p (Some d) => if (p =? b_id (vo_part v)) && (d =? b_id (vo_data v)) then Ok (b_val (vo_data v)) else Fail FUB
  | _ => Fail FUB
  end.

(* ---------------------------------------------------------------- ParSolver *)

(** The class of a solver object *)
Inductive class : Type := Base | AMG | Sails | CG | Diag | Smoother.

Definition class_eqb (a b : class) : bool :=
  match a, b with
  | Base, Base | AMG, AMG | Sails, Sails | CG, CG | Diag, Diag | Smoother, Smoother => true
  | _, _ => false
  end.

(** parsmoother.hpp:99-110 *)
Record smooth : Type := Smooth {
  sm_type : Z; sm_times : Z; sm_weight : T; sm_omega : T;
  sm_shell : pointer; sm_norms : list T
}.

(** parsolvers.hpp:125-140 *)
Record solobj : Type := SolObj {
  so_op : opobj;
  so_iter : Z; so_tol : T; so_verbose : bool;
  so_A : matobj;
  so_create : fn; so_destroy : fn; so_setup : fn; so_solve : fn;
  so_solver : pointer;
  so_smooth : smooth
}.

(** The members of the classes other than ParSmoother: no shell *)
Definition no_smooth : smooth := Smooth 0 0 s0 s0 Null [].

(** parsolvers.cpp:8-14  ParSolver(), parsmoother.cpp:7-10 *)
Definition sol_default (h : heap) : solobj * heap :=
  let '(o, h) := op_default h in let '(A, h) := mat_default h in
  (SolObj o 0 s0 false A FnNone FnNone FnNone FnNone Null no_smooth, h).

(** (create_)(&solver_) *)
Definition call_create (f : fn) (h : heap) : res (pointer * heap) :=
  match f with
  | FnNone => Ok (Null, h)
  | FnAMG | FnPCG => Ok (new_obj (HSolver (HSol f [] None None)) h)
  | _ => Fail FUB
  end.

(** (destroy_)(solver_) *)
Definition call_destroy (f : fn) (p : pointer) (h : heap) : res heap :=
  match f with
  | FnNone => Ok h
  | FnAMG | FnPCG | FnSails => release (is_solver f) h p
  | _ => Fail FUB
  end.

(** A change of the solver p names *)
Definition update (f : fn) (g : hsolver -> hsolver) (p : pointer) (h : heap) : res heap :=
  x <- deref h p ;;
  match p, x with
  | Live id, HSolver s =>
      if fn_eqb (hs_kind s) f then os <- set (h_objs h) id (Some (HSolver (g s))) ;; Ok (Heap os (h_next h)) else Fail FUB
  | _, _ => Fail FUB
  end.

Definition with_params (l : list (param * value)) (s : hsolver) : hsolver := HSol (hs_kind s) (hs_set s ++ l) (hs_for s) (hs_pre s).
Definition with_matrix (A : parmat) (s : hsolver) : hsolver := HSol (hs_kind s) (hs_set s) (Some A) (hs_pre s).
Definition with_precond (q : callback * callback * pointer) (s : hsolver) : hsolver := HSol (hs_kind s) (hs_set s) (hs_for s) (Some q).

(** parsolvers.cpp:88-94  HypreSetup *)
Definition sol_setup (s : solobj) (h : heap) : res heap :=
  match so_setup s with
  | FnNone => Ok h
  | FnDiag => A <- mat_deref h (so_A s) ;; Ok h
  | FnGarbage => Fail FUB
  | f => A <- mat_deref h (so_A s) ;; update f (with_matrix A) (so_solver s) h
  end.

(** parsolvers.cpp:16-35, 83-86  ParSolver(A, ...); A is passed by value (copied or moved into the
    parameter by the caller) and moved into A_ *)
Definition sol_make (A : matobj) (iter : Z) (tol : T) (verbose : bool) (create destroy setup solve : fn) (h : heap) : res (solobj * heap) :=
  '(o, h) <- op_make (b_val (op_rs (mo_op A))) (b_val (op_cs (mo_op A))) h ;;
  let '((A_, A), h) := mat_move A h in
  assert_ (op_rows (mo_op A_) =? op_cols (mo_op A_)) ;;;
  assert_ (pm_grows (mo_val A_) =? pm_gcols (mo_val A_)) ;;;
  '(p, h) <- call_create create h ;;
  h <- mat_destroy A h ;;
  Ok (SolObj o iter tol verbose A_ create destroy setup solve p no_smooth, h).

(** parsolvers.cpp:111-143  BoomerAMG(A, max_iter, tol, verbose) *)
Definition amg_params (quarter : T) (iter : Z) (tol : T) (verbose : bool) : list (param * value) :=
  [(CoarsenType, Num 10); (AggNumLevels, Num 1); (RelaxType, Num 8); (NumSweeps, Num 1); (StrongThreshold, Real quarter);
   (InterpType, Num 6); (PMaxElmts, Num 4); (MaxLevels, Num 25); (PrintLevel, Num (if verbose then 2 else 0));
   (MaxIter, Num iter); (Tol, Real tol)].

Definition amg_make (quarter : T) (A : matobj) (iter : Z) (tol : T) (verbose : bool) (h : heap) : res (solobj * heap) :=
  '(s, h) <- sol_make A iter tol verbose FnAMG FnAMG FnAMG FnAMG h ;;
  h <- update FnAMG (with_params (amg_params quarter iter tol verbose)) (so_solver s) h ;;
  h <- sol_setup s h ;; Ok (s, h).

(** parsolvers.cpp:168-188, 212-235  ParaSails(A, ...); [trunc] is the conversion to int and back of
    the double that is passed to SetLoadBal *)
Definition sails_params (trunc : T -> T) (verbose : bool) (reuse sym : Z) (load threshold filter : T) (levels : Z) : list (param * value) :=
  [(Params, Pair threshold levels); (Filter, Real filter); (Sym, Num sym); (Loadbal, Real (trunc load)); (Reuse, Num reuse);
   (Logging, Num (if verbose then 1 else 0))].

Definition sails_make (trunc : T -> T) (A : matobj) (verbose : bool) (reuse sym : Z) (load threshold filter : T) (levels : Z) (h : heap) : res (solobj * heap) :=
  '(s, h) <- sol_make A 0 s0 verbose FnNone FnSails FnSails FnSails h ;;
  let '(p, h) := new_obj (HSolver (HSol FnSails [] None None)) h in
  let s := SolObj (so_op s) (so_iter s) (so_tol s) (so_verbose s) (so_A s) (so_create s) (so_destroy s) (so_setup s) (so_solve s) p (so_smooth s) in
  h <- update FnSails (with_params (sails_params trunc verbose reuse sym load threshold filter levels)) p h ;;
  h <- sol_setup s h ;; Ok (s, h).

(** parsolvers.cpp:237-250  ParCG(A, max_iter, tol, verbose) *)
Definition cg_params (iter : Z) (tol : T) (verbose : bool) : list (param * value) :=
  [(Tol, Real tol); (MaxIter, Num iter); (PrintLevel, Num (if verbose then 1 else 0))].

Definition cg_make (A : matobj) (iter : Z) (tol : T) (verbose : bool) (h : heap) : res (solobj * heap) :=
  '(s, h) <- sol_make A iter tol verbose FnPCG FnPCG FnPCG FnPCG h ;;
  h <- update FnPCG (with_params (cg_params iter tol verbose)) (so_solver s) h ;;
  h <- sol_setup s h ;; Ok (s, h).

(** parsolvers.cpp:252-260  ParCG(A, M, ...): HYPRE_ParCSRPCGSetPrecond(solver, precond, setup,
    precond_solver) *)
Definition cg_make_precond (A : matobj) (M : solobj) (iter : Z) (tol : T) (verbose : bool) (h : heap) : res (solobj * heap) :=
  '(s, h) <- cg_make A iter tol verbose h ;;
  h <- update FnPCG (with_precond (SetupOf (so_setup M), SolveOf (so_solve M), so_solver M)) (so_solver s) h ;; Ok (s, h).

(** parsolvers.cpp:286-294  EnableDiagScaling *)
Definition cg_diag_scaling (s : solobj) (h : heap) : res heap :=
  update FnPCG (with_precond (SolveOf FnDiag, SetupOf FnDiag, Null)) (so_solver s) h.

(** parsolvers.cpp:296-303  ParDiagScale(A, ...) *)
Definition diag_make (A : matobj) (iter : Z) (tol : T) (verbose : bool) (h : heap) : res (solobj * heap) :=
  '(s, h) <- sol_make A iter tol verbose FnNone FnNone FnDiag FnDiag h ;;
  h <- sol_setup s h ;; Ok (s, h).

(** parsmoother.cpp:12-22  ParSmoother(A, type, relax_times, relax_weight, omega) *)
Definition smoother_make (half ratio : T) (A : matobj) (type times : Z) (weight omega : T) (h : heap) : res (solobj * heap) :=
  '(s, h) <- sol_make A 0 s0 false FnNone FnNone FnNone FnNone h ;;
  '(p, h) <- init_vector (op_rs (so_op s)) h ;;
  '(norms, _) <- l1_norms half ratio type (mo_val (so_A s)) [] ;;
  Ok (SolObj (so_op s) (so_iter s) (so_tol s) (so_verbose s) (so_A s) (so_create s) (so_destroy s) (so_setup s) (so_solve s) (so_solver s)
        (Smooth type times weight omega p norms), h).

(** parsolvers.cpp:42-51  copy constructor of ParSolver *)
Definition base_copy (reorder : csr -> csr) (s : solobj) (h : heap) : res (solobj * heap) :=
  '(o, h) <- op_copy (so_op s) h ;;
  '(A, h) <- mat_copy reorder (so_A s) h ;;
  '(p, h) <- call_create (so_create s) h ;;
  Ok (SolObj o (so_iter s) (so_tol s) (so_verbose s) A (so_create s) (so_destroy s) (so_setup s) (so_solve s) p no_smooth, h).

(** The copy constructors: parsolvers.cpp:42-51, 145-148, 190-193, 263-267, 305-308,
    parsmoother.cpp:24-30 *)
Definition sol_copy (reorder : csr -> csr) (c : class) (s : solobj) (h : heap) : res (solobj * heap) :=
  '(n, h) <- base_copy reorder s h ;;
  match c with
  | CG => h <- sol_setup n h ;; Ok (n, h)
  | Smoother =>
      '(p, h) <- init_vector (op_rs (so_op n)) h ;;
      let m := so_smooth s in
      Ok (SolObj (so_op n) (so_iter n) (so_tol n) (so_verbose n) (so_A n) (so_create n) (so_destroy n) (so_setup n) (so_solve n) (so_solver n)
            (Smooth (sm_type m) (sm_times m) (sm_weight m) (sm_omega m) p (sm_norms m)), h)
  | _ => Ok (n, h)
  end.

(** parsolvers.cpp:65-81, 162-165, 207-210, 281-284, 322-325, parsmoother.cpp:44-55  swap *)
Definition sol_swap (l r : solobj) : solobj * solobj :=
  let '(ol, or) := op_swap (so_op l) (so_op r) in
  let '(Al, Ar) := mat_swap (so_A l) (so_A r) in
  let swapped o A s m := SolObj o (so_iter s) (so_tol s) (so_verbose s) A (so_create s) (so_destroy s) (so_setup s) (so_solve s) (so_solver s)
    (Smooth (sm_type m) (sm_times m) (sm_weight m) (sm_omega m) (sm_shell m) (sm_norms m)) in
  (swapped ol Al r (so_smooth r), swapped or Ar l (so_smooth l)).

(** The move constructors: parsolvers.cpp:53-56 (no member is initialised), 150-153, 195-198,
    269-272, 310-313 (the base class is default constructed), parsmoother.cpp:32-35 (the base class is
    default constructed, the members of ParSmoother are not initialised): (new, moved-from) *)
Definition sol_move (c : class) (s : solobj) (h : heap) : (solobj * solobj) * heap :=
  let '(n, h) := sol_default h in
  let n := match c with
    | Base => SolObj (so_op n) (so_iter n) (so_tol n) (so_verbose n) (so_A n) FnGarbage FnGarbage FnGarbage FnGarbage Garbage (so_smooth n)
    | Smoother => SolObj (so_op n) (so_iter n) (so_tol n) (so_verbose n) (so_A n) (so_create n) (so_destroy n) (so_setup n) (so_solve n) (so_solver n)
        (Smooth 0 0 s0 s0 Garbage [])
    | _ => n
    end in
  (sol_swap n s, h).

(** parsolvers.cpp:37-40, parsmoother.cpp:57-60  destructors, then the members and the base class *)
Definition sol_destroy (s : solobj) (h : heap) : res heap :=
  h <- destroy_vector (sm_shell (so_smooth s)) h ;;
  h <- call_destroy (so_destroy s) (so_solver s) h ;;
  h <- mat_destroy (so_A s) h ;;
  op_destroy (so_op s) h.

(** What Mult asks hypre to compute: parsolvers.cpp:96-108, parsmoother.cpp:62-91 *)
Inductive request : Type :=
| ReqNone                                                                    (* no_solve: the output is set to zero *)
| ReqDiag (A : parmat) (b : list T)
| ReqSolve (s : hsolver) (A : parmat) (b : list T)
| ReqRelax (type times : Z) (norms : list T) (weight omega : T) (A : parmat) (b x : list T).

Definition sol_mult (c : class) (s : solobj) (h : heap) (b x : list T) : res request :=
  _ <- deref h (op_b (so_op s)) ;; _ <- deref h (op_x (so_op s)) ;;
  match c with
  | Smoother =>
      let m := so_smooth s in
      _ <- deref h (sm_shell m) ;; A <- mat_deref h (so_A s) ;;
      assert_ (negb (zlen (sm_norms m) =? 0)) ;;;
      Ok (ReqRelax (sm_type m) (sm_times m) (sm_norms m) (sm_weight m) (sm_omega m) A b x)
  | _ =>
      match so_solve s with
      | FnNone => Ok ReqNone
      | FnDiag => A <- mat_deref h (so_A s) ;; Ok (ReqDiag A b)
      | FnGarbage => Fail FUB
      | f =>
          A <- mat_deref h (so_A s) ;;
          o <- deref h (so_solver s) ;;
          match o with
          | HSolver t => if fn_eqb (hs_kind t) f then match hs_for t with Some _ => Ok (ReqSolve t A b) | None => Fail FUB end else Fail FUB
          | _ => Fail FUB
          end
      end
  end.

(* ---------------------------------------------------------------- histories of objects *)

Inductive obj : Type := OMat (m : matobj) | OVec (v : vecobj) | OSol (c : class) (s : solobj).

Inductive lop : Type :=
| LMat (rs cs : list Z) (diag offd : csr) (col_map : list Z)     (* ParMatrix m(comm, ...) *)
| LVec (l : list T) (part : list Z)                              (* ParVector v(comm, l, part) *)
| LMat0 | LVec0 | LSol0 (c : class)                              (* default constructors *)
| LAMG (i iter : Z) (tol : T) (verbose : bool)                   (* BoomerAMG s(o_i, ...) *)
| LSails (i : Z) (verbose : bool) (reuse sym : Z) (load threshold filter : T) (levels : Z)
| LCG (i iter : Z) (tol : T) (verbose : bool)
| LDiag (i iter : Z) (tol : T) (verbose : bool)
| LSmooth (i type times : Z) (weight omega : T)
| LBase (i : Z)                                                  (* ParSolver s(o_i) *)
| LCopy (i : Z)                                                  (* X o(o_i) *)
| LMove (i : Z)                                                  (* X o(std::move(o_i)) *)
| LAssign (i j : Z)                                              (* o_i = o_j *)
| LMoveAssign (i j : Z)                                          (* o_i = std::move(o_j) *)
| LSwap (i j : Z)                                                (* swap(o_i, o_j) *)
| LDestroy (i : Z).                                              (* end of the life of o_i *)

(** The objects ever made, [None] once destroyed; and the hypre objects. *)
Definition lstate : Type := list (option obj) * heap.

Definition look (os : list (option obj)) (i : Z) : res obj :=
  o <- get os i ;; match o with Some x => Ok x | None => Fail FUB end.

Definition look_mat (os : list (option obj)) (i : Z) : res matobj :=
  o <- look os i ;; match o with OMat m => Ok m | _ => Fail FUB end.

Definition copy (reorder : csr -> csr) (o : obj) (h : heap) : res (obj * heap) :=
  match o with
  | OMat m => '(n, h) <- mat_copy reorder m h ;; Ok (OMat n, h)
  | OVec v => '(n, h) <- vec_copy v h ;; Ok (OVec n, h)
  | OSol c s => '(n, h) <- sol_copy reorder c s h ;; Ok (OSol c n, h)
  end.

Definition move (o : obj) (h : heap) : (obj * obj) * heap :=
  match o with
  | OMat m => let '((a, b), h) := mat_move m h in ((OMat a, OMat b), h)
  | OVec v => let '((a, b), h) := vec_move v h in ((OVec a, OVec b), h)
  | OSol c s => let '((a, b), h) := sol_move c s h in ((OSol c a, OSol c b), h)
  end.

(** Two objects of the same class; other combinations do not compile or are not modelled (solvers of
    two classes as base class objects). *)
Definition swap (l r : obj) : res (obj * obj) :=
  match l, r with
  | OMat a, OMat b => let '(a, b) := mat_swap a b in Ok (OMat a, OMat b)
  | OVec a, OVec b => let '(a, b) := vec_swap a b in Ok (OVec a, OVec b)
  | OSol c a, OSol d b => if class_eqb c d then let '(a, b) := sol_swap a b in Ok (OSol c a, OSol d b) else Fail FUB
  | _, _ => Fail FUB
  end.

Definition destroy (o : obj) (h : heap) : res heap :=
  match o with OMat m => mat_destroy m h | OVec v => vec_destroy v h | OSol _ s => sol_destroy s h end.

(** operator=(X other): the parameter is swapped with the target and destroyed
    (parmatrix.cpp:150-155, parvector.cpp:67-72, parsolvers.cpp:58-63, 155-160, 200-205, 274-279, 315-320, parsmoother.cpp:37-42) *)
Definition assign (t other : obj) (h : heap) : res (obj * heap) :=
  '(t, other) <- swap t other ;; h <- destroy other h ;; Ok (t, h).

(** numbers and functions the constructors need *)
Record env : Type := Env { e_reorder : csr -> csr; e_quarter : T; e_half : T; e_ratio : T; e_trunc : T -> T }.

Definition lstep (e : env) (st : lstate) (op : lop) : res lstate :=
  let '(os, h) := st in
  let made (o : obj) (h : heap) : res lstate := Ok (os ++ [Some o], h) in
  (** a solver constructed from a copy of matrix i *)
  let solver (c : class) (i : Z) (make : matobj -> heap -> res (solobj * heap)) : res lstate :=
    m <- look_mat os i ;; '(m, h) <- mat_copy (e_reorder e) m h ;; '(s, h) <- make m h ;; made (OSol c s) h in
  match op with
  | LMat rs cs diag offd col_map => '(m, h) <- mat_make (e_reorder e) rs cs diag offd col_map h ;; made (OMat m) h
  | LVec l part => '(v, h) <- vec_make l part h ;; made (OVec v) h
  | LMat0 => let '(m, h) := mat_default h in made (OMat m) h
  | LVec0 => let '(v, h) := vec_default h in made (OVec v) h
  | LSol0 c => let '(s, h) := sol_default h in made (OSol c s) h
  | LAMG i iter tol verbose => solver AMG i (fun m => amg_make (e_quarter e) m iter tol verbose)
  | LSails i verbose reuse sym load threshold filter levels => solver Sails i (fun m => sails_make (e_trunc e) m verbose reuse sym load threshold filter levels)
  | LCG i iter tol verbose => solver CG i (fun m => cg_make m iter tol verbose)
  | LDiag i iter tol verbose => solver Diag i (fun m => diag_make m iter tol verbose)
  | LSmooth i type times weight omega => solver Smoother i (fun m => smoother_make (e_half e) (e_ratio e) m type times weight omega)
  | LBase i => solver Base i (fun m => sol_make m 0 s0 false FnNone FnNone FnNone FnNone)
  | LCopy i => o <- look os i ;; '(c, h) <- copy (e_reorder e) o h ;; made c h
  | LMove i => o <- look os i ;; let '((a, b), h) := move o h in os <- set os i (Some b) ;; Ok (os ++ [Some a], h)
  | LAssign i j =>
      t <- look os i ;; o <- look os j ;; '(c, h) <- copy (e_reorder e) o h ;;
      '(t, h) <- assign t c h ;; os <- set os i (Some t) ;; Ok (os, h)
  | LMoveAssign i j =>
      o <- look os j ;; let '((a, b), h) := move o h in os <- set os j (Some b) ;;
      t <- look os i ;; '(t, h) <- assign t a h ;; os <- set os i (Some t) ;; Ok (os, h)
  | LSwap i j =>
      a <- look os i ;; b <- look os j ;; '(a, b) <- swap a b ;;
      os <- set os i (Some a) ;; os <- set os j (Some b) ;; Ok (os, h)
  | LDestroy i => o <- look os i ;; h <- destroy o h ;; os <- set os i None ;; Ok (os, h)
  end.

Definition lrun (e : env) (ops : list lop) : res lstate := foldM (lstep e) ops ([], Heap [] 0).

End ParLife.
