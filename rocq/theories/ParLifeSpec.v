(** What the theorems about the life of parallel objects say. *)

From Coq Require Import ZArith List Bool.
From Verif Require Import Base Scalar Spec Dense Sparse Par HypreNorms ParLife.
Import ListNotations.
Open Scope Z_scope.

Section ParLifeSpec.
Context {S : scalar}.
Notation T := (car S).

(** Object i is a square distributed matrix (not a default constructed or moved-from one). *)
Definition square (os : list (option (obj (S := S)))) (i : Z) : Prop :=
  exists m, look_mat os i = Ok m /\ mo_A m <> Null /\ op_rows (mo_op m) = op_cols (mo_op m) /\ pm_grows (mo_val m) = pm_gcols (mo_val m).

(** Objects whose copy constructor is defined: not a vector without partition, not a ParaSails, not a
    smoother without matrix. *)
Definition copyable (o : obj (S := S)) : Prop :=
  match o with
  | OMat _ => True
  | OVec v => vo_p v <> Null
  | OSol Sails s => so_solver s = Null
  | OSol Smoother s => sm_shell (so_smooth s) <> Null
  | OSol _ _ => True
  end.

(** Objects whose move constructor leaves the source in a valid state: not ParSolver itself, not
    ParSmoother. *)
Definition movable (o : obj (S := S)) : Prop :=
  match o with OSol Base _ | OSol Smoother _ => False | _ => True end.

(** Two living objects of the same class *)
Definition alike (os : list (option (obj (S := S)))) (i j : Z) : Prop :=
  match look os i, look os j with
  | Ok (OMat _), Ok (OMat _) | Ok (OVec _), Ok (OVec _) => True
  | Ok (OSol c _), Ok (OSol d _) => c = d
  | _, _ => False
  end.

(** Operations on living objects whose arguments pass the checks of the constructors, and that avoid
    the copies and moves excluded above. *)
Definition allowed (e : env (S := S)) (os : list (option (obj (S := S)))) (op : lop (S := S)) : Prop :=
  match op with
  | LMat rs cs diag offd col_map => exists A, pm_make (fun d => d) rs cs diag offd col_map = Ok A
  | LVec l part => exists n, pv_init (zlen l) part = Ok n
  | LMat0 | LVec0 | LSol0 _ => True
  | LAMG i _ _ _ | LSails i _ _ _ _ _ _ _ | LCG i _ _ _ | LDiag i _ _ _ | LBase i => square os i
  | LSmooth i type _ _ _ =>
      square os i /\ forall m, look_mat os i = Ok m -> exists r, l1_norms (e_half e) (e_ratio e) type (pm_copy (e_reorder e) (mo_val m)) [] = Ok r
  | LCopy i => exists o, look os i = Ok o /\ copyable o
  | LMove i => exists o, look os i = Ok o /\ movable o
  | LAssign i j => alike os i j /\ forall o, look os j = Ok o -> copyable o
  | LMoveAssign i j => alike os i j /\ forall o, look os j = Ok o -> movable o
  | LSwap i j => alike os i j
  | LDestroy i => exists o, look os i = Ok o
  end.

(** The states that such operations reach *)
Inductive reach (e : env (S := S)) : lstate (S := S) -> Prop :=
| reach_start : reach e ([], Heap [] 0)
| reach_step : forall st op st', reach e st -> allowed e (fst st) op -> lstep e st op = Ok st' -> reach e st'.

(** The object that object k is after the operation: [Some j] if it is object j of the n objects
    before it, unchanged or moved; [None] if it is a new one, a moved-from one or destroyed. *)
Definition from (op : lop (S := S)) (n k : Z) : option Z :=
  match op with
  | LMove i => if k =? n then Some i else if k =? i then None else Some k
  | LDestroy i | LAssign i _ => if k =? i then None else Some k
  | LMoveAssign i j => if k =? i then Some j else if k =? j then None else Some k
  | LSwap i j => if k =? i then Some j else if k =? j then Some i else Some k
  | _ => if k <? n then Some k else None
  end.

(** What the user gets from an object: the matrix or vector hypre sees, or, for a solver, what Mult
    asks hypre to compute. *)
Inductive seen : Type := SeenMat (A : parmat S) | SeenVec (l : list T) | SeenReq (r : request (S := S)).

Definition observe (o : obj (S := S)) (h : heap (S := S)) (b x : list T) : res seen :=
  match o with
  | OMat m => A <- mat_deref h m ;; Ok (SeenMat A)
  | OVec v => l <- vec_deref h v ;; Ok (SeenVec l)
  | OSol c s => r <- sol_mult c s h b x ;; Ok (SeenReq r)
  end.

(** An object as its default constructor makes it: it holds nothing of hypre. *)
Definition empty (o : obj (S := S)) : Prop :=
  match o with
  | OMat m => mo_A m = Null /\ op_x (mo_op m) = Null /\ op_b (mo_op m) = Null /\ op_rows (mo_op m) = 0 /\ op_cols (mo_op m) = 0
  | OVec v => vo_p v = Null /\ b_val (vo_data v) = []
  | OSol _ s => so_solver s = Null /\ mo_A (so_A s) = Null /\ op_x (so_op s) = Null /\ op_b (so_op s) = Null /\ sm_shell (so_smooth s) = Null
  end.

(** Objects of the same class *)
Definition same_class (a b : obj (S := S)) : Prop :=
  match a, b with OMat _, OMat _ | OVec _, OVec _ => True | OSol c _, OSol d _ => c = d | _, _ => False end.

(** What a copy of a solver asks for, given what the original asks for: the same for the diagonal
    scaling and the smoother; a conjugate gradient solver without any of the parameters or the
    preconditioner; nothing defined for the others. *)
Definition copied (reorder : csr S -> csr S) (c : class) (r : request (S := S)) : res (request (S := S)) :=
  match r with
  | ReqNone => Ok ReqNone
  | ReqDiag A b => Ok (ReqDiag (pm_copy reorder A) b)
  | ReqRelax type times norms weight omega A b x => Ok (ReqRelax type times norms weight omega (pm_copy reorder A) b x)
  | ReqSolve t A b =>
      match c with
      | CG => Ok (ReqSolve (HSol (hs_kind t) [] (Some (pm_copy reorder A)) None) (pm_copy reorder A) b)
      | _ => Fail FUB
      end
  end.

End ParLifeSpec.
