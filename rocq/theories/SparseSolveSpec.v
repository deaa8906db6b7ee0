(** What C64 and C66 mean, independently of the code. *)

From Coq Require Import ZArith List Bool.
From Verif Require Import Base Scalar Spec SparseSolve.
Import ListNotations.
Open Scope Z_scope.

Section Spec.
Context {S : scalar}.
Notation T := (car S).

(** x solves M x = b, M of size n. *)
Definition solves (n : Z) (M : mat S) (x b : list T) : Prop :=
  zlen x = n /\ forall i, 0 <= i < n -> mat_vec M n (vec_of x) i = zn s0 b i.

(** The matrix of which the arrays are the compressed columns. *)
Definition csc_mat (G : csr S) : mat S := fun i j => csr_mat G j i.

(** The UMFPACK manual: if the columns are sorted and without duplicates and the factorisation
    reported no error, the solves with A and with A^T succeed. *)
Definition umfpack_ok (U : umfpack (S := S)) : Prop :=
  forall G, csr_valid G -> c_rows G = c_cols G -> rows_sorted G -> no_dup_coords (entries G) -> umf_factor U G = true ->
  forall b, zlen b = c_rows G ->
    (exists x, umf_solve U UMF_A G b = Some x /\ solves (c_rows G) (csc_mat G) x b) /\
    (exists x, umf_solve U UMF_At G b = Some x /\ solves (c_rows G) (mat_T (csc_mat G)) x b).

(** Operations that do not leave an uninitialised pointer: no moves. *)
Definition no_move (op : sop (S := S)) : Prop :=
  match op with SMove _ | SMoveAssign _ _ => False | _ => True end.

(** Every matrix given to a solver is valid, has a stored entry and none twice. *)
Definition proper (op : sop (S := S)) : Prop :=
  match op with SNew A => csr_valid A /\ 0 < nnz A /\ no_dup_coords (entries A) | SDefault => False | _ => True end.

(** The objects an operation names are alive. *)
Definition scoped (os : list (option (solver (S := S)))) (op : sop (S := S)) : Prop :=
  match op with
  | SNew _ | SDefault => True
  | SCopy i | SMove i | SDestroy i => exists s, obj os i = Ok s
  | SAssign i j | SMoveAssign i j | SSwap i j => (exists s, obj os i = Ok s) /\ (exists s, obj os j = Ok s)
  end.

(** The matrices the objects stand for, as values: what copies, assignments and swaps of plain
    values would give. *)
Definition vstep (vs : list (option (csr S))) (op : sop (S := S)) : list (option (csr S)) :=
  match op with
  | SNew A => vs ++ [Some A]
  | SDefault => vs ++ [Some (CSR 0 0 [0] [] [])]
  | SCopy i => vs ++ [zn None vs i]
  | SMove i => upd vs (Z.to_nat i) None ++ [zn None vs i]
  | SAssign i j => upd vs (Z.to_nat i) (zn None vs j)
  | SMoveAssign i j => upd (upd vs (Z.to_nat j) None) (Z.to_nat i) (zn None vs j)
  | SSwap i j => upd (upd vs (Z.to_nat i) (zn None vs j)) (Z.to_nat j) (zn None vs i)
  | SDestroy i => upd vs (Z.to_nat i) None
  end.
Definition vrun (ops : list (sop (S := S))) : list (option (csr S)) := fold_left vstep ops [].

(** Factorisations not freed. *)
Definition alive (h : heap (S := S)) : list (csr S) := flat_map (fun o => match o with Some F => [F] | None => [] end) h.

(** Objects not destroyed. *)
Definition objects (os : list (option (solver (S := S)))) : list (csr S) :=
  flat_map (fun o => match o with Some s => [ss_A s] | None => [] end) os.

End Spec.
