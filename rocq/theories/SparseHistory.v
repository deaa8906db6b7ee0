(** Histories of SparseMatrix objects: a program holds any number of matrices and
    applies any finite sequence of member functions to them. *)

From Coq Require Import ZArith List Bool.
From Verif Require Import Base Scalar Spec Dense Sparse.
Import ListNotations.
Open Scope Z_scope.

Section History.
Context {S : scalar}.
Notation T := (car S).
Notation csr := (csr S).

(** The members of SparseMatrix that change the object they are called on. *)
Inductive inplace : Type :=
| ISort                                   (* SortIndices() *)
| IScale (v : T)                          (* A *= v *)
| IDiv (v : T)                            (* A /= v *)
| IFill (v : T)                           (* A = v *)
| IScaleRows (w : list T)
| IScaleCols (w : list T)
| IInvScaleRows (w : list T)
| IInvScaleCols (w : list T)
| IAddDiag (d : list T)
| IAddDiagVal (v : T)
| IPermuteCols (perm : list Z)
| IElimRowCol (k : Z)
| IElimRowColMarker (m : list bool)
| IElimRow (k : Z)
| IElimCol (k : Z)
| IElimColMarker (m : list bool)
| IElimColBc (m : list bool) (x b : list T)
| IElimZeros (tol : T).

Definition run_inplace (srt : sorter) (A : csr) (o : inplace) : res csr :=
  match o with
  | ISort => sp_sort srt A
  | IScale v => Ok (sp_scale A v)
  | IDiv v => sp_div A v
  | IFill v => sp_fill A v
  | IScaleRows w => sp_scale_rows A w
  | IScaleCols w => sp_scale_cols A w
  | IInvScaleRows w => sp_inv_scale_rows A w
  | IInvScaleCols w => sp_inv_scale_cols A w
  | IAddDiag d => sp_add_diag A d
  | IAddDiagVal v => sp_add_diag_val A v
  | IPermuteCols p => sp_permute_cols A p
  | IElimRowCol k => sp_elim_row_col A k
  | IElimRowColMarker m => sp_elim_row_col_marker A m
  | IElimRow k => sp_elim_row A k
  | IElimCol k => sp_elim_col A k
  | IElimColMarker m => sp_elim_col_marker A m
  | IElimColBc m x b => r <- sp_elim_col_bc A m x b ;; Ok (fst r)
  | IElimZeros tol => sp_elim_zeros A tol
  end.

(** One statement of a program; [dst], [src], ... name the program's matrices. *)
Inductive op : Type :=
| NewEmpty                                             (* SparseMatrix() *)
| NewZero (rows cols : Z)                              (* SparseMatrix(rows, cols) *)
| NewDiag (d : list T)                                 (* SparseMatrix(diag) *)
| NewCsr (ip ix : list Z) (d : list T) (rows cols : Z) (* the CSR constructor *)
| Copy (dst src : Z)                                   (* dst = src *)
| Move (dst src : Z)                                   (* dst = std::move(src): swap *)
| Swap (i j : Z)                                       (* swap(i, j) *)
| NewMove (src : Z)                                    (* SparseMatrix(std::move(src)) *)
| InPlace (dst : Z) (o : inplace)
| Transpose (dst src : Z)                              (* dst = src.Transpose() *)
| Product (dst a b : Z)                                (* dst = a.Mult(b) *)
| SubMatrix (dst src : Z) (rows cols marker : list Z). (* dst = src.GetSubMatrix(...) *)

(** sparsematrix.hpp:507-513 operator=(SparseMatrix other): copy-and-swap; an rvalue
    argument is moved into the parameter, so the source is left in the moved-from state. *)
Definition run_op (srt : sorter) (st : list csr) (o : op) : res (list csr) :=
  match o with
  | NewEmpty => Ok (st ++ [sp_empty])
  | NewZero r c => A <- sp_zero r c ;; Ok (st ++ [A])
  | NewDiag d => Ok (st ++ [sp_diag d])
  | NewCsr ip ix d r c => A <- sp_make ip ix d r c ;; Ok (st ++ [A])
  | Copy dst src => A <- get st src ;; set st dst A
  | Move dst src =>
      A <- get st src ;;
      let (N, O) := sp_move A in
      st <- set st src O ;; set st dst N
  | Swap i j =>
      A <- get st i ;; B <- get st j ;;
      let (A', B') := sp_swap A B in
      st <- set st i A' ;; set st j B'
  | NewMove src =>
      A <- get st src ;;
      let (N, O) := sp_move A in
      st <- set st src O ;; Ok (st ++ [N])
  | InPlace dst o => A <- get st dst ;; B <- run_inplace srt A o ;; set st dst B
  | Transpose dst src => A <- get st src ;; B <- sp_transpose A ;; set st dst B
  | Product dst a b => A <- get st a ;; B <- get st b ;; C <- sp_spmult A B ;; set st dst C
  | SubMatrix dst src rows cols marker =>
      A <- get st src ;; r <- sp_submatrix A rows cols marker ;; set st dst (fst r)
  end.

Definition run (srt : sorter) (ops : list op) (st : list csr) : res (list csr) :=
  foldM (run_op srt) ops st.

(** The arguments of the constructors are those of a matrix. *)
Definition op_args_ok (o : op) : Prop :=
  match o with
  | NewCsr ip ix d r c => csr_valid (CSR r c ip ix d)
  | _ => True
  end.

(** A program without moves. *)
Definition no_move (o : op) : Prop :=
  match o with Move _ _ | NewMove _ => False | _ => True end.

(** The state of a moved-from object: 0 x 0 and no arrays. *)
Definition moved_from (A : csr) : Prop := A = CSR 0 0 [] [] [].

End History.

Arguments inplace S : clear implicits.
Arguments op S : clear implicits.
