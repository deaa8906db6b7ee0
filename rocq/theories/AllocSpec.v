(** What a user may expect of a call when memory runs out (C105). *)

From Coq Require Import ZArith List Bool.
From Verif Require Import Base Scalar Spec Dense Sparse Coo Alloc.
Import ListNotations.
Open Scope Z_scope.

(** Every request is met. *)
Definition ample (m : memory) : Prop := forall n, m n = true.

(** The call either does what [f] does, or throws std::bad_alloc and has changed nothing; with enough memory it
    does not throw. *)
Definition all_or_nothing {St : Type} (x : act St unit) (f : St -> res St) : Prop :=
  (forall m n s, match x m n s with
                 | Done _ s' _ => f s = Ok s'
                 | BadAlloc s' _ => s' = s
                 | Failed e => f s = Fail e
                 | Terminated => False
                 end) /\
  (forall m n s s' n', ample m -> x m n s <> BadAlloc s' n').

(** A program that makes the calls one after the other and catches std::bad_alloc at each; the flags say which
    calls returned. *)
Fixpoint run_caught {St : Type} (calls : list (act St unit)) (m : memory) (n : nat) (s : St) : outcome St (list bool) :=
  match calls with
  | [] => Done [] s n
  | x :: calls =>
      match x m n s with
      | Done _ s n => match run_caught calls m n s with Done l s n => Done (true :: l) s n | o => o end
      | BadAlloc s n => match run_caught calls m n s with Done l s n => Done (false :: l) s n | o => o end
      | Failed e => Failed e
      | Terminated => Terminated
      end
  end.

(** The elements whose flag is set. *)
Fixpoint chosen {X : Type} (l : list X) (flags : list bool) : list X :=
  match l, flags with
  | x :: l, true :: flags => x :: chosen l flags
  | _ :: l, false :: flags => chosen l flags
  | _, _ => []
  end.

Section AllocSpec.
Context {S : scalar}.
Notation T := (car S).

(** The members that change a SparseMatrix, as the user calls them. *)
Inductive edit : Type :=
  | ESort | EZeros (tol : T) | EScale (v : T) | EDiv (v : T) | EFill (v : T) | EAddDiag (l : list T) | EAddDiagVal (v : T)
  | EScaleRows (l : list T) | EScaleCols (l : list T) | EInvScaleRows (l : list T) | EInvScaleCols (l : list T)
  | EPermuteCols (p : list Z) | ERowCol (i : Z) | ERow (i : Z) | ECol (i : Z)
  | ERowColMarker (b : list bool) | EColMarker (b : list bool).

(** What each does if memory suffices (Sparse.v) ... *)
Definition edited (srt : sorter) (A : csr S) (e : edit) : res (csr S) :=
  match e with
  | ESort => sp_sort srt A | EZeros tol => sp_elim_zeros A tol
  | EScale v => Ok (sp_scale A v) | EDiv v => sp_div A v | EFill v => sp_fill A v 
  | EAddDiag l => sp_add_diag A l | EAddDiagVal v => sp_add_diag_val A v
  | EScaleRows l => sp_scale_rows A l | EScaleCols l => sp_scale_cols A l
  | EInvScaleRows l => sp_inv_scale_rows A l | EInvScaleCols l => sp_inv_scale_cols A l
  | EPermuteCols p => sp_permute_cols A p
  | ERowCol i => sp_elim_row_col A i | ERow i => sp_elim_row A i | ECol i => sp_elim_col A i
  | ERowColMarker b => sp_elim_row_col_marker A b | EColMarker b => sp_elim_col_marker A b
  end.

(** ... and the call with its requests for memory (Alloc.v). *)
Definition call_of (srt : sorter) (e : edit) : act (csr S) unit :=
  match e with
  | ESort => a_sort srt | EZeros tol => a_elim_zeros tol
  | e => a_in_place (fun A => edited srt A e)
  end.

(** What Add(rows, cols, values) appends: column by column. *)
Definition block_entries (rows cols : list Z) (f : T -> T) (values : dense S) : list (entry S) :=
  flat_map (fun j => map (fun i => (zn 0 rows i, zn 0 cols j, f (dense_mat values i j))) (zrange 0 (d_rows values)))
           (zrange 0 (d_cols values)).

(** The matrix with the entries [es] added at the end. *)
Definition append (M : coo S) (es : list (entry S)) : coo S := Coo (o_rows M) (o_cols M) (o_set M) (o_entries M ++ es).

(** A function that sizes its output argument before it uses it. *)
Definition sizes_output (rows cols : Z) (f : dense S -> res (dense S)) : Prop :=
  forall out, f out = (out <- d_set_size out rows cols ;; f out).

(** What is promised of a call with a DenseMatrix as output argument, f the same without failing requests: an
    output that is left sized rows x cols with the elements it had. *)
Definition output_call (rows cols : Z) (f : dense S -> res (dense S)) (a : act (dense S) unit) : Prop :=
  forall (m : memory) (n : nat) (D : dense S),
  match a m n D with
  | Done _ D' _ => f D = Ok D'
  | BadAlloc D' n' => d_rows D' = rows /\ d_cols D' = cols /\ d_data D' = d_data D /\ f D' = f D
  | Failed e => f D = Fail e
  | Terminated => False
  end.

End AllocSpec.
