(** Writing into a SparseMatrix through the references and views it hands out. *)

From Coq Require Import ZArith List Bool.
From Verif Require Import Base Scalar Spec Sparse.
Import ListNotations.
Open Scope Z_scope.

Section Access.
Context {S : scalar}.

(** vectorview.hpp:25-26 and 203-208  VectorView(T* data, int size), for a view of part of a matrix's
    index array.  Simplified: the pointer is the offset from the start of the array; that the pointer
    is not null when the size is positive holds by itself, a vector with elements has storage. *)
Definition ind_view : Type := (Z * Z)%type.

(** sparsematrix.hpp:972-985 and 987-1000  GetIndicesView(int row); the two forms have the same body *)
Definition sp_indices_view (A : csr S) (row : Z) : res ind_view :=
  'tt <- assert_ ((0 <=? row) && (row <? c_rows A)) ;;
  'start <- get (c_ptr A) row ;;
  'end_ <- get (c_ptr A) (row + 1) ;;
  let size := end_ - start in
  'tt <- assert_ (0 <=? size) ;;
  Ok (start, size).

(** vectorview.hpp:335-339  size() of such a view *)
Definition iv_size (w : ind_view) : Z := snd w.

(** vectorview.hpp:326-332  operator[] const, through a view of A: only the upper bound is asserted *)
Definition iv_read (A : csr S) (w : ind_view) (i : Z) : res Z :=
  'tt <- assert_ (i <? snd w) ;; get (c_idx A) (fst w + i).

(** vectorview.hpp:318-324  operator[], assigned to: only the upper bound is asserted *)
Definition iv_write (A : csr S) (w : ind_view) (i c : Z) : res (csr S) :=
  'tt <- assert_ (i <? snd w) ;;
  'l <- set (c_idx A) (fst w + i) c ;;
  Ok (CSR (c_rows A) (c_cols A) (c_ptr A) l (c_val A)).

(** sparsematrix.hpp:946-950  GetIndices()[k] = c *)
Definition sp_set_index (A : csr S) (k c : Z) : res (csr S) :=
  'l <- set (c_idx A) k c ;; Ok (CSR (c_rows A) (c_cols A) (c_ptr A) l (c_val A)).

(** sparsematrix.hpp:953-957  GetData()[k] = v *)
Definition sp_set_value (A : csr S) (k : Z) (v : car S) : res (csr S) :=
  'l <- set (c_val A) k v ;; Ok (CSR (c_rows A) (c_cols A) (c_ptr A) (c_idx A) l).

(** One assignment in a user's program: A.GetIndicesView(row)[i] = c, A.GetIndices()[k] = c,
    A.GetData()[k] = v.  sparsematrix.hpp:946-1000 *)
Inductive assignment : Type :=
| ThroughView (row i c : Z)
| ToIndices (k c : Z)
| ToData (k : Z) (v : car S).

(** Carries one out.  sparsematrix.hpp:946-1000 *)
Definition assign (A : csr S) (p : assignment) : res (csr S) :=
  match p with
  | ThroughView row i c => 'w <- sp_indices_view A row ;; iv_write A w i c
  | ToIndices k c => sp_set_index A k c
  | ToData k v => sp_set_value A k v
  end.

(** Carries out a sequence of them.  sparsematrix.hpp:946-1000 *)
Definition assign_all (A : csr S) (ps : list assignment) : res (csr S) := foldM assign ps A.

End Access.
Arguments assignment : clear implicits.
