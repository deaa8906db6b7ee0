(** What the theorems about the parallel matrix product say: the contracts of the hypre functions
    it calls, and the product of one rank with a global matrix. *)

From Coq Require Import ZArith List Bool.
From Verif Require Import Base Scalar Spec Dense Sparse Par ParSpec.
Import ListNotations.
Open Scope Z_scope.

(** Strictly increasing lists *)
Definition increasing (l : list Z) : Prop := forall i j, 0 <= i < j -> j < zlen l -> zn 0 l i < zn 0 l j.

(** hypre_BinarySearch(list, value, length) finds the position of a value that occurs in a
    strictly increasing list. *)
Definition finds (bsearch : list Z -> Z -> Z -> Z) : Prop :=
  forall l k, increasing l -> 0 <= k < zlen l -> bsearch l (zn 0 l k) (zlen l) = k.

Section HypreSpec.
Context {S : scalar}.

(** hypre_ParCSRMatrixExtractBExt(B, A, 1) with several processes: row k holds, with global
    columns, the row of the global matrix G of B that column k of the offd block of A refers to.
    With one process it is not called, and no column of A belongs to another process. *)
Definition extracted (G : mat S) (A B : parmat S) (ext : option (csr S)) : Prop :=
  match ext with
  | None => pm_map A = []
  | Some e => csr_valid e /\ c_rows e = zlen (pm_map A) /\ c_cols e = pm_gcols B /\
      forall k j, 0 <= k < zlen (pm_map A) -> csr_mat e k j = G (zn 0 (pm_map A) k) j
  end.

End HypreSpec.
