(** What the theorems about ParMatrix::Transpose and RAP say: matrices distributed over ranks, and
    the contract of the communication packages of hypre. *)

From Coq Require Import ZArith List Bool.
From Verif Require Import Base Scalar Spec Dense Sparse Par ParSpec ParSplitProofs HypreSpec HypreTranspose.
Import ListNotations.
Open Scope Z_scope.

(** Two ranges [a, b) and [c, d) without a common index *)
Definition apart (a b c d : Z) : Prop := b <= c \/ d <= a.

(** st splits the indices 0 .. total-1 into n consecutive segments. *)
Definition segments (st : list Z) (n total : Z) : Prop :=
  zlen st = n + 1 /\ zn 0 st 0 = 0 /\ zn 0 st n = total /\ forall i, 0 <= i < n -> zn 0 st i <= zn 0 st (i + 1).

Definition no_pkg : commpkg := Pkg [] [] [] [] [].

Section HypreTransposeSpec.
Context {S : scalar}.

(** A matrix with M rows and N columns whose rows and whose columns are split over the ranks. *)
Record distributed (M N : Z) (As : list (parmat S)) : Prop := {
  ds_valid : forall r A, get As r = Ok A -> pm_valid A /\ pm_grows A = M /\ pm_gcols A = N;
  ds_rows : forall r q A B, r <> q -> get As r = Ok A -> get As q = Ok B -> apart (zn 0 (pm_rs A) 0) (zn 0 (pm_rs A) 1) (zn 0 (pm_rs B) 0) (zn 0 (pm_rs B) 1);
  ds_cols : forall r q A B, r <> q -> get As r = Ok A -> get As q = Ok B -> apart (zn 0 (pm_cs A) 0) (zn 0 (pm_cs A) 1) (zn 0 (pm_cs B) 0) (zn 0 (pm_cs B) 1)
}.

(** hypre_MatvecCommPkgCreate: on every rank the receive side splits the columns of the offd block
    into segments, one for each rank that owns columns of it, and the send side of such a rank has a
    segment with its local numbers of these columns. *)
Record packages (As : list (parmat S)) (ks : list commpkg) : Prop := {
  pk_len : zlen ks = zlen As;
  pk_recv : forall r A k, get As r = Ok A -> get ks r = Ok k -> NoDup (k_rp k) /\ segments (k_rs k) (zlen (k_rp k)) (zlen (pm_map A));
  pk_send : forall r A k, get As r = Ok A -> get ks r = Ok k -> NoDup (k_sp k) /\ segments (k_ss k) (zlen (k_sp k)) (zlen (k_se k)) /\
    forall j, 0 <= j < zlen (k_se k) -> 0 <= zn 0 (k_se k) j < pm_cols A;
  pk_from : forall r k i, get ks r = Ok k -> 0 <= i < zlen (k_rp k) -> exists kq, get ks (zn 0 (k_rp k) i) = Ok kq /\ In r (k_sp kq);
  pk_to : forall r k i, get ks r = Ok k -> 0 <= i < zlen (k_sp k) -> exists kq, get ks (zn 0 (k_sp k) i) = Ok kq /\ In r (k_rp kq);
  pk_match : forall r q A B kr kq i j, get As r = Ok A -> get As q = Ok B -> get ks r = Ok kr -> get ks q = Ok kq ->
    0 <= i < zlen (k_rp kr) -> zn 0 (k_rp kr) i = q -> 0 <= j < zlen (k_sp kq) -> zn 0 (k_sp kq) j = r ->
    zn 0 (k_rs kr) (i + 1) - zn 0 (k_rs kr) i = zn 0 (k_ss kq) (j + 1) - zn 0 (k_ss kq) j /\
    forall t, 0 <= t < zn 0 (k_rs kr) (i + 1) - zn 0 (k_rs kr) i ->
      zn 0 (pm_map A) (zn 0 (k_rs kr) i + t) = zn 0 (pm_cs B) 0 + zn 0 (k_se kq) (zn 0 (k_ss kq) j + t)
}.

(** hypre_ParCSRMatrixExtractBExt(B, A, 1) on all ranks gives the rows of B that the ranks need. *)
Definition extracts (extract : list (parmat S) -> list (parmat S) -> list (option (csr S))) : Prop :=
  forall L M N As Bs, distributed L M As -> distributed M N Bs -> zlen Bs = zlen As ->
  zlen (extract As Bs) = zlen As /\
  forall r A B ext, get As r = Ok A -> get Bs r = Ok B -> get (extract As Bs) r = Ok ext -> extracted (world_mat Bs) A B ext.

(** The ranks own the same rows, respectively the columns of one are the rows of the other. *)
Definition rows_rows (As Bs : list (parmat S)) : Prop := zlen Bs = zlen As /\ forall r A B, get As r = Ok A -> get Bs r = Ok B -> pm_rs A = pm_rs B.
Definition cols_rows (As Bs : list (parmat S)) : Prop := zlen Bs = zlen As /\ forall r A B, get As r = Ok A -> get Bs r = Ok B -> pm_cs A = pm_rs B.

End HypreTransposeSpec.
