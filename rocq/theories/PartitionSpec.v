(** What C53 and C54 mean, independently of the code. *)

From Coq Require Import ZArith List Bool.
From Verif Require Import Base Scalar Spec.
Import ListNotations.
Open Scope Z_scope.

(** The labels in use are exactly 0, 1, ..., k-1. *)
Definition labels_are (part : list Z) (k : Z) : Prop := forall l, In l part <-> 0 <= l < k.

(** [new] puts the same vertices together and keeps the order of the labels. *)
Definition same_partition (old new : list Z) : Prop :=
  zlen new = zlen old /\
  forall u v, 0 <= u < zlen old -> 0 <= v < zlen old ->
    (zn 0 new u = zn 0 new v <-> zn 0 old u = zn 0 old v) /\
    (zn 0 new u < zn 0 new v <-> zn 0 old u < zn 0 old v).

(** Number of distinct labels. *)
Definition distinct (part : list Z) : Z := zlen (nodup Z.eq_dec part).

Section Graph.
Context {S : scalar}.

(** The stored entries off the diagonal, in order, with the given weights. *)
Definition off_diagonal (weight : car S -> Z) (A : csr S) : list (entry Zs) :=
  map (fun e => ((erow e, ecol e), weight (evalue e))) (filter (fun e => negb (erow e =? ecol e)) (entries A)).

(** (xadj, adjncy, adjwgt) is a valid adjacency structure on n vertices that lists exactly
    the given edges in order. *)
Definition adjacency (n : Z) (g : list Z * list Z * list Z) (edges : list (entry Zs)) : Prop :=
  let '(xadj, adjncy, adjwgt) := g in
  let G := @CSR Zs n n xadj adjncy adjwgt in
  csr_valid G /\ entries G = edges.

End Graph.
