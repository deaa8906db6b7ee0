(** What C98 says: hypre's package in memory, and what arrives when the ranks exchange elements. *)

From Coq Require Import ZArith List Bool.
From Verif Require Import Base HypreTranspose CommPkg.
Import ListNotations.
Open Scope Z_scope.

(** [l] is what n used elements of [mem] hold. *)
Definition used (mem : list Z) (n : Z) (l : list Z) : Prop := zlen l = n /\ exists rest, mem = l ++ rest.

(** The memory of hypre holds the package k. *)
Definition stores (h : hpkg) (k : commpkg) : Prop :=
  hp_sends h = zlen (k_sp k) /\ used (hp_sp h) (zlen (k_sp k)) (k_sp k) /\ used (hp_ss h) (zlen (k_sp k) + 1) (k_ss k) /\
  used (hp_se h) (zn 0 (k_ss k) (zlen (k_sp k))) (k_se k) /\
  hp_recvs h = zlen (k_rp k) /\ used (hp_rp h) (zlen (k_rp k)) (k_rp k) /\ used (hp_rs h) (zlen (k_rp k) + 1) (k_rs k).

(** Every rank q sends to its j-th send process the elements of its vector that segment j of the
    send side lists; rank r puts what comes from its i-th receive process into segment i of the
    receive side.  [v] arrives at position c of rank r. *)
Definition arrives {V} (ks : list commpkg) (xs : list (list V)) (r c : Z) (v : V) : Prop :=
  exists kr i kq j xq,
    get ks r = Ok kr /\ 0 <= i < zlen (k_rp kr) /\ zn 0 (k_rs kr) i <= c < zn 0 (k_rs kr) (i + 1) /\
    get ks (zn 0 (k_rp kr) i) = Ok kq /\ 0 <= j < zlen (k_sp kq) /\ zn 0 (k_sp kq) j = r /\
    get xs (zn 0 (k_rp kr) i) = Ok xq /\ get xq (zn 0 (k_se kq) (zn 0 (k_ss kq) j + (c - zn 0 (k_rs kr) i))) = Ok v.
