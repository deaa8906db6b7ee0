(** Model of ParMatrix::MakeCommPkg and of modules/parlinalgcpp/src/parcommpkg.cpp: the
    communication package of hypre copied into std::vectors. *)

From Coq Require Import ZArith List Bool.
From Verif Require Import Base HypreTranspose.
Import ListNotations.
Open Scope Z_scope.

(** hypre_ParCSRCommPkg: the counters, and the memory that the pointers lead to (it may be longer
    than what is used). *)
Record hpkg : Type := HPkg {
  hp_sends : Z; hp_sp : list Z; hp_ss : list Z; hp_se : list Z;
  hp_recvs : Z; hp_rp : list Z; hp_rs : list Z
}.

(** hypre_ParCSRMatrix: comm_pkg, which may be null *)
Definition hmat : Type := option hpkg.

(** parcommpkg.hpp:20-50  ParCommPkg: num_sends_, num_recvs_ and the five arrays *)
Record ppkg : Type := PPkg { pk_sends : Z; pk_recvs : Z; pk_arrays : commpkg }.

(** v.resize(n); std::copy_n(src, n, std::begin(v)) *)
Definition copied (src : list Z) (n : Z) : res (list Z) :=
  v <- vec n 0 ;; for_ 0 n v (fun i v => x <- get src i ;; set v i x).

(** parcommpkg.cpp:6-33  ParCommPkg(const hypre_ParCSRMatrix* A): A->comm is read before A is
    compared with null *)
Definition comm_pkg (A : option hmat) : res ppkg :=
  match A with
  | None => Fail FUB
  | Some None => Fail FAssert
  | Some (Some k) =>
      sp <- copied (hp_sp k) (hp_sends k) ;;
      ss <- copied (hp_ss k) (hp_sends k + 1) ;;
      n <- get ss (zlen ss - 1) ;;
      se <- copied (hp_se k) n ;;
      rp <- copied (hp_rp k) (hp_recvs k) ;;
      rs <- copied (hp_rs k) (hp_recvs k + 1) ;;
      Ok (PPkg (hp_sends k) (hp_recvs k) (Pkg sp ss se rp rs))
  end.

(** parmatrix.cpp:347-352  MakeCommPkg *)
Definition make_comm_pkg (A : option hmat) : res ppkg :=
  assert_ (match A with Some _ => true | None => false end) ;;; comm_pkg A.
