(** Copy, move, assignment and swap of the matrix and solver classes, member by member.

    An object is the tuple of its members.  std::vector members own their elements, so copying one
    copies the elements and std::swap exchanges the contents.  A member that a constructor leaves
    uninitialised is [None]; exchanging it is taken as harmless (the standard is stricter), reading
    it to decide something is [FUB].  Pointers to operators are numbers. *)

From Coq Require Import ZArith List Bool.
From Verif Require Import Base Scalar Spec Dense Sparse Coo Lil Block.
Import ListNotations.
Open Scope Z_scope.

(** A class: the members at the start of the body of the move constructor, the copy constructor,
    swap(lhs, rhs) and whether there is an operator= *)
Record class (O : Type) : Type := Class {
  k_fresh : O;
  k_copy : O -> res O;
  k_swap : O -> O -> O * O
}.
Arguments k_fresh {O}. Arguments k_copy {O}. Arguments k_swap {O}.

(** Operations on the objects of a class; any other member function is [LSet]: it leaves the object
    with other members. *)
Inductive lop (O : Type) : Type :=
| LCopy (y : Z)              (* O z(y) *)
| LMove (y : Z)              (* O z(std::move(y)) *)
| LAssign (x y : Z)          (* x = y *)
| LMoveAssign (x y : Z)      (* x = std::move(y) *)
| LSwap (x y : Z)            (* swap(x, y) *)
| LSet (x : Z) (o : O).
Arguments LCopy {O}. Arguments LMove {O}. Arguments LAssign {O}. Arguments LMoveAssign {O}. Arguments LSwap {O}. Arguments LSet {O}.

(** O(O&& other) { swap( *this, other); }  (sparsematrix.hpp:501-505, coomatrix.hpp:282-286,
    lilmatrix.hpp:208-212, densematrix.cpp:60-63, blockmatrix.hpp:148-152, blockvector.hpp:102-106,
    blockoperator.cpp:40-43, solvers.cpp:122-125, 260-263, 404-407): the new object and the source *)
Definition move_ctor {O} (K : class O) (o : O) : O * O := k_swap K (k_fresh K) o.

(** O& operator=(O other) { swap( *this, other); return *this; }  (sparsematrix.hpp:507-513,
    coomatrix.hpp:288-294, lilmatrix.hpp:214-220, densematrix.cpp:65-70, blockmatrix.hpp:154-160,
    blockvector.hpp:108-114, solvers.cpp:127-132, 265-270, 409-414) *)
Definition assign_by {O} (K : class O) (this other : O) : O := fst (k_swap K this other).

Definition lstep {O} (K : class O) (st : list O) (p : lop O) : res (list O) :=
  match p with
  | LCopy y => o <- get st y ;; c <- k_copy K o ;; Ok (st ++ [c])
  | LMove y => o <- get st y ;; let (n, o') := move_ctor K o in st <- set st y o' ;; Ok (st ++ [n])
  | LAssign x y => o <- get st y ;; other <- k_copy K o ;; this <- get st x ;; set st x (assign_by K this other)
  | LMoveAssign x y =>
      o <- get st y ;; let (other, o') := move_ctor K o in st <- set st y o' ;;
      this <- get st x ;; set st x (assign_by K this other)
  | LSwap x y => a <- get st x ;; b <- get st y ;; let (a', b') := k_swap K a b in st <- set st x a' ;; set st y b'
  | LSet x o => set st x o
  end.

Definition lrun {O} (K : class O) (st : list O) (ps : list (lop O)) : res (list O) := foldM (lstep K) ps st.

(** operator.cpp:25-30  Operator(const Operator&) *)
Definition op_copy (rows cols : Z) : res unit := assert_ (0 <=? rows) ;;; assert_ (0 <=? cols).

Section Classes.
Context {S : scalar}.
Notation T := (car S).

(** sparsematrix.hpp:494-523 *)
Definition sp_class : class (csr S) := {|
  k_fresh := CSR 0 0 [] [] [];
  k_copy := fun o => op_copy (c_rows o) (c_cols o) ;;; Ok (CSR (c_rows o) (c_cols o) (c_ptr o) (c_idx o) (c_val o));
  k_swap := fun a b => (CSR (c_rows b) (c_cols b) (c_ptr b) (c_idx b) (c_val b), CSR (c_rows a) (c_cols a) (c_ptr a) (c_idx a) (c_val a))
|}.

(** densematrix.cpp:55-77 *)
Definition d_class : class (dense S) := {|
  k_fresh := Dense 0 0 [];
  k_copy := fun o => op_copy (d_rows o) (d_cols o) ;;; Ok (Dense (d_rows o) (d_cols o) (d_data o));
  k_swap := fun a b => (Dense (d_rows b) (d_cols b) (d_data b), Dense (d_rows a) (d_cols a) (d_data a))
|}.

(** The members of a CooMatrix: rows_, cols_, size_set_, entries_ *)
Record cobj : Type := CObj { co_rows : Z; co_cols : Z; co_set : option bool; co_entries : list (entry S) }.

(** coomatrix.hpp:275-303 *)
Definition coo_class : class cobj := {|
  k_fresh := CObj 0 0 None [];
  k_copy := fun o => op_copy (co_rows o) (co_cols o) ;;; Ok (CObj (co_rows o) (co_cols o) (co_set o) (co_entries o));
  k_swap := fun a b => (CObj (co_rows b) (co_cols b) (co_set b) (co_entries b), CObj (co_rows a) (co_cols a) (co_set a) (co_entries a))
|}.

Definition of_coo (M : coo S) : cobj := CObj (Coo.o_rows M) (Coo.o_cols M) (Some (o_set M)) (o_entries M).

(** The members as the CooMatrix that Rows, Cols, ToSparse, ToDense, Mult, ... work on: they start with
    FindSize, which reads size_set_ (coomatrix.hpp:703-724) *)
Definition coo_use (o : cobj) : res (coo S) :=
  match co_set o with Some b => Ok (Coo (co_rows o) (co_cols o) b (co_entries o)) | None => Fail FUB end.

(** coomatrix.hpp:305-315  SetSize *)
Definition coo_use_set_size (o : cobj) (rows cols : Z) : res cobj :=
  assert_ (0 <=? rows) ;;; assert_ (0 <=? cols) ;;; Ok (CObj rows cols (Some true) (co_entries o)).

(** The members of a LilMatrix *)
Record lobj : Type := LObj { lo_rows : Z; lo_cols : Z; lo_set : option bool; lo_lists : list (list (Z * T)) }.

(** lilmatrix.hpp:200-229 *)
Definition lil_class : class lobj := {|
  k_fresh := LObj 0 0 None [];
  k_copy := fun o => op_copy (lo_rows o) (lo_cols o) ;;; Ok (LObj (lo_rows o) (lo_cols o) (lo_set o) (lo_lists o));
  k_swap := fun a b => (LObj (lo_rows b) (lo_cols b) (lo_set b) (lo_lists b), LObj (lo_rows a) (lo_cols a) (lo_set a) (lo_lists a))
|}.

Definition of_lil (M : lil S) : lobj := LObj (l_rows M) (l_cols M) (Some (l_set M)) (l_lists M).

(** lilmatrix.hpp:495-515 FindSize reads size_set_ *)
Definition lil_use (o : lobj) : res (lil S) :=
  match lo_set o with Some b => Ok (Lil (lo_rows o) (lo_cols o) b (lo_lists o)) | None => Fail FUB end.

(** blockmatrix.hpp:140-170 *)
Definition bm_class : class (bmat S) := {|
  k_fresh := BMat 0 0 [] [] [];
  k_copy := fun o => op_copy (bm_rows o) (bm_cols o) ;;; Ok (BMat (bm_rows o) (bm_cols o) (bm_ro o) (bm_co o) (bm_A o));
  k_swap := fun a b => (BMat (bm_rows b) (bm_cols b) (bm_ro b) (bm_co b) (bm_A b), BMat (bm_rows a) (bm_cols a) (bm_ro a) (bm_co a) (bm_A a))
|}.

(** A BlockVector: the elements (Vector<T>, see Vec.v for its storage) and offsets_ *)
Record bvec : Type := BVec { bv_data : list T; bv_offs : list Z }.

(** blockvector.hpp:95-122 *)
Definition bv_class : class bvec := {|
  k_fresh := BVec [] [];
  k_copy := fun o => Ok (BVec (bv_data o) (bv_offs o));
  k_swap := fun a b => (BVec (bv_data b) (bv_offs b), BVec (bv_data a) (bv_offs a))
|}.

(** The members of a BlockOperator; A_ holds pointers to operators, nullptr is [None] *)
Record bobj : Type := BObj {
  bo_rows_ : Z; bo_cols_ : Z; bo_ro_ : list Z; bo_co_ : list Z; bo_A_ : list (list (option Z));
  bo_x_ : bvec; bo_y_ : bvec; bo_tmp_ : list T }.

(** blockoperator.cpp:32-54: tmp_ is neither copied nor exchanged *)
Definition bo_class : class bobj := {|
  k_fresh := BObj 0 0 [] [] [] (BVec [] [0]) (BVec [] [0]) [];
  k_copy := fun o => op_copy (bo_rows_ o) (bo_cols_ o) ;;;
    Ok (BObj (bo_rows_ o) (bo_cols_ o) (bo_ro_ o) (bo_co_ o) (bo_A_ o) (bo_x_ o) (bo_y_ o) []);
  k_swap := fun a b =>
    let (ax, bx) := k_swap bv_class (bo_x_ a) (bo_x_ b) in
    let (ay, by_) := k_swap bv_class (bo_y_ a) (bo_y_ b) in
    (BObj (bo_rows_ b) (bo_cols_ b) (bo_ro_ b) (bo_co_ b) (bo_A_ b) ax ay (bo_tmp_ a),
     BObj (bo_rows_ a) (bo_cols_ a) (bo_ro_ a) (bo_co_ a) (bo_A_ a) bx by_ (bo_tmp_ b))
|}.

(** The members of a Solver (solvers.hpp:78-88); the functions that Dot_ may point to are numbers *)
Record sobj : Type := SObj {
  so_rows : Z; so_cols : Z; so_A : option Z; so_max : Z; so_verbose : bool; so_rel : T; so_abs : T; so_dot : option Z; so_num : Z }.

(** solvers.cpp:6-11  Solver() *)
Definition so_new : sobj := SObj 0 0 None 0 false s0 s0 None 0.

(** solvers.hpp:21  Solver(const Solver&) = default *)
Definition so_copy (o : sobj) : res sobj :=
  op_copy (so_rows o) (so_cols o) ;;;
  Ok (SObj (so_rows o) (so_cols o) (so_A o) (so_max o) (so_verbose o) (so_rel o) (so_abs o) (so_dot o) (so_num o)).

(** solvers.cpp:26-37  swap(Solver&, Solver&) *)
Definition so_swap (a b : sobj) : sobj * sobj :=
  (SObj (so_rows b) (so_cols b) (so_A b) (so_max b) (so_verbose b) (so_rel b) (so_abs b) (so_dot b) (so_num b),
   SObj (so_rows a) (so_cols a) (so_A a) (so_max a) (so_verbose a) (so_rel a) (so_abs a) (so_dot a) (so_num a)).

(** PCGSolver, MINRESSolver and PMINRESSolver: the base, the pointer M_ ([None]: uninitialised, not a
    member of MINRESSolver) and the work vectors *)
Record pcgobj : Type := PcgObj { pg_base : sobj; pg_M : option (option Z); pg_Ap : list T; pg_r : list T; pg_p : list T; pg_z : list T }.
Record mrobj : Type := MrObj { mr_base : sobj; mr_w0 : list T; mr_w1 : list T; mr_v0 : list T; mr_v1 : list T; mr_q : list T }.
Record pmrobj : Type := PmrObj { pm_base : sobj; pm_M : option (option Z); pm_w0 : list T; pm_w1 : list T; pm_v0 : list T; pm_v1 : list T; pm_u1 : list T; pm_q : list T }.

(** solvers.cpp:116-143 *)
Definition pcg_class : class pcgobj := {|
  k_fresh := PcgObj so_new None [] [] [] [];
  k_copy := fun o => b <- so_copy (pg_base o) ;; Ok (PcgObj b (pg_M o) (pg_Ap o) (pg_r o) (pg_p o) (pg_z o));
  k_swap := fun a b => let (x, y) := so_swap (pg_base a) (pg_base b) in
    (PcgObj x (pg_M b) (pg_Ap b) (pg_r b) (pg_p b) (pg_z b), PcgObj y (pg_M a) (pg_Ap a) (pg_r a) (pg_p a) (pg_z a))
|}.

(** solvers.cpp:254-281 *)
Definition minres_class : class mrobj := {|
  k_fresh := MrObj so_new [] [] [] [] [];
  k_copy := fun o => b <- so_copy (mr_base o) ;; Ok (MrObj b (mr_w0 o) (mr_w1 o) (mr_v0 o) (mr_v1 o) (mr_q o));
  k_swap := fun a b => let (x, y) := so_swap (mr_base a) (mr_base b) in
    (MrObj x (mr_w0 b) (mr_w1 b) (mr_v0 b) (mr_v1 b) (mr_q b), MrObj y (mr_w0 a) (mr_w1 a) (mr_v0 a) (mr_v1 a) (mr_q a))
|}.

(** solvers.cpp:398-427 *)
Definition pminres_class : class pmrobj := {|
  k_fresh := PmrObj so_new None [] [] [] [] [] [];
  k_copy := fun o => b <- so_copy (pm_base o) ;; Ok (PmrObj b (pm_M o) (pm_w0 o) (pm_w1 o) (pm_v0 o) (pm_v1 o) (pm_u1 o) (pm_q o));
  k_swap := fun a b => let (x, y) := so_swap (pm_base a) (pm_base b) in
    (PmrObj x (pm_M b) (pm_w0 b) (pm_w1 b) (pm_v0 b) (pm_v1 b) (pm_u1 b) (pm_q b),
     PmrObj y (pm_M a) (pm_w0 a) (pm_w1 a) (pm_v0 a) (pm_v1 a) (pm_u1 a) (pm_q a))
|}.

End Classes.

Arguments cobj S : clear implicits.
Arguments lobj S : clear implicits.
Arguments bvec S : clear implicits.
Arguments bobj S : clear implicits.
Arguments sobj S : clear implicits.
Arguments pcgobj S : clear implicits.
Arguments mrobj S : clear implicits.
Arguments pmrobj S : clear implicits.
