(** Members that change an object, with every request for memory in them.  A request that cannot be met throws
    std::bad_alloc; the objects of the caller keep what was written to them before. *)

From Coq Require Import ZArith List Bool.
From Verif Require Import Base Scalar Spec Dense Sparse Coo Lil.
Import ListNotations.
Open Scope Z_scope.

(** Whether the n-th request of the program for memory is met.  A request that a std::vector can serve from
    its capacity counts as met, so that the capacities need not be modelled. *)
Definition memory := nat -> bool.

(** What a call does to the object (or the argument taken by reference) of type St: it returns, it throws
    std::bad_alloc, it fails as in Base.v, or std::terminate is called because the exception would leave a
    function declared noexcept.  The last number counts the requests so far. *)
Inductive outcome (St A : Type) : Type :=
  | Done (a : A) (s : St) (n : nat)
  | BadAlloc (s : St) (n : nat)
  | Failed (f : fault)
  | Terminated.
Arguments Done {St A}. Arguments BadAlloc {St A}. Arguments Failed {St A}. Arguments Terminated {St A}.

Definition act (St A : Type) : Type := memory -> nat -> St -> outcome St A.

Definition a_ret {St A} (a : A) : act St A := fun m n s => Done a s n.
Definition a_bind {St A B} (x : act St A) (f : A -> act St B) : act St B := fun m n s =>
  match x m n s with
  | Done a s n => f a m n s
  | BadAlloc s n => BadAlloc s n
  | Failed e => Failed e
  | Terminated => Terminated
  end.
Notation "x <# a ;; b" := (a_bind a (fun x => b)) (at level 61, a at next level, right associativity).
Notation "' p <# a ;; b" := (a_bind a (fun x => match x with p => b end))
  (at level 61, p pattern, a at next level, right associativity).
Notation "a #;; b" := (a_bind a (fun _ => b)) (at level 61, right associativity).

(** The object as it is now; writing it; a computation that neither writes it nor asks for memory. *)
Definition a_this {St} : act St St := fun m n s => Done s s n.
Definition a_write {St} (s' : St) : act St unit := fun m n s => Done tt s' n.
Definition a_lift {St A} (x : res A) : act St A := fun m n s =>
  match x with Ok a => Done a s n | Fail f => Failed f end.

(** A request for memory for [k] elements; none is made for 0 elements. *)
Definition a_request {St} (k : Z) : act St unit := fun m n s =>
  if k <=? 0 then Done tt s n else if m n then Done tt s (Datatypes.S n) else BadAlloc s (Datatypes.S n).

(** std::vector<X> v(k, x) *)
Definition a_vec {St X} (k : Z) (x : X) : act St (list X) :=
  v <# a_lift (vec k x) ;; a_request k #;; a_ret v.

(** v.push_back(x) and v.emplace_back(x) for a vector v of the function *)
Definition a_push {St X} (v : list X) (x : X) : act St (list X) := a_request (zlen v + 1) #;; a_ret (v ++ [x]).

(** Memory for resize(k) and reserve(k) of a vector that has [len] elements *)
Definition a_grow {St} (len k : Z) : act St unit := if len <? k then a_request k else a_ret tt.

(** for (int i = lo; i < hi; ++i) *)
Fixpoint a_fold {St X A : Type} (f : A -> X -> act St A) (l : list X) (a : A) : act St A :=
  match l with
  | [] => a_ret a
  | x :: l => a <# f a x ;; a_fold f l a
  end.
Definition a_for {St A} (lo hi : Z) (a : A) (body : Z -> A -> act St A) : act St A :=
  a_fold (fun a i => body i a) (zrange lo hi) a.

(** A function declared noexcept *)
Definition a_noexcept {St A} (x : act St A) : act St A := fun m n s =>
  match x m n s with BadAlloc _ _ => Terminated | o => o end.

Section Alloc.
Context {S : scalar}.
Notation T := (car S).
Notation csr := (csr S).
Notation dense := (dense S).

(** ** SparseMatrix *)

(** sparsematrix.hpp:577-614  SortIndices() *)
Definition a_sort (srt : sorter) : act csr unit :=
  A <# a_this ;;
  let cmp := fun i j => zn 0 (c_idx A) i <? zn 0 (c_idx A) j in
  a_request (zlen (c_idx A)) #;;
  p <# a_lift (for_ 0 (c_rows A) (zrange 0 (zlen (c_idx A))) (fun i p =>
         lo <- get (c_ptr A) i ;; hi <- get (c_ptr A) (i + 1) ;;
         sort_range srt cmp p lo hi)) ;;
  a_request (zlen (c_idx A)) #;;
  a_request (zlen (c_val A)) #;;
  ix <# a_lift (gather (c_idx A) p) ;;
  d <# a_lift (gather (c_val A) p) ;;
  a_write (CSR (c_rows A) (c_cols A) (c_ptr A) ix (c_val A)) #;;
  a_write (CSR (c_rows A) (c_cols A) (c_ptr A) ix d).

(** sparsematrix.hpp:1472-1500  EliminateZeros(T tolerance) *)
Definition a_elim_zeros (tol : T) : act csr unit :=
  A <# a_this ;;
  ip <# a_vec 1 0 ;;
  a_grow 1 (zlen (c_ptr A)) #;;
  a_grow 0 (zlen (c_idx A)) #;;
  a_grow 0 (zlen (c_val A)) #;;
  '(ip, ix, d) <# a_for 0 (c_rows A) (ip, [], []) (fun i st =>
      lo <# a_lift (get (c_ptr A) i) ;; hi <# a_lift (get (c_ptr A) (i + 1)) ;;
      '(ip, ix, d) <# a_for lo hi st (fun j st =>
          let '(ip, ix, d) := st in
          v <# a_lift (get (c_val A) j) ;;
          if slt tol (sabs v)
          then c <# a_lift (get (c_idx A) j) ;; ix <# a_push ix c ;; d <# a_push d v ;; a_ret (ip, ix, d)
          else a_ret (ip, ix, d)) ;;
      ip <# a_push ip (zlen ix) ;;
      a_ret (ip, ix, d)) ;;
  a_write (CSR (c_rows A) (c_cols A) ip (c_idx A) (c_val A)) #;;
  a_write (CSR (c_rows A) (c_cols A) ip ix (c_val A)) #;;
  a_write (CSR (c_rows A) (c_cols A) ip ix d).

(** The members that work in place ask for no memory: operator*= (1171-1180), operator/= (1183-1194), operator=
    (1197-1205), AddDiag (820-835), ScaleRows, ScaleCols and their inverses (1259-1345), PermuteCols (1347-1361),
    EliminateRow, EliminateCol, EliminateRowCol (1363-1451); [f] is the member as in Sparse.v. *)
Definition a_in_place {St} (f : St -> res St) : act St unit :=
  s <# a_this ;; s' <# a_lift (f s) ;; a_write s'.

(** sparsematrix.hpp:846-909  GetSubMatrix(rows, cols, marker) const; the object of the caller is marker. *)
Definition a_submatrix (A : csr) (rows cols : list Z) : act (list Z) csr :=
  marker <# a_this ;;
  a_lift (assert_ (c_cols A <=? zlen marker)) #;;
  ip <# a_vec (zlen rows + 1) 0 ;;
  ip <# a_lift (set ip 0 0) ;;
  marker <# a_lift (for_ 0 (zlen cols) marker (fun i marker => c <- get cols i ;; set marker c i)) ;;
  a_write marker #;;
  '(ip, n) <# a_lift (for_ 0 (zlen rows) (ip, 0) (fun i st =>
      let (ip, n) := st in
      row <- get rows i ;;
      assert_ (row <? c_rows A) ;;;
      lo <- get (c_ptr A) row ;; hi <- get (c_ptr A) (row + 1) ;;
      n <- for_ lo hi n (fun j n =>
             c <- get (c_idx A) j ;; m <- get marker c ;;
             Ok (if m =? -1 then n else n + 1)) ;;
      ip <- set ip (i + 1) n ;;
      Ok (ip, n))) ;;
  ix <# a_vec n 0 ;;
  d <# a_vec n s0 ;;
  '(ix, d, total) <# a_lift (foldM (fun st row =>
      lo <- get (c_ptr A) row ;; hi <- get (c_ptr A) (row + 1) ;;
      for_ lo hi st (fun j st =>
        let '(ix, d, total) := st in
        c <- get (c_idx A) j ;; m <- get marker c ;;
        if m =? -1 then Ok (ix, d, total)
        else ix <- set ix total m ;;
             v <- get (c_val A) j ;; d <- set d total v ;;
             Ok (ix, d, total + 1))) rows (ix, d, 0)) ;;
  marker <# a_lift (foldM (fun marker i => set marker i (-1)) cols marker) ;;
  a_write marker #;;
  a_lift (sp_make ip ix d (zlen rows) (zlen cols)).

(** sparsematrix.hpp:494-499, 507-513  SparseMatrix(const SparseMatrix&) noexcept; operator=(SparseMatrix other) noexcept, the
    copy being made by the caller with the first.  The object is the one assigned to. *)
Definition a_copy (A : csr) : act csr unit :=
  a_noexcept (a_request (zlen (c_ptr A)) #;; a_request (zlen (c_idx A)) #;; a_request (zlen (c_val A)) #;; a_ret tt) #;;
  a_write A.

(** ** DenseMatrix *)

(** densematrix.cpp:90-98  SetSize(int rows, int cols) *)
Definition a_set_size (rows cols : Z) : act dense unit :=
  a_lift (assert_ (0 <=? rows)) #;; a_lift (assert_ (0 <=? cols)) #;;
  D <# a_this ;;
  a_write (Dense rows cols (d_data D)) #;;
  a_grow (zlen (d_data D)) (rows * cols) #;;
  a_write (Dense rows cols (resize (d_data D) (rows * cols) s0)).

(** The functions that first call SetSize(rows, cols) of their output argument and ask for no more memory; [f]
    is the function as in Dense.v, Sparse.v or Coo.v (its own SetSize changes nothing the second time). *)
Definition a_output (rows cols : Z) (f : dense -> res dense) : act dense unit :=
  a_set_size rows cols #;; a_in_place f.

(** densematrix.cpp:147-158 Transpose(transpose); sparsematrix.hpp:562-575 ToDense(dense), 643-665
    Mult(input, output), 667-685 MultAT(input, output); coomatrix.hpp:516-535 ToDense(dense) *)
Definition a_transpose (D : dense) : act dense unit := a_output (d_cols D) (d_rows D) (d_transpose_into D).
Definition a_to_dense (A : csr) : act dense unit := a_output (c_rows A) (c_cols A) (sp_to_dense_into A).
Definition a_mult_dense (A : csr) (X : dense) : act dense unit :=
  a_lift (assert_ (d_rows X =? c_cols A)) #;; a_output (c_rows A) (d_cols X) (sp_mult_dense A X).
Definition a_multAT_dense (A : csr) (X : dense) : act dense unit :=
  a_lift (assert_ (d_rows X =? c_rows A)) #;; a_output (c_cols A) (d_cols X) (sp_multAT_dense A X).
Definition a_coo_to_dense (M : coo S) : act dense unit :=
  a_output (fst (coo_find_size M)) (snd (coo_find_size M)) (coo_to_dense_into M).

(** ** CooMatrix *)

(** coomatrix.hpp:326-340  Add(int i, int j, T val) *)
Definition a_coo_add (i j : Z) (v : T) : act (coo S) unit :=
  M <# a_this ;;
  a_lift (assert_ (0 <=? i)) #;; a_lift (assert_ (0 <=? j)) #;; a_lift (assert_ (seqb v v)) #;;
  a_lift (if o_set M then assert_ (i <? o_rows M) ;;; assert_ (j <? o_cols M) else Ok tt) #;;
  a_request (zlen (o_entries M) + 1) #;;
  a_write (Coo (o_rows M) (o_cols M) (o_set M) (o_entries M ++ [(i, j, v)])).

(** coomatrix.hpp:342-351  AddSym *)
Definition a_coo_add_sym (i j : Z) (v : T) : act (coo S) unit :=
  a_coo_add i j v #;;
  if negb (i =? j) then a_coo_add j i v else a_ret tt.

(** coomatrix.hpp:361-384, 393-417  Add(rows, cols, [scale,] values) *)
Definition a_coo_add_dense (rows cols : list Z) (f : T -> T) (values : dense) : act (coo S) unit :=
  a_lift (assert_ (zlen rows =? d_rows values)) #;;
  a_lift (assert_ (zlen cols =? d_cols values)) #;;
  a_for 0 (d_cols values) tt (fun j _ =>
    col <# a_lift (get cols j) ;;
    a_for 0 (d_rows values) tt (fun i _ =>
      row <# a_lift (get rows i) ;; v <# a_lift (d_get values i j) ;; a_coo_add row col (f v))).

(** ** LilMatrix *)

(** lilmatrix.hpp:258-276  Add(int i, int j, T val); the std::forward_list asks for the memory of one node. *)
Definition a_lil_add (i j : Z) (v : T) : act (lil S) unit :=
  M <# a_this ;;
  a_lift (assert_ (0 <=? i)) #;; a_lift (assert_ (0 <=? j)) #;; a_lift (assert_ (seqb v v)) #;;
  (if l_set M then a_lift (assert_ (i <? l_rows M) ;;; assert_ (j <? l_cols M))
   else if zlen (l_lists M) <=? i
   then a_grow (zlen (l_lists M)) (i + 1) #;;
        a_write (Lil (l_rows M) (l_cols M) (l_set M) (grow_lists (l_lists M) (i + 1)))
   else a_ret tt) #;;
  M <# a_this ;;
  row <# a_lift (get (l_lists M) i) ;;
  a_request 1 #;;
  ls <# a_lift (set (l_lists M) i ((j, v) :: row)) ;;
  a_write (Lil (l_rows M) (l_cols M) (l_set M) ls).

(** ** Vector *)

(** vector.hpp: data_ and the size its own view shows (vectorview.hpp size_) *)
Record vector : Type := Vct { v_data : list T; v_size : Z }.

(** vector.hpp:175-187, 189-201  SetSize(int size), SetSize(int size, T val) *)
Definition a_vec_set_size (size : Z) (val : T) : act vector unit :=
  V <# a_this ;;
  if size =? v_size V then a_ret tt
  else a_lift (assert_ (0 <=? size)) #;;
       a_grow (zlen (v_data V)) size #;;
       a_write (Vct (resize (v_data V) size val) (v_size V)) #;;
       a_write (Vct (resize (v_data V) size val) size).

(** vector.hpp:203-212, 214-223  operator=(const Vector&) noexcept, operator=(const VectorView&) noexcept *)
Definition a_vec_assign (x : list T) : act vector unit :=
  a_noexcept (
    V <# a_this ;;
    a_grow (zlen (v_data V)) (zlen x) #;;
    a_write (Vct x (v_size V)) #;;
    a_write (Vct x (zlen x))).

End Alloc.
