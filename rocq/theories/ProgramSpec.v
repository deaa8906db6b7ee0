(** Programs on mathematical matrices: what the statements of SparseHistory.v mean when a matrix is
    a table of numbers and nothing is known about how it is stored.  Definitions only. *)

From Coq Require Import ZArith List Bool.
From Verif Require Import Base Scalar Spec Sparse SparseHistory.
Import ListNotations.
Open Scope Z_scope.

Section ProgramSpec.
Context {S : scalar}.
Notation T := (car S).

Record matrix : Type := Matrix { m_rows : Z; m_cols : Z; m_at : Z -> Z -> T }.

(** The object A, whatever it stores, is the matrix M. *)
Definition represents (A : csr S) (M : matrix) : Prop :=
  csr_valid A /\ c_rows A = m_rows M /\ c_cols A = m_cols M /\
  forall i j, 0 <= i < m_rows M -> 0 <= j < m_cols M -> csr_mat A i j = m_at M i j.

Definition when {X} (b : bool) (x : X) : option X := if b then Some x else None.
Definition within (n k : Z) : bool := (0 <=? k) && (k <? n).
Definition nowhere_zero (w : list T) : bool := forallb (fun v => negb (seqb v s0)) w.

(** Members that change the object: defined when the sizes fit, and not at all (None) for the five
    members whose effect depends on which elements are stored. *)
Definition change (M : matrix) (o : inplace S) : option matrix :=
  let elements f := Matrix (m_rows M) (m_cols M) f in
  match o with
  | ISort => Some M
  | IScale v => Some (elements (fun i j => smul (m_at M i j) v))
  | IDiv v => when (negb (seqb v s0)) (elements (fun i j => sdiv (m_at M i j) v))
  | IScaleRows w => when (zlen w =? m_rows M) (elements (fun i j => smul (m_at M i j) (vec_of w i)))
  | IScaleCols w => when (zlen w =? m_cols M) (elements (fun i j => smul (m_at M i j) (vec_of w j)))
  | IInvScaleRows w => when ((zlen w =? m_rows M) && nowhere_zero w) (elements (fun i j => sdiv (m_at M i j) (vec_of w i)))
  | IInvScaleCols w => when ((zlen w =? m_cols M) && nowhere_zero w) (elements (fun i j => sdiv (m_at M i j) (vec_of w j)))
  | IPermuteCols p => when ((zlen p =? m_cols M) && forallb (within (m_cols M)) p)
      (elements (fun i k => sum_range 0 (m_cols M) (fun j => if zn 0 p j =? k then m_at M i j else s0)))
  | IElimRow k => when (within (m_rows M) k) (elements (fun i j => if i =? k then s0 else m_at M i j))
  | IElimCol k => when (within (m_cols M) k) (elements (fun i j => if j =? k then s0 else m_at M i j))
  | IElimColMarker m => when (m_cols M <=? zlen m) (elements (fun i j => if zn false m j then s0 else m_at M i j))
  | IElimColBc m x b => when ((m_cols M <=? zlen m) && (zlen x =? m_cols M) && (zlen b =? m_rows M))
      (elements (fun i j => if zn false m j then s0 else m_at M i j))
  | IElimZeros tol => when (seqb tol s0) M
  | IFill _ | IAddDiag _ | IAddDiagVal _ | IElimRowCol _ | IElimRowColMarker _ => None
  end.

(** The program's matrices; None: moved from. *)
Definition look (st : list (option matrix)) (k : Z) : option matrix := if within (zlen st) k then zn None st k else None.
Definition put (st : list (option matrix)) (k : Z) (M : option matrix) : option (list (option matrix)) :=
  when (within (zlen st) k) (upd st (Z.to_nat k) M).

Definition andthen {X Y} (x : option X) (f : X -> option Y) : option Y := match x with Some x => f x | None => None end.

(** Column j of the columns asked for is the last one that asks for its column. *)
Definition last_mention (cols : list Z) (j : Z) : bool :=
  forallb (fun k => negb (zn 0 cols k =? zn 0 cols j)) (zrange (j + 1) (zlen cols)).

Definition step (st : list (option matrix)) (o : op S) : option (list (option matrix)) :=
  let new M := Some (st ++ [Some M]) in
  match o with
  | NewEmpty => new (Matrix 0 0 (fun _ _ => s0))
  | NewZero r c => if (0 <=? r) && (0 <=? c) then new (Matrix r c (fun _ _ => s0)) else None
  | NewDiag d => new (Matrix (zlen d) (zlen d) (fun i j => if i =? j then vec_of d i else s0))
  | NewCsr ip ix d r c => new (Matrix r c (mat_of (entries (CSR r c ip ix d))))
  | Copy dst src => andthen (look st src) (fun M => put st dst (Some M))
  | Move dst src => andthen (look st src) (fun M => andthen (put st src None) (fun st => put st dst (Some M)))
  | Swap i j => andthen (look st i) (fun M => andthen (look st j) (fun N =>
      andthen (put st i (Some N)) (fun st => put st j (Some M))))
  | NewMove src => andthen (look st src) (fun M => andthen (put st src None) (fun st => Some (st ++ [Some M])))
  | InPlace dst o => andthen (look st dst) (fun M => andthen (change M o) (fun N => put st dst (Some N)))
  | Transpose dst src => andthen (look st src) (fun M =>
      put st dst (Some (Matrix (m_cols M) (m_rows M) (fun i j => m_at M j i))))
  | Product dst a b => andthen (look st a) (fun M => andthen (look st b) (fun N =>
      if m_rows N =? m_cols M
      then put st dst (Some (Matrix (m_rows M) (m_cols N) (fun i j => sum_range 0 (m_cols M) (fun k => smul (m_at M i k) (m_at N k j)))))
      else None))
  | SubMatrix dst src rows cols marker => andthen (look st src) (fun M =>
      if forallb (within (m_rows M)) rows && forallb (within (m_cols M)) cols &&
         (m_cols M <=? zlen marker) && forallb (fun m => m =? -1) marker
      then put st dst (Some (Matrix (zlen rows) (zlen cols)
             (fun i j => if last_mention cols j then m_at M (zn 0 rows i) (zn 0 cols j) else s0)))
      else None)
  end.

Definition program (ops : list (op S)) (st : list (option matrix)) : option (list (option matrix)) :=
  fold_left (fun st o => andthen st (fun st => step st o)) ops (Some st).

(** Every object that is not moved from represents its matrix. *)
Definition holds (A : csr S) (M : option matrix) : Prop := match M with Some M => represents A M | None => True end.
Definition refines (st : list (csr S)) (ms : list (option matrix)) : Prop := Forall2 holds st ms.

(** The two objects are the same matrix. *)
Definition same_matrix (A B : csr S) : Prop :=
  c_rows A = c_rows B /\ c_cols A = c_cols B /\
  forall i j, 0 <= i < c_rows A -> 0 <= j < c_cols A -> csr_mat A i j = csr_mat B i j.

End ProgramSpec.

Arguments matrix S : clear implicits.
