(** What the theorems about the parallel module say: the global matrix the blocks of the ranks
    stand for, consistent layouts, distributed vectors, and the contracts of the external
    functions. *)

From Coq Require Import ZArith List Bool Permutation.
From Verif Require Import Base Scalar Spec Dense Sparse Coo CooSpec Vec VecSpec Par.
Import ListNotations.
Open Scope Z_scope.

(** Rank r owns the indices first r .. first (r+1) - 1; [sizes] holds the number of each rank. *)
Definition first_of (sizes : list Z) (r : Z) : Z := zsum 0 r (zn 0 sizes).

(** Vertex i comes after the vertices of the smaller ranks and the earlier ones of its own. *)
Definition count (f : Z -> bool) (n : Z) : Z := zsum 0 n (fun k => if f k then 1 else 0).
Definition renumber (part : list Z) (i : Z) : Z :=
  count (fun k => zn 0 part k <? zn 0 part i) (zlen part) + count (fun k => zn 0 part k =? zn 0 part i) i.

Section ParSpec.
Context {S : scalar}.
Notation T := (car S).

(** The entries of the global matrix that one rank holds. *)
Definition pm_entries (A : parmat S) : list (entry S) :=
  map (fun e => (zn 0 (pm_rs A) 0 + erow e, zn 0 (pm_cs A) 0 + ecol e, evalue e)) (entries (pm_diag A)) ++
  map (fun e => (zn 0 (pm_rs A) 0 + erow e, zn 0 (pm_map A) (ecol e), evalue e)) (entries (pm_offd A)).

(** The part of the global matrix that one rank holds, and the global matrix. *)
Definition pm_mat (A : parmat S) : mat S := mat_of (pm_entries A).
Definition world_mat (As : list (parmat S)) : mat S := mat_of (flat_map pm_entries As).

(** A consistent layout and valid blocks. *)
Record pm_valid (A : parmat S) : Prop := {
  pv_rs : zlen (pm_rs A) = 3;
  pv_cs : zlen (pm_cs A) = 3;
  pv_rrange : 0 <= zn 0 (pm_rs A) 0 /\ zn 0 (pm_rs A) 0 <= zn 0 (pm_rs A) 1 /\ zn 0 (pm_rs A) 1 <= zn 0 (pm_rs A) 2;
  pv_crange : 0 <= zn 0 (pm_cs A) 0 /\ zn 0 (pm_cs A) 0 <= zn 0 (pm_cs A) 1 /\ zn 0 (pm_cs A) 1 <= zn 0 (pm_cs A) 2;
  pv_diag : csr_valid (pm_diag A);
  pv_offd : csr_valid (pm_offd A);
  pv_drows : c_rows (pm_diag A) = zn 0 (pm_rs A) 1 - zn 0 (pm_rs A) 0;
  pv_dcols : c_cols (pm_diag A) = zn 0 (pm_cs A) 1 - zn 0 (pm_cs A) 0;
  pv_orows : c_rows (pm_offd A) = zn 0 (pm_rs A) 1 - zn 0 (pm_rs A) 0;
  pv_ocols : c_cols (pm_offd A) = zlen (pm_map A);
  pv_map : forall i, 0 <= i < zlen (pm_map A) ->
    0 <= zn 0 (pm_map A) i < zn 0 (pm_cs A) 2 /\ ~ (zn 0 (pm_cs A) 0 <= zn 0 (pm_map A) i < zn 0 (pm_cs A) 1);
  pv_sorted : forall i j, 0 <= i < j -> j < zlen (pm_map A) -> zn 0 (pm_map A) i < zn 0 (pm_map A) j
}.

(** The arguments of a ParMatrix constructor describe a consistent layout; an empty 0 x 0 offd
    stands for a block without columns. *)
Definition layout (rs cs : list Z) (D O : csr S) (cm : list Z) : Prop :=
  zlen rs = 3 /\ zlen cs = 3 /\
  (0 <= zn 0 rs 0 /\ zn 0 rs 0 <= zn 0 rs 1 /\ zn 0 rs 1 <= zn 0 rs 2) /\
  (0 <= zn 0 cs 0 /\ zn 0 cs 0 <= zn 0 cs 1 /\ zn 0 cs 1 <= zn 0 cs 2) /\
  c_rows D = zn 0 rs 1 - zn 0 rs 0 /\ c_cols D = zn 0 cs 1 - zn 0 cs 0 /\
  (c_rows O = zn 0 rs 1 - zn 0 rs 0 \/ c_rows O = 0 /\ c_cols O = 0) /\ c_cols O = zlen cm /\
  (forall i, 0 <= i < zlen cm -> 0 <= zn 0 cm i < zn 0 cs 2 /\ ~ (zn 0 cs 0 <= zn 0 cm i < zn 0 cs 1)) /\
  (forall i, 0 <= i < zlen cm - 1 -> zn 0 cm i < zn 0 cm (i + 1)).

(** hypre_CSRMatrixReorder permutes the entries inside the rows. *)
Definition reorders (f : csr S -> csr S) : Prop :=
  forall A, csr_valid A -> csr_valid (f A) /\ same_entries A (f A).

(** B has the layout of A. *)
Definition same_layout (A B : parmat S) : Prop := pm_rs B = pm_rs A /\ pm_cs B = pm_cs A.

(** The global columns of the entries in the offd block. *)
Definition offd_cols (A : parmat S) (g : Z) : Prop :=
  exists e, In e (entries (pm_offd A)) /\ zn 0 (pm_map A) (ecol e) = g.

(** MPI_SUM in some order and bracketing. *)
Inductive tree_sum : list T -> T -> Prop :=
| TLeaf x : tree_sum [x] x
| TNode l l1 l2 a b : tree_sum l1 a -> tree_sum l2 b -> Permutation l (l1 ++ l2) -> tree_sum l (sadd a b).
Definition sums (red : allreduce) : Prop := forall r (l : list T), l <> [] -> tree_sum l (red r l).

(** The elements of a distributed vector: those of rank 0, then those of rank 1, ... *)
Definition dist_list (ws : list (heap S * view)) : list T :=
  flat_map (fun w => map (vat (fst w) (snd w)) (zrange 0 (v_len (snd w)))) ws.

(** The inner product of two lists of the same length. *)
Definition dot (x y : list T) : T := sum_list (map (fun ab => smul (fst ab) (snd ab)) (combine x y)).

End ParSpec.

Section AddSpec.
Context {S : scalar}.
Notation T := (car S).

(** The off-diagonal entries of one rank, with global columns (and local rows). *)
Definition offd_entries (A : parmat S) : list (entry S) :=
  map (fun e => (erow e, zn 0 (pm_map A) (ecol e), evalue e)) (entries (pm_offd A)).

Definition with_coef (c : T) (l : list (entry S)) : list (T * entry S) := map (fun e => (c, e)) l.

(** Every value times its coefficient. *)
Definition scaled (l : list (T * entry S)) : list (entry S) :=
  map (fun ce => (erow (snd ce), ecol (snd ce), smul (fst ce) (evalue (snd ce)))) l.

(** The same, but the first entry of every column is left unscaled. *)
Definition scaled_but_first (l : list (T * entry S)) : list (entry S) :=
  fold_left (fun acc ce =>
    acc ++ [(erow (snd ce), ecol (snd ce),
             if existsb (fun e => ecol e =? ecol (snd ce)) acc then smul (fst ce) (evalue (snd ce)) else evalue (snd ce))]) l [].

Definition shift_rows (s : Z) (l : list (entry S)) : list (entry S) := map (fun e => (s + erow e, ecol e, evalue e)) l.
Definition shift (s t : Z) (l : list (entry S)) : list (entry S) := map (fun e => (s + erow e, t + ecol e, evalue e)) l.

End AddSpec.

Section OpSpec.
Context {S : scalar}.
Notation T := (car S).

(** The call [m] changes only values: the entry v of A at the global position (i,j) becomes
    [h i j v]. *)
Definition pm_updates (m : res (parmat S)) (A : parmat S) (h : Z -> Z -> T -> T) : Prop :=
  exists B, m = Ok B /\ pm_valid B /\ same_layout A B /\ pm_map B = pm_map A /\ pm_entries B = map_values h (pm_entries A).

(** The first global row and column of the rank. *)
Definition row0 (A : parmat S) : Z := zn 0 (pm_rs A) 0.
Definition col0 (A : parmat S) : Z := zn 0 (pm_cs A) 0.

End OpSpec.
