(** What a call gives when nothing else runs, and which arrays it may access.  Definitions only. *)

From Coq Require Import ZArith List Bool.
From Verif Require Import Base Scalar Spec Sparse Threads Concurrent.
Import ListNotations.
Open Scope Z_scope.

Section ConcurrentSpec.
Context {S : scalar} {R : Type}.
Notation T := (car S).

(** The object M in memory is the matrix A; the array X holds the vector x. *)
Definition is_matrix_at (m : mem (cell S)) (M : smat) (A : csr S) : Prop :=
  c_rows A = s_rows M /\ c_cols A = s_cols M /\ zlen (c_ptr A) = s_rows M + 1 /\ zlen (c_idx A) = s_nnz M /\ zlen (c_val A) = s_nnz M /\
  get m (s_ptr M) = Ok (map CI (c_ptr A)) /\ get m (s_idx M) = Ok (map CI (c_idx A)) /\ get m (s_val M) = Ok (map CV (c_val A)).
Definition is_vector_at (m : mem (cell S)) (X : Z) (x : list T) : Prop := get m X = Ok (map CV x).

(** The arrays of an object *)
Definition arrays (M : smat) : list Z := [s_ptr M; s_idx M; s_val M].

(** The array a call changes, and the arrays it looks at *)
Definition changes (c : call S R) : list Z :=
  match c with CMult _ _ _ Y _ | CMultAT _ _ _ Y _ => [Y] | CScale M _ => [s_val M] | CNew _ _ => [] end.
Definition looks_at (c : call S R) : list Z :=
  match c with CMult M X _ _ _ | CMultAT M X _ _ _ => X :: arrays M | CScale _ _ => [] | CNew Ms _ => flat_map arrays Ms end.

(** The call alone, on this memory, returns r and leaves the given content in the array it changes. *)
Inductive gives (m : mem (cell S)) : call S R -> option R -> list (list (cell S)) -> Prop :=
| gives_mult M A X x Y y0 y : is_matrix_at m M A -> is_vector_at m X x -> is_vector_at m Y y0 -> ~ In Y (X :: arrays M) ->
    sp_mult A x y0 = Ok y -> gives m (CMult M X (zlen x) Y (zlen y0)) None [map CV y]
| gives_multAT M A X x Y y0 y : is_matrix_at m M A -> is_vector_at m X x -> is_vector_at m Y y0 -> ~ In Y (X :: arrays M) ->
    sp_multAT A x y0 = Ok y -> gives m (CMultAT M X (zlen x) Y (zlen y0)) None [map CV y]
| gives_scale M A v : is_matrix_at m M A -> gives m (CScale M v) None [map CV (c_val (sp_scale A v))]
| gives_new Ms As f r : Forall2 (is_matrix_at m) Ms As -> f As = Ok r -> gives m (CNew Ms f) (Some r) [].

(** No call changes what another one accesses. *)
Definition apart (calls : list (call S R)) : Prop :=
  forall s t c d x, get calls s = Ok c -> get calls t = Ok d -> s <> t -> In x (changes c) -> ~ In x (changes d) /\ ~ In x (looks_at d).

(** A row of a LilMatrix in memory; two entries that are not the same *)
Definition row_cells (row : list (Z * T)) : list (cell S) := flat_map (fun p => [CI (fst p); CV (snd p)]) row.
Definition moved (p q : Z * T) : bool := negb (fst p =? fst q) || negb (seqb (snd p) (snd q)).

End ConcurrentSpec.
