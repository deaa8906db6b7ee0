(** What the theorems about include/parser.hpp talk about: texts of numbers, files made of records
    in any layout, the matrices they describe. *)

From Coq Require Import ZArith List Bool String.
From Verif Require Import Base Scalar Spec Sparse Coo CooSpec Text Parser.
Import ListNotations.
Open Scope Z_scope.

Definition white (l : list byte) : Prop := Forall (fun b => is_space b = true) l.
Definition separator (l : list byte) : Prop := white l /\ l <> [].

(** The end of the file, or white space. *)
Definition ends (l : list byte) : Prop := match l with [] => True | b :: _ => is_space b = true end.

Definition fits_int (n : Z) : Prop := int_min <= n <= int_max.

(** A decimal text of an int. *)
Definition int_text (n : Z) (t : list byte) : Prop := fits_int n /\ t = fmt_int n.

(** [t] is a text that operator>> reads as [v]. *)
Definition reads_as {X : Type} (scan : list byte -> X * bool * list byte) (v : X) (t : list byte) : Prop :=
  match t with [] => False | b :: _ => is_space b = false end /\
  forall rest, ends rest -> scan (t ++ rest) = (v, true, rest).

Section Files.
Context {S : scalar}.
Notation T := (car S).

(** A value that is still the same after it was written with precision p and read back. *)
Definition survives (C : codec S) (p : Z) (v : T) : Prop := reads_as (tc_scan C) v (tc_fmt C p v).

(** The bytes of a value determine it; every value has as many bytes as the type says. *)
Definition kept (L : layout S) (v : T) : Prop := lo_dec L (lo_enc L v) = v.
Definition layout_ok (L : layout S) : Prop :=
  (0 < lo_size L)%nat /\ kept L s0 /\ forall v, List.length (lo_enc L v) = lo_size L.

(** A file of records, in any layout: white space before each record and after the last. *)
Inductive file_of {X : Type} (text : X -> list byte -> Prop) : list X -> list byte -> Prop :=
| file_end w : white w -> file_of text [] w
| file_rec w x t rest xs : white w -> text x t -> ends rest -> file_of text xs rest ->
    file_of text (x :: xs) (w ++ t ++ rest).

(** "i j" and "i j value" with any white space between. *)
Definition pair_text (p : Z * Z) (t : list byte) : Prop :=
  exists ti s tj, t = ti ++ s ++ tj /\ int_text (fst p) ti /\ separator s /\ int_text (snd p) tj.
Definition triple_text (C : codec S) (e : Z * Z * T) (t : list byte) : Prop :=
  exists tp s tv, t = tp ++ s ++ tv /\ pair_text (fst e) tp /\ separator s /\ reads_as (tc_scan C) (snd e) tv.

(** Every off-diagonal entry once more, transposed. *)
Definition mirror (l : list (entry S)) : list (entry S) :=
  flat_map (fun e => if erow e =? ecol e then [e] else [e; (ecol e, erow e, evalue e)]) l.
Definition maybe_mirror (symmetric : bool) (l : list (entry S)) : list (entry S) :=
  if symmetric then mirror l else l.

(** Coordinates as entries with value one; and without values. *)
Definition ones (l : list (Z * Z)) : list (entry S) := map (fun p => (fst p, snd p, s1)) l.

(** The entries moved to count from zero. *)
Definition from_one (l : list (entry S)) : list (entry S) := map (fun e => (erow e - 1, ecol e - 1, evalue e)) l.

(** The call returns the matrix of the given size that the entries add up to: valid storage, each
    coordinate at most once, and (in the order of the entries, in any arithmetic) the sums. *)
Definition assembles (m : res (csr S)) (rows cols : Z) (l : list (entry S)) : Prop :=
  exists A, m = Ok A /\ csr_valid A /\ c_rows A = rows /\ c_cols A = cols /\ no_dup_coords (entries A) /\
    forall i j v, In (i, j, v) (entries A) <->
      (exists w, In (i, j, w) l) /\ v = fold_left sadd (map evalue (filter (at_pos i j) l)) s0.

(** The entries can be added: indices not negative, no NaN. *)
Definition addable (l : list (entry S)) : Prop :=
  Forall (fun e => 0 <= erow e /\ 0 <= ecol e /\ seqb (evalue e) (evalue e) = true) l.

(** The sizes fit the type int the library stores them in. *)
Definition int_sized (A : csr S) : Prop := c_rows A <= int_max /\ c_cols A <= int_max /\ nnz A <= int_max.

(** A Matrix Market file: lines of comments, a line with the sizes, the records. *)
Definition comment (line : list byte) : Prop := exists l, line = 37 :: l /\ ~ In NL l.
Definition size_line (rows cols nnz : Z) : list byte :=
  fmt_int rows ++ [SP] ++ fmt_int cols ++ [SP] ++ fmt_int nnz ++ [NL].
Definition mtx_file {X : Type} (text : X -> list byte -> Prop) (comments : list (list byte)) (rows cols nnz : Z)
    (xs : list X) (file : list byte) : Prop :=
  Forall comment comments /\ exists body, file_of text xs body /\
    file = flat_map (fun c => c ++ [NL]) comments ++ size_line rows cols nnz ++ body.
(** [l] has "symmetric" in it. *)
Definition says_symmetric (l : list byte) : Prop := exists a b, l = a ++ txt "symmetric" ++ b.

(** The matrix is the Laplacian of a multigraph. *)
Definition laplacian (n : Z) (A : mat S) : Prop :=
  (forall i j, A i j = A j i) /\ (forall i, sum_range 0 n (A i) = s0).

End Files.

(** The parts of a compressed-row file, one after the other in any layout. *)
Inductive token {S : scalar} : Type := Count (n : Z) | Index (n : Z) | Value (v : car S).
Definition token_text {S : scalar} (C : codec S) (k : token (S := S)) (t : list byte) : Prop :=
  match k with
  | Count n => 0 <= n <= size_max /\ t = fmt_int n
  | Index n => int_text n t
  | Value v => reads_as (tc_scan C) v t
  end.
Definition csr_tokens {S : scalar} (A : csr S) : list token :=
  Count (c_rows A) :: Count (c_cols A) :: map Index (c_ptr A) ++ map Index (c_idx A) ++ map Value (c_val A).

(** A table file: one line per row, the integers of the row on it in any layout. *)
Inductive table_file : list (list Z) -> list byte -> Prop :=
| table_end : table_file [] []
| table_row row line rows rest : file_of int_text row line -> ~ In NL line -> table_file rows rest ->
    table_file (row :: rows) (line ++ NL :: rest).
(** The entries (all ones) of such a table. *)
Definition table_entries {S : scalar} (rows : list (list Z)) : list (entry S) :=
  flat_map (fun i => map (fun c => (i, c, s1)) (zn [] rows i)) (zrange 0 (zlen rows)).

(** The edges of a graph file that count, and the matrix they stand for. *)
Definition edges (ps : list (Z * Z)) : list (Z * Z) := filter (fun p => fst p <? snd p) ps.
Definition edge_entries {S : scalar} (p : Z * Z) : list (entry S) :=
  [(snd p, fst p, sopp s1); (fst p, snd p, sopp s1); (fst p, fst p, s1); (snd p, snd p, s1)].

(** All records of a file, up to the first that cannot be read, whatever the file is. *)
Fixpoint records_from {X : Type} (fuel : nat) (rd : istream -> option X * istream) (s : istream) : list X :=
  match fuel with
  | O => []
  | Datatypes.S k => match rd s with (Some x, s') => x :: records_from k rd s' | (None, _) => [] end
  end.
Definition records {X : Type} (rd : istream -> option X * istream) (file : list byte) : list X :=
  records_from (Datatypes.S (List.length file)) rd (IS file true).

(** a + a + ... + a (n times) *)
Definition copies {S : scalar} (n : nat) (a : car S) : car S := sum_list (repeat a n).
(** How many edges there are between i and j, and how many at i. *)
Definition multiplicity (es : list (Z * Z)) (i j : Z) : nat :=
  List.length (filter (fun p => ((fst p =? i) && (snd p =? j)) || ((fst p =? j) && (snd p =? i))) es).
Definition degree (es : list (Z * Z)) (i : Z) : nat :=
  List.length (filter (fun p => (fst p =? i) || (snd p =? i)) es).

(** (i,j) is a stored position of A. *)
Definition stored_at {S : scalar} (A : csr S) (i j : Z) : Prop := exists v, In (i, j, v) (entries A).

(** One more than the largest index (0 without any). *)
Definition col_bound (ix : list Z) : Z := fold_right (fun c m => Z.max (c + 1) m) 0 ix.

(** The last row and the last column have a stored entry. *)
Definition reaches_end {S : scalar} (A : csr S) : Prop :=
  (exists e, In e (entries A) /\ erow e = c_rows A - 1) /\ (exists e, In e (entries A) /\ ecol e = c_cols A - 1).

(** B is A: same size, valid, and the same stored entries (in some order), none twice. *)
Definition same_entries {S : scalar} (A B : csr S) : Prop :=
  csr_valid B /\ c_rows B = c_rows A /\ c_cols B = c_cols A /\ no_dup_coords (entries B) /\
  forall e, In e (entries B) <-> In e (entries A).

(** B is a valid matrix of the given size with the coefficients f. *)
Definition is_matrix {S : scalar} (m : res (csr S)) (rows cols : Z) (f : mat S) : Prop :=
  exists B, m = Ok B /\ csr_valid B /\ c_rows B = rows /\ c_cols B = cols /\ forall i j, csr_mat B i j = f i j.

(** Reading a number takes characters away, whatever they are. *)
Definition takes {X : Type} (scan : list byte -> X * bool * list byte) : Prop :=
  forall l v ok r, scan l = (v, ok, r) ->
    (List.length r <= List.length l)%nat /\ (ok = true -> (List.length r < List.length l)%nat).

(** The rows of a table file, whatever the file is: the integers on each line up to the first
    thing that is none. *)
Definition table_lines (file : list byte) : list (list Z) := map (records (extract_ok scan_int)) (records getline file).

(** The vector can exist in memory. *)
Definition allocatable {S : scalar} (L : layout S) (n : Z) : Prop :=
  n <= size_max /\ n * Z.of_nat (lo_size L) <= 2 ^ 63 - 1.
