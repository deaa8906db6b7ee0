(** Model of include/parser.hpp.  A writer returns the bytes of the file it leaves, a reader is
    given the bytes of the file.  Opening a file is assumed to succeed. *)

From Coq Require Import ZArith List Bool String.
From Verif Require Import Base Scalar Spec Dense Sparse Coo Text.
Import ListNotations.
Open Scope Z_scope.

Section Parser.
Context {S : scalar}.
Notation T := (car S).
Notation csr := (csr S).

(** How values of type T are written (operator<< with a precision) and read (operator>>). *)
Record codec : Type := Codec {
  tc_fmt : Z -> T -> list byte;
  tc_scan : list byte -> T * bool * list byte
}.
Context (C : codec).

(* ---------------------------------------------------------------- text *)

(** parser.hpp:22-40  ReadText *)
Definition read_text (file : list byte) : res (list T) :=
  let s := IS file true in
  while_read (fuel_of s) (extract_ok (tc_scan C)) (fun v data => Ok (data ++ [v])) s [].

(** parser.hpp:47-63  WriteText, precision 16 *)
Definition write_text (vect : list T) : list byte := flat_map (fun v => tc_fmt C 16 v ++ [NL]) vect.

(** coo.Add(i, j, val) and, if symmetric and i != j, coo.Add(j, i, val) *)
Definition add_maybe_sym (symmetric : bool) (i j : Z) (v : T) (M : coo S) : res (coo S) :=
  M <- coo_add M i j v ;;
  if symmetric && negb (i =? j) then coo_add M j i v else Ok M.

(** parser.hpp:202-232  ReadAdjList *)
Definition read_adj_list (file : list byte) (symmetric : bool) : res csr :=
  let s := IS file true in
  M <- while_read (fuel_of s) (extract2 scan_int scan_int)
         (fun p M => let (i, j) := p in add_maybe_sym symmetric i j s1 M) s coo_new ;;
  coo_to_sparse M.

(** parser.hpp:242-270  ReadGraphList *)
Definition read_graph_list (file : list byte) : res csr :=
  let s := IS file true in
  M <- while_read (fuel_of s) (extract2 scan_int scan_int)
         (fun p M => let (i, j) := p in
            if i <? j then
              M <- coo_add M j i (sopp s1) ;; M <- coo_add M i j (sopp s1) ;;
              M <- coo_add M i i s1 ;; coo_add M j j s1
            else Ok M) s coo_new ;;
  coo_to_sparse M.

(** The loop of WriteAdjList and WriteCooList: for every stored entry, in order, write [line]. *)
Definition write_lines (A : csr) (symmetric : bool) (line : Z -> Z -> Z -> res (list byte)) : res (list byte) :=
  for_ 0 (c_rows A) [] (fun i out =>
    b <- get (c_ptr A) i ;; e <- get (c_ptr A) (i + 1) ;;
    for_ b e out (fun j out =>
      col <- get (c_idx A) j ;;
      if negb symmetric || (i <=? col) then l <- line i col j ;; Ok (out ++ l) else Ok out)).

(** parser.hpp:281-312  WriteAdjList *)
Definition write_adj_list (A : csr) (symmetric : bool) : res (list byte) :=
  write_lines A symmetric (fun i col _ => Ok (fmt_int i ++ [SP] ++ fmt_int col ++ [NL])).

(** parser.hpp:322-352  ReadCooList *)
Definition read_coo_list (file : list byte) (symmetric : bool) : res csr :=
  let s := IS file true in
  M <- while_read (fuel_of s) (extract3 scan_int scan_int (tc_scan C))
         (fun p M => let '(i, j, v) := p in add_maybe_sym symmetric i j v M) s coo_new ;;
  coo_to_sparse M.

(** parser.hpp:361-393  WriteCooList; the precision of the stream stays 6.  (The reference
    std::vector<double>& to the values restricts T to double.) *)
Definition write_coo_list (A : csr) (symmetric : bool) : res (list byte) :=
  write_lines A symmetric (fun i col j =>
    v <- get (c_val A) j ;; Ok (fmt_int i ++ [SP] ++ fmt_int col ++ [SP] ++ tc_fmt C 6 v ++ [NL])).

(** parser.hpp:402-437  ReadTable *)
Definition read_line_ints (line : list byte) (ix : list Z) : res (list Z) :=
  let s := IS line true in
  while_read (fuel_of s) (extract_ok scan_int) (fun v ix => Ok (ix ++ [v])) s ix.
Definition read_table (file : list byte) : res csr :=
  let s := IS file true in
  '(ip, ix) <- while_read (fuel_of s) getline
     (fun line st => let (ip, ix) := (st : list Z * list Z) in
        ix <- read_line_ints line ix ;; Ok (ip ++ [zlen ix], ix)) s ([0], []) ;;
  m <- max_elem ix ;;
  sp_make ip ix (map (fun _ => s1) ix) (zlen ip - 1) (m + 1).

(** parser.hpp:444-472  WriteTable *)
Definition write_table (A : csr) : res (list byte) :=
  for_ 0 (c_rows A) [] (fun i out =>
    b <- get (c_ptr A) i ;; e <- get (c_ptr A) (i + 1) ;;
    out <- for_ b e out (fun j out =>
      c <- get (c_idx A) j ;;
      Ok (out ++ fmt_int c ++ (if j + 1 =? e then [] else [SP]))) ;;
    Ok (out ++ [NL])).

(** for (i = 0; i < n; ++i) file >> v[i]; *)
Definition read_array {X : Type} (scan : list byte -> X * bool * list byte) (n : Z) (v : list X) (s : istream) :
    res (list X * istream) :=
  for_ 0 n (v, s) (fun i st =>
    let (v, s) := (st : list X * istream) in
    let (o, s) := extract scan s in
    match o with
    | Some a => v <- set v i a ;; Ok (v, s)
    | None => get v i ;;; Ok (v, s)
    end).

(** An uninitialised variable that no extraction has assigned. *)
Definition uninit {X : Type} (o : option X) : res X := match o with Some x => Ok x | None => Fail FUB end.

(** parser.hpp:479-520  ReadCSR; rows and cols are size_t and are converted to int at the end *)
Definition read_csr (file : list byte) : res csr :=
  let s := IS file true in
  let (rows, s) := extract scan_size s in
  let (cols, s) := extract scan_size s in
  rows <- uninit rows ;; cols <- uninit cols ;;
  let n := (rows + 1) mod 2 ^ 64 in
  ip <- vec n 0 ;;
  '(ip, s) <- read_array scan_int n ip s ;;
  nnz <- get ip (zlen ip - 1) ;;
  ix <- vec nnz 0 ;; d <- vec nnz s0 ;;
  '(ix, s) <- read_array scan_int nnz ix s ;;
  '(d, s) <- read_array (tc_scan C) nnz d s ;;
  sp_make ip ix d (to_int rows) (to_int cols).

(** parser.hpp:528-566  WriteCSR *)
Definition write_csr (A : csr) : list byte :=
  let line x := x ++ [NL] in
  line (fmt_int (c_rows A)) ++ line (fmt_int (c_cols A)) ++
  flat_map (fun i => line (fmt_int i)) (c_ptr A) ++
  flat_map (fun i => line (fmt_int i)) (c_idx A) ++
  flat_map (fun v => line (tc_fmt C 16 v)) (c_val A).

(** parser.hpp:588-594, 646-652  while (getline(file, line) && line.size() && line[0] == '%')
      symmetric |= line contains "symmetric".
    Returns the last line read; when getline fails the later extractions find nothing usable. *)
Fixpoint mtx_header (fuel : nat) (s : istream) (symmetric : bool) : res (list byte * istream * bool) :=
  match fuel with
  | O => Fail FUB
  | Datatypes.S k =>
      match getline s with
      | (None, s) => Ok ([], s, symmetric)
      | (Some line, s) =>
          match line with
          | 37 :: _ => mtx_header k s (symmetric || contains (txt "symmetric") line)
          | _ => Ok (line, s, symmetric)
          end
      end
  end.

(** parser.hpp:596-605, 654-663  the sizes, CooMatrix<T> coo(rows, cols) and Reserve(nnz) *)
Definition mtx_start (line : list byte) : res (coo S) :=
  let s := IS line true in
  let (rows, s) := extract scan_int s in
  let (cols, s) := extract scan_int s in
  let (nnz, s) := extract scan_int s in
  rows <- uninit rows ;; cols <- uninit cols ;; nnz <- uninit nnz ;;
  M <- coo_new_size rows cols ;;
  if nnz <? 0 then Fail FThrow else Ok M.

(** parser.hpp:577-625  ReadMTX *)
Definition read_mtx (file : list byte) : res csr :=
  let s := IS file true in
  '(line, s, symmetric) <- mtx_header (fuel_of s) s false ;;
  M <- mtx_start line ;;
  M <- while_read (fuel_of s) (extract3 scan_int scan_int (tc_scan C))
         (fun p M => let '(i, j, v) := p in add_maybe_sym symmetric (i - 1) (j - 1) v M) s M ;;
  coo_to_sparse M.

(** parser.hpp:635-683  ReadMTXList *)
Definition read_mtx_list (file : list byte) : res csr :=
  let s := IS file true in
  '(line, s, symmetric) <- mtx_header (fuel_of s) s false ;;
  M <- mtx_start line ;;
  M <- while_read (fuel_of s) (extract2 scan_int scan_int)
         (fun p M => let (i, j) := p in add_maybe_sym symmetric (i - 1) (j - 1) s1 M) s M ;;
  coo_to_sparse M.

(** parser.hpp:694-731  WriteMTX *)
Definition write_mtx (A : csr) : res (list byte) :=
  body <- for_ 0 (c_rows A) [] (fun i out =>
    b <- get (c_ptr A) i ;; e <- get (c_ptr A) (i + 1) ;;
    for_ b e out (fun j out =>
      c <- get (c_idx A) j ;; v <- get (c_val A) j ;;
      Ok (out ++ fmt_int (i + 1) ++ [SP] ++ fmt_int (c + 1) ++ [SP] ++ tc_fmt C 16 v ++ [NL]))) ;;
  Ok (txt "%MatrixMarket matrix coordinate real general" ++ [NL] ++
      fmt_int (c_rows A) ++ [SP] ++ fmt_int (c_cols A) ++ [SP] ++ fmt_int (sp_nnz A) ++ [NL] ++ body).

(* ---------------------------------------------------------------- binary *)

(** The bytes of a T in memory. *)
Record layout : Type := Layout {
  lo_size : nat;
  lo_enc : T -> list byte;
  lo_dec : list byte -> T
}.
Context (L : layout).

(** &v[0].  For an empty std::vector the standard leaves operator[] undefined; [lax] says that the
    implementation computes some pointer all the same (libstdc++ without _GLIBCXX_ASSERTIONS),
    which is harmless because no byte is then transferred. *)
Definition addr0 {X : Type} (lax : bool) (l : list X) : res unit :=
  match l with [] => if lax then Ok tt else Fail FUB | _ => Ok tt end.

(** file.write(&v[0], n * sizeof(X)) *)
Definition write_array {X : Type} (lax : bool) (enc : X -> list byte) (v : list X) (n : Z) : res (list byte) :=
  addr0 lax v ;;;
  if n <=? zlen v then Ok (flat_map enc (firstn (Z.to_nat n) v)) else Fail FUB.

(** std::vector<X>(n), n a size_t: more than PTRDIFF_MAX bytes throw *)
Definition vec_size {X : Type} (n : Z) (w : nat) (a : X) : res (list X) :=
  if 2 ^ 63 - 1 <? n * Z.of_nat w then Fail FThrow else vec n a.

(** file.read(&v[0], n * sizeof(X)) into a vector of n elements *)
Definition read_into {X : Type} (lax : bool) (w : nat) (enc : X -> list byte) (dec : list byte -> X)
    (v : list X) (s : istream) : res (list X * istream) :=
  addr0 lax v ;;;
  let (bytes, s) := read_bytes (flat_map enc v) s in
  Ok (chunks (List.length v) w dec bytes, s).

(** parser.hpp:71-87  WriteBinary(vector) *)
Definition write_binary_vect (lax : bool) (v : list T) : res (list byte) :=
  d <- write_array lax (lo_enc L) v (zlen v) ;; Ok (enc_size (zlen v) ++ d).

(** parser.hpp:95-114  ReadBinaryVect *)
Definition read_binary_vect (lax : bool) (file : list byte) : res (list T) :=
  let s := IS file true in
  let (size, s) := read_bytes (enc_size 0) s in
  v <- vec_size (dec_size size) (lo_size L) s0 ;;
  '(v, s) <- read_into lax (lo_size L) (lo_enc L) (lo_dec L) v s ;;
  Ok v.

(** parser.hpp:124-151  WriteBinary(SparseMatrix) *)
Definition write_binary_mat (lax : bool) (A : csr) : res (list byte) :=
  ip <- write_array lax enc_int (c_ptr A) (c_rows A + 1) ;;
  ix <- write_array lax enc_int (c_idx A) (sp_nnz A) ;;
  d <- write_array lax (lo_enc L) (c_val A) (sp_nnz A) ;;
  Ok (enc_size (c_rows A) ++ enc_size (c_cols A) ++ enc_size (sp_nnz A) ++ ip ++ ix ++ d).

(** An uninitialised size_t read from the file: unless all 8 bytes arrived it is undefined. *)
Definition read_size (s : istream) : res (Z * istream) :=
  let (b, s) := read_bytes (enc_size 0) s in
  if i_ok s then Ok (dec_size b, s) else Fail FUB.

(** parser.hpp:160-190  ReadBinaryMat *)
Definition read_binary_mat (lax : bool) (file : list byte) : res csr :=
  let s := IS file true in
  '(rows, s) <- read_size s ;; '(cols, s) <- read_size s ;; '(nnz, s) <- read_size s ;;
  ip <- vec_size ((rows + 1) mod 2 ^ 64) 4 0 ;;
  ix <- vec_size nnz 4 0 ;;
  d <- vec_size nnz (lo_size L) s0 ;;
  '(ip, s) <- read_into lax 4 enc_int dec_int ip s ;;
  '(ix, s) <- read_into lax 4 enc_int dec_int ix s ;;
  '(d, s) <- read_into lax (lo_size L) (lo_enc L) (lo_dec L) d s ;;
  sp_make ip ix d (to_int rows) (to_int cols).

End Parser.

Arguments codec S : clear implicits.
Arguments layout S : clear implicits.
