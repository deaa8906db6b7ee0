(** Printing: the text written to a stream by Print and operator<<.

    The stream is in its initial state except for the precision p (6 unless the caller changed
    it): no width, decimal integers, %g for floating point.  [tc_fmt C p v] is the text of the
    value v.  Output errors are not modelled. *)

From Coq Require Import ZArith List Bool String SpecFloat.
From Verif Require Import Base Scalar Spec Text Parser Double Dense Sparse Coo Lil Block Par.
Import ListNotations.
Open Scope list_scope.
Open Scope Z_scope.

(** std::setw(w): spaces on the left up to w characters *)
Definition pad (w : Z) (t : list byte) : list byte := repeat SP (Z.to_nat (w - zlen t)) ++ t.

Section Print.
Context {S : scalar}.
Notation T := (car S).
Notation csr := (csr S).
Context (C : codec S) (p : Z).

(** vectorview.hpp:367-380  VectorView::Print *)
Definition v_print (label : list byte) (v : list T) : list byte :=
  label ++ [NL] ++ flat_map (fun t => tc_fmt C p t ++ [NL]) v ++ [NL].

(** vectorview.hpp:477-484  operator<<(out, VectorView) *)
Definition v_show (v : list T) : list byte := v_print [] v.

(** sparsematrix.hpp:525-543  SparseMatrix::Print *)
Definition sp_print (label : list byte) (A : csr) : res (list byte) :=
  out <- for_entries (c_rows A) (c_ptr A) (label ++ [NL]) (fun i j out =>
    c <- get (c_idx A) j ;; v <- get (c_val A) j ;;
    Ok (out ++ txt "(" ++ fmt_int i ++ txt ", " ++ fmt_int c ++ txt ") " ++ pad 6 (tc_fmt C p v) ++ [NL])) ;;
  Ok (out ++ [NL]).

(** coomatrix.hpp:672-687  CooMatrix::Print *)
Definition coo_print (label : list byte) (M : coo S) : list byte :=
  label ++ [NL] ++
  flat_map (fun e : entry S => txt "(" ++ fmt_int (erow e) ++ txt ", " ++ fmt_int (ecol e) ++ txt ") " ++ tc_fmt C p (evalue e) ++ [NL]) (o_entries M) ++
  [NL].

(** lilmatrix.hpp:458-478  LilMatrix::Print *)
Definition lil_print (label : list byte) (M : lil S) : res (list byte) :=
  out <- for_ 0 (zlen (l_lists M)) (label ++ [NL]) (fun i out =>
    row <- get (l_lists M) i ;;
    Ok (out ++ flat_map (fun n : Z * T => txt "(" ++ fmt_int i ++ txt ", " ++ fmt_int (fst n) ++ txt ") " ++ tc_fmt C p (snd n) ++ [NL]) row)) ;;
  Ok (out ++ [NL]).

(** blockmatrix.hpp:290-310  BlockMatrix::Print; the label of a block is made in a stringstream *)
Definition bm_print (label : list byte) (M : bmat S) : res (list byte) :=
  for_ 0 (zlen (bm_ro M) - 1) (label ++ [NL]) (fun i out =>
    for_ 0 (zlen (bm_co M) - 1) out (fun j out =>
      row <- get (bm_A M) i ;; B <- get row j ;;
      t <- sp_print (txt "block (" ++ fmt_int i ++ txt "," ++ fmt_int j ++ txt ")") B ;;
      Ok (out ++ t))).

(** parmatrix.cpp:326-335  ParMatrix::Print, on one rank; vectorview.hpp:757-770
    operator<<(out, std::vector) for the column map *)
Definition pm_print (label : list byte) (A : parmat S) : res (list byte) :=
  d <- sp_print (txt "Diag:") (pm_diag A) ;;
  o <- sp_print (txt "Offd:") (pm_offd A) ;;
  Ok (label ++ [NL] ++ d ++ o ++ txt "ColMap:" ++ [NL] ++ flat_map (fun i => fmt_int i ++ [NL]) (pm_map A) ++ [NL]).

End Print.

(* ---------------------------------------------------------------- dense *)

(** %.pf of n / 10^p, n >= 0 *)
Definition fixed_text (p n : Z) : list byte :=
  dec (n / 10 ^ p) ++
  (if p =? 0 then [] else DOT :: repeat 48 (Z.to_nat (p - zlen (dec (n mod 10 ^ p)))) ++ dec (n mod 10 ^ p)).

(** std::fixed << std::setprecision(p) << x: rounded to p decimals, ties to even *)
Definition fmt_fixed (p : Z) (x : spec_float) : list byte :=
  match x with
  | S754_zero s => (if s then [MINUS] else []) ++ fixed_text p 0
  | S754_infinity s => (if s then [MINUS] else []) ++ txt "inf"
  | S754_nan => txt "nan"
  | S754_finite s m e =>
      (if s then [MINUS] else []) ++ fixed_text p (nearest (Z.pos m * 2 ^ (e + 1074) * 10 ^ p) (2 ^ 1074))
  end.

(** densematrix.cpp:116-136  DenseMatrix::Print (its own stringstream; 0 <= precision) *)
Definition d_print (label : list byte) (width precision : Z) (D : dense SFs) : res (list byte) :=
  out <- for_ 0 (d_rows D) (label ++ [NL]) (fun i out =>
    out <- for_ 0 (d_cols D) out (fun j out =>
      x <- d_get D i j ;; Ok (out ++ pad width (fmt_fixed precision x))) ;;
    Ok (out ++ [NL])) ;;
  Ok (out ++ [NL]).

(** sparsematrix.hpp:545-551  SparseMatrix::PrintDense, width 8 and precision 4 *)
Definition sp_print_dense (label : list byte) (A : csr SFs) : res (list byte) :=
  D <- sp_to_dense A ;; d_print label 8 4 D.

(** blockmatrix.hpp:312-316  BlockMatrix::PrintDense *)
Definition bm_print_dense (label : list byte) (M : bmat SFs) : res (list byte) :=
  A <- bm_combine M ;; sp_print_dense label A.
