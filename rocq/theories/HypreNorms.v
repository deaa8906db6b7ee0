(** Model of modules/parlinalgcpp/src/hypre_ops.cpp: hypre_ParCSRComputeL1Norms. *)

From Coq Require Import ZArith List Bool.
From Verif Require Import Base Scalar Spec Dense Sparse Par.
Import ListNotations.
Open Scope Z_scope.

Section HypreNorms.
Context {S : scalar}.
Notation T := (car S).

(** hypre_ops.cpp:1216, 1253, 1271: A_diag_data[A_diag_I[i]] *)
Definition first_value (A : parmat S) (i : Z) : res T := k <- get (c_ptr (pm_diag A)) i ;; get (c_val (pm_diag A)) k.

(** hypre_ops.cpp:1195-1198, 1203-1206, ...: for (j = I[i]; j < I[i + 1]; j++) l1_norm[i] += ...;
    [f] is the update of l1_norm[i] with a value of the row. *)
Definition add_values (f : T -> T -> T) (M : csr S) (i : Z) (l : list T) : res (list T) :=
  lo <- get (c_ptr M) i ;; hi <- get (c_ptr M) (i + 1) ;;
  for_ lo hi l (fun j l => v <- get (c_val M) j ;; x <- get l i ;; set l i (f x v)).

(** hypre_ops.cpp:1201-1207, ...: the loop over the offd block is guarded by if (num_cols_offd) *)
Definition add_offd (f : T -> T -> T) (A : parmat S) (i : Z) (l : list T) : res (list T) :=
  if c_cols (pm_offd A) =? 0 then Ok l else add_values f (pm_offd A) i l.

(** a <= b; false when one of them is NaN *)
Definition le (a b : T) : bool := slt a b || seqb a b.

(** hypre_ops.cpp:1168-1289; [half] and [ratio] are 0.5 and 4.0 / 3.0.  The flag says whether
    hypre_error_in_arg(1) was called (hypre_ops.cpp:1278-1286). *)
Definition l1_norms (half ratio : T) (option : Z) (A : parmat S) (l : list T) : res (list T * bool) :=
  let n := pm_rows A in
  let l := resize l n s0 in
  l <- (if option =? 1 then
          for_ 0 n l (fun i l =>
            l <- set l i s0 ;;
            l <- add_values (fun x v => sadd x (sabs v)) (pm_diag A) i l ;;
            add_offd (fun x v => sadd x (sabs v)) A i l)
        else if option =? 2 then
          for_ 0 n l (fun i l =>
            d <- first_value A i ;; l <- set l i (sabs d) ;;
            add_offd (fun x v => sadd x (sabs v)) A i l)
        else if option =? 3 then
          for_ 0 n l (fun i l =>
            l <- set l i s0 ;;
            l <- add_values (fun x v => sadd x (smul v v)) (pm_diag A) i l ;;
            add_offd (fun x v => sadd x (smul v v)) A i l)
        else if option =? 4 then
          for_ 0 n l (fun i l =>
            d <- first_value A i ;; l <- set l i (sabs d) ;;
            l <- add_offd (fun x v => sadd x (smul half (sabs v))) A i l ;;
            x <- get l i ;;
            if le x (smul ratio (sabs d)) then set l i (sabs d) else Ok l)
        else Ok l) ;;
  l <- for_ 0 n l (fun i l =>
    d <- first_value A i ;;
    if slt d s0 then x <- get l i ;; set l i (sopp x) else Ok l) ;;
  Ok (l, existsb (fun x => seqb (sabs x) s0) l).

End HypreNorms.
