(** What a program sees of its solvers (C107): a solver is no more than two pointers, its settings
    and the count of its last solve.  It has no work vectors. *)

From Coq Require Import ZArith List Bool.
From Verif Require Import Base Scalar Spec Block Solver SolverSpec Life SolverObj.
Import ListNotations.
Open Scope Z_scope.

Section Spec.
Context {S : scalar}.
Notation T := (car S).
Context (root : T -> T) (floor : T) (dots : list (dotp S)).
Notation ops := (memory_of_ops S).

Record handle : Type := Handle {
  h_n : Z;                (* Rows() and Cols() *)
  h_A : option Z; h_M : option Z; h_dot : option Z;
  h_max : Z; h_rel : T; h_abs : T; h_verbose : bool;
  h_last : Z }.

(** A default-constructed solver, and one that was moved from *)
Definition blank : handle := Handle 0 None None None 0 s0 s0 false 0.

(** The three classes; MINRES has no preconditioner, PMINRES always has one. *)
Inductive method : Type := UsePCG | UseMINRES | UsePMINRES.
Definition takes (c : method) (M : option Z) : Prop :=
  match c, M with UseMINRES, Some _ => False | UsePMINRES, None => False | _, _ => True end.

(** Mult of a solver that was built a moment ago on the operators A and M and has never solved
    anything, after its limits were set to [par]: the solution and the number of passes. *)
Definition new_settings : sparams S := SParams 0 s0 s0 floor.
Definition solve_new (c : method) (A : op S unit) (M : option (op S unit)) (dot : dotp S) (par : sparams S) (b x : list T) :
    res (list T * Z) :=
  match c with
  | UsePCG =>
      u <- pcg_new A M new_settings ;;
      '(_, _, x, k) <- pcg_mult A M dot par tt u b x ;; Ok (x, k)
  | UseMINRES =>
      u <- minres_new A None new_settings ;;
      '(_, _, _, x, k) <- minres_mult root A dot par tt u b x ;; Ok (x, k)
  | UsePMINRES =>
      match M with
      | None => Fail FUB
      | Some P =>
          u <- minres_new A M new_settings ;;
          '(_, _, _, x, k) <- pminres_mult root A P dot par tt u b x ;; Ok (x, k)
      end
  end.

(** The operator a pointer leads to: a null pointer and a destroyed operator are undefined. *)
Definition operator_at (m : ops) (p : Z) : res (op S unit) :=
  match get m p with Ok (Some A) => Ok A | _ => Fail FUB end.
Definition maybe_at (m : ops) (p : option Z) : res (option (op S unit)) :=
  match p with None => Ok None | Some p => M <- operator_at m p ;; Ok (Some M) end.

(** Mult: the operators are looked up when it is called. *)
Definition solve (c : method) (m : ops) (h : handle) (b x : list T) : res (list T * Z) :=
  match h_A h with
  | None => Fail FAssert
  | Some a =>
      A <- operator_at m a ;;
      if (zlen b =? o_rows A) && (zlen x =? o_rows A) then
        M <- maybe_at m (h_M h) ;;
        dot <- match h_dot h with Some d => get dots d | None => Fail FUB end ;;
        solve_new c A M dot (SParams (h_max h) (h_rel h) (h_abs h) floor) b x
      else Fail FAssert
  end.

(** The constructors: A and M are square and of one size, and the limit is not negative. *)
Definition construct (m : ops) (a : Z) (M : option Z) (max : Z) (rel abs : T) (verbose : bool) (d : Z) : res handle :=
  A <- operator_at m a ;;
  if (o_rows A =? o_cols A) && (0 <=? max) then
    P <- maybe_at m M ;;
    if match P with Some P => (o_rows P =? o_rows A) && (o_cols P =? o_rows A) | None => true end
    then Ok (Handle (o_rows A) (Some a) M (Some d) max rel abs verbose 0)
    else Fail FAssert
  else Fail FAssert.

(** SetOperator: the new operator has the size of the one in use, which must still exist. *)
Definition redirect (m : ops) (h : handle) (a : Z) : res handle :=
  A <- operator_at m a ;;
  old <- match h_A h with Some p => operator_at m p | None => Fail FUB end ;;
  if (o_rows A =? o_rows old) && (o_cols A =? o_cols old)
  then Ok (Handle (h_n h) (Some a) (h_M h) (h_dot h) (h_max h) (h_rel h) (h_abs h) (h_verbose h) (h_last h))
  else Fail FAssert.

Definition update (hs : list handle) (x : Z) (f : handle -> res handle) : res (list handle) :=
  h <- get hs x ;; h <- f h ;; set hs x h.

(** The program on handles *)
Definition hstep (c : method) (w : ops * list handle) (p : act S) : res (ops * list handle * list (out S)) :=
  let (m, hs) := w in
  match p with
  | ADefault => Ok (m, hs ++ [blank], [])
  | ANew a M max rel abs verbose d => h <- construct m a M max rel abs verbose d ;; Ok (m, hs ++ [h], [])
  | ACopy y => h <- get hs y ;; Ok (m, hs ++ [h], [])
  | AMove y => h <- get hs y ;; hs <- set hs y blank ;; Ok (m, hs ++ [h], [])
  | AAssign x y => h <- get hs y ;; hs <- set hs x h ;; Ok (m, hs, [])
  | AMoveAssign x y => h <- get hs y ;; hs <- set hs y blank ;; hs <- set hs x h ;; Ok (m, hs, [])
  | ASwap x y => h <- get hs x ;; k <- get hs y ;; hs <- set hs x k ;; hs <- set hs y h ;; Ok (m, hs, [])
  | AVerbose x v => hs <- update hs x (fun h =>
      Ok (Handle (h_n h) (h_A h) (h_M h) (h_dot h) (h_max h) (h_rel h) (h_abs h) v (h_last h))) ;; Ok (m, hs, [])
  | AMaxIter x k => hs <- update hs x (fun h =>
      Ok (Handle (h_n h) (h_A h) (h_M h) (h_dot h) k (h_rel h) (h_abs h) (h_verbose h) (h_last h))) ;; Ok (m, hs, [])
  | ARelTol x t => hs <- update hs x (fun h =>
      Ok (Handle (h_n h) (h_A h) (h_M h) (h_dot h) (h_max h) t (h_abs h) (h_verbose h) (h_last h))) ;; Ok (m, hs, [])
  | AAbsTol x t => hs <- update hs x (fun h =>
      Ok (Handle (h_n h) (h_A h) (h_M h) (h_dot h) (h_max h) (h_rel h) t (h_verbose h) (h_last h))) ;; Ok (m, hs, [])
  | ASetOperator x a => hs <- update hs x (fun h => redirect m h a) ;; Ok (m, hs, [])
  | AMult x b v t =>
      h <- get hs x ;;
      let counted k := set hs x (Handle (h_n h) (h_A h) (h_M h) (h_dot h) (h_max h) (h_rel h) (h_abs h) (h_verbose h) k) in
      match solve c m h b v with
      | Ok (v, k) => hs <- counted k ;; Ok (m, hs, [OVec v])
      | Fail FThrow => hs <- counted (fst t) ;; Ok (m, hs, [OThrow])
      | Fail e => Fail e
      end
  | AGetNum x => h <- get hs x ;; Ok (m, hs, [OInt (h_last h)])
  | AGetOperator x => h <- get hs x ;; Ok (m, hs, [OPtr (h_A h)])
  | ARows x => h <- get hs x ;; Ok (m, hs, [OInt (h_n h)])
  | ACols x => h <- get hs x ;; Ok (m, hs, [OInt (h_n h)])
  | AChange a B => m <- set m a B ;; Ok (m, hs, [])
  end.

Fixpoint hrun (c : method) (w : ops * list handle) (ps : list (act S)) : list (out S) * option fault :=
  match ps with
  | [] => ([], None)
  | p :: ps =>
      match hstep c w p with
      | Ok (w, o) => let (os, e) := hrun c w ps in (o ++ os, e)
      | Fail e => ([], Some e)
      end
  end.

(** An operator of r x s numbers; a square one computes some function of its input. *)
Definition good_op (rs : Z * Z) (o : option (op S unit)) : Prop :=
  match o with
  | None => True
  | Some A => (o_rows A, o_cols A) = rs /\ 0 <= o_rows A /\ 0 <= o_cols A /\
              (o_rows A = o_cols A -> exists f, computes (fun _ => True) A (o_rows A) f)
  end.

(** The operators in memory; [size] gives the size of the operator at every address, which never
    changes. *)
Definition good_ops (size : Z -> Z * Z) (m : ops) : Prop :=
  forall a o, get m a = Ok o -> good_op (size a) o.

(** A program that constructs solvers of class c and changes operators without resizing them *)
Definition good_act (c : method) (size : Z -> Z * Z) (p : act S) : Prop :=
  match p with
  | ANew _ M _ _ _ _ _ => takes c M
  | AChange a B => good_op (size a) B
  | _ => True
  end.

(** Every function in the table returns a number on vectors of one length. *)
Definition good_dots : Prop := forall dot, In dot dots -> forall n, 0 <= n -> exists d, dot_gives dot n d.

End Spec.

Arguments handle S : clear implicits.
