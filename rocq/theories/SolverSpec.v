(** What the solver theorems talk about. *)

From Coq Require Import ZArith List Bool.
From Verif Require Import Base Scalar Spec Block Solver.
Import ListNotations.
Open Scope Z_scope.

Section SolverSpec.
Context {S : scalar}.
Notation T := (car S).

(** In every state satisfying I, Mult(x) returns f(x) whatever the output held before, and I
    holds again.  MultAT is not mentioned: an operator need not have one. *)
Definition op_applies {W : Type} (I : W -> Prop) (o : op S W) (f : list T -> list T) : Prop :=
  0 <= o_rows o /\
  forall w x out, I w -> zlen x = o_cols o -> zlen out = o_rows o ->
    zlen (f x) = o_rows o /\ exists w', o_mult o w x out = Ok (w', f x) /\ I w'.

(** [o] has n rows and n columns, and its Mult computes f, whatever f is. *)
Definition computes {W : Type} (I : W -> Prop) (o : op S W) (n : Z) (f : list T -> list T) : Prop :=
  o_rows o = n /\ o_cols o = n /\ op_applies I o f.

(** A x as a list of n numbers. *)
Definition mat_list (A : mat S) (n : Z) (x : list T) : list T := map (mat_vec A n (vec_of x)) (zrange 0 n).

(** [o] is an n x n operator whose Mult computes the product with the matrix A. *)
Definition acts_as {W : Type} (I : W -> Prop) (o : op S W) (n : Z) (A : mat S) : Prop :=
  o_rows o = n /\ o_cols o = n /\ op_applies I o (mat_list A n).

(** The preconditioner computes f on vectors of length n; without one, f is the identity. *)
Definition prec_applies {W : Type} (I : W -> Prop) (M : option (op S W)) (n : Z) (f : list T -> list T) : Prop :=
  match M with
  | Some m => o_rows m = n /\ o_cols m = n /\ op_applies I m f
  | None => forall x, zlen x = n -> f x = x
  end.

(** The function passed as Dot returns d(x, y) on vectors of length n. *)
Definition dot_gives (dot : dotp S) (n : Z) (d : list T -> list T -> T) : Prop :=
  forall x y, zlen x = n -> zlen y = n -> dot x y = Ok (d x y).

(** b - A x *)
Definition residual (A : mat S) (n : Z) (b x : list T) : list T :=
  map (fun i => (vec_of b i - mat_vec A n (vec_of x) i)%S) (zrange 0 n).

Definition larger (a b : T) : T := if slt a b then b else a.
(** The larger of the relative and the absolute tolerance, both squared, as the solvers use it:
    [q] is the value to which the relative tolerance refers. *)
Definition tolerance (par : sparams S) (q : T) : T :=
  larger (q * sp_rel par * sp_rel par)%S (sp_abs par * sp_abs par)%S.

(** All entries zero. *)
Definition all_zero (x : list T) : Prop := forall i, 0 <= i < zlen x -> vec_of x i = s0.

(** The same operator, counting how often Mult is called. *)
Definition counting {W : Type} (o : op S W) : op S (W * Z) :=
  Op (W * Z) (o_rows o) (o_cols o)
    (fun w x out => '(w', y) <- o_mult o (fst w) x out ;; Ok ((w', snd w + 1), y))
    (fun w x out => '(w', y) <- o_multAT o (fst w) x out ;; Ok ((w', snd w), y)).

(** The same operator next to a counter it leaves alone. *)
Definition beside {W : Type} (o : op S W) : op S (W * Z) :=
  Op (W * Z) (o_rows o) (o_cols o)
    (fun w x out => '(w', y) <- o_mult o (fst w) x out ;; Ok ((w', snd w), y))
    (fun w x out => '(w', y) <- o_multAT o (fst w) x out ;; Ok ((w', snd w), y)).

(** A is symmetric, and positive definite, on indices 0..n-1. *)
Definition mat_sym (n : Z) (A : mat S) : Prop :=
  forall i j, 0 <= i < n -> 0 <= j < n -> A i j = A j i.
Definition mat_pos_def (n : Z) (A : mat S) : Prop :=
  forall x : vect S, (exists i, 0 <= i < n /\ x i <> s0) -> slt s0 (inner n x (mat_vec A n x)) = true.

(** (x - y)^T A (x - y) *)
Definition energy_dist (A : mat S) (n : Z) (x y : vect S) : T :=
  let e := fun i => (x i - y i)%S in inner n e (mat_vec A n e).

(** Ordered ring: the product of non-negative numbers is non-negative. *)
Definition prod_order_laws (Sc : scalar) : Prop :=
  forall a b : car Sc, sle s0 a -> sle s0 b -> sle s0 (smul a b).

(** |a|^2 = a^2 *)
Definition abs_square_law (Sc : scalar) : Prop :=
  forall a : car Sc, smul (sabs a) (sabs a) = smul a a.

(** A x = 0 only for x = 0. *)
Definition mat_nonsingular (n : Z) (A : mat S) : Prop :=
  forall x : vect S, (forall i, 0 <= i < n -> mat_vec A n x i = s0) -> forall i, 0 <= i < n -> x i = s0.

(** What is expected of std::sqrt in exact arithmetic. *)
Definition root_laws (root : T -> T) : Prop :=
  forall a : T, sle s0 a -> sle s0 (root a) /\ (root a * root a)%S = a.

(** e is the norm of r in the inner product given by the matrix G: e >= 0 and e^2 = r^T G r. *)
Definition norm_of (n : Z) (G : mat S) (r : list T) (e : T) : Prop :=
  sle s0 e /\ (e * e)%S = inner n (vec_of r) (mat_vec G n (vec_of r)).

(** The identity matrix. *)
Definition id_mat : mat S := fun i j => if i =? j then s1 else s0.

(** Two calls of Mult end the same way: same fault, or same x and iteration count. *)
Definition same_pcg {W : Type} (r1 r2 : res (W * pbuf S * list T * Z)) : Prop :=
  match r1, r2 with
  | Ok (_, _, x1, k1), Ok (_, _, x2, k2) => x1 = x2 /\ k1 = k2
  | Fail e1, Fail e2 => e1 = e2
  | _, _ => False
  end.
Definition same_minres {W : Type} (r1 r2 : res (W * mbuf S * mloc S * list T * Z)) : Prop :=
  match r1, r2 with
  | Ok (_, _, _, x1, k1), Ok (_, _, _, x2, k2) => x1 = x2 /\ k1 = k2
  | Fail e1, Fail e2 => e1 = e2
  | _, _ => False
  end.

(** A history of calls Mult(b, x) on one solver object, and what it leaves behind. *)
Fixpoint pcg_calls {W : Type} (A : op S W) (M : option (op S W)) (dot : dotp S) (par : sparams S)
    (l : list (list T * list T)) (w : W) (u : pbuf S) : res (W * pbuf S) :=
  match l with
  | [] => Ok (w, u)
  | (b, x) :: l => '(w', u', _, _) <- pcg_mult A M dot par w u b x ;; pcg_calls A M dot par l w' u'
  end.
Fixpoint minres_calls {W : Type} (root : T -> T) (A : op S W) (dot : dotp S) (par : sparams S)
    (l : list (list T * list T)) (w : W) (u : mbuf S) : res (W * mbuf S) :=
  match l with
  | [] => Ok (w, u)
  | (b, x) :: l => '(w', u', _, _, _) <- minres_mult root A dot par w u b x ;; minres_calls root A dot par l w' u'
  end.
Fixpoint pminres_calls {W : Type} (root : T -> T) (A M : op S W) (dot : dotp S) (par : sparams S)
    (l : list (list T * list T)) (w : W) (u : mbuf S) : res (W * mbuf S) :=
  match l with
  | [] => Ok (w, u)
  | (b, x) :: l => '(w', u', _, _, _) <- pminres_mult root A M dot par w u b x ;; pminres_calls root A M dot par l w' u'
  end.

(** (w, u) is a state a MINRESSolver (PMINRESSolver) object can be in: constructed in a state
    satisfying I, then used for any number of calls. *)
Definition minres_state {W : Type} (I : W -> Prop) (root : T -> T) (A : op S W) (dot : dotp S) (par : sparams S)
    (n : Z) (w : W) (u : mbuf S) : Prop :=
  exists l w0 u0, I w0 /\ minres_new A None par = Ok u0 /\
    Forall (fun c => zlen (fst c) = n /\ zlen (snd c) = n) l /\ minres_calls root A dot par l w0 u0 = Ok (w, u).
Definition pminres_state {W : Type} (I : W -> Prop) (root : T -> T) (A M : op S W) (dot : dotp S) (par : sparams S)
    (n : Z) (w : W) (u : mbuf S) : Prop :=
  exists l w0 u0, I w0 /\ minres_new A (Some M) par = Ok u0 /\
    Forall (fun c => zlen (fst c) = n /\ zlen (snd c) = n) l /\ pminres_calls root A M dot par l w0 u0 = Ok (w, u).

End SolverSpec.
