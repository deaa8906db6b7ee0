(** Model of the Krylov solvers of src/solvers.cpp run on all ranks of an MPI job, with a distributed
    operator (ParMatrix, ParSolver) and Dot_ = ParMult (parvector.hpp:170-174, parvector.cpp:229-237).

    Every rank runs the same function on its local vectors.  It can do three kinds of things: local
    work on its vectors, an inner product (local, then MPI_Allreduce), and a product with an operator.
    The last two are collective: they complete when all ranks have called them.  A function is a
    [script]; [run] is its execution in one process, [spmd] on all ranks.

    Simplified: vectors are lists (as in Solver.v), operators keep no state, and the vectors given to
    [Each] are checked to have the same size, where the loops of MINRESSolver are unchecked. *)

From Coq Require Import ZArith List Bool.
From Verif Require Import Base Scalar Spec Vec Block Solver Par.
Import ListNotations.
Open Scope Z_scope.

(** What becomes of a parallel run: every rank returns, some rank fails, or the ranks wait for each
    other (one has left the function or called another collective operation). *)
Inductive outcome (X : Type) : Type := Done (x : X) | Crash (f : fault) | Deadlock.
Arguments Done {X}. Arguments Crash {X}. Arguments Deadlock {X}.

Definition obind {X Y} (o : outcome X) (f : X -> outcome Y) : outcome Y :=
  match o with Done x => f x | Crash e => Crash e | Deadlock => Deadlock end.

Section Spmd.
Context {S : scalar}.
Notation T := (car S).

(* ---------------------------------------------------------------- functions *)

(** A function that returns an A; vectors have numbers. *)
Inductive script (A : Type) : Type :=
| Halt (a : A)                                                        (* return *)
| Raise (f : fault)                                                   (* throw, or a failed assertion *)
| Sizes (i j : Z) (k : script A)                                      (* assert(i.size() == j.size()) *)
| Swap (i j : Z) (k : script A)                                       (* std::swap(i, j) *)
| Each (d i j l : Z) (f : T -> T -> T -> T) (k : script A)            (* d[t] = f(i[t], j[t], l[t]) for all t *)
| Inner (i j : Z) (k : T -> script A)                                 (* ( *Dot_)(i, j) *)
| Apply (o i d : Z) (k : script A).                                   (* operator o: o->Mult(i, d) *)

Definition store : Type := Z -> list T.
Definition put (st : store) (d : Z) (v : list T) : store := fun i => if i =? d then v else st i.

(** An entrywise loop over vectors of one size *)
Definition each (f : T -> T -> T -> T) (st : store) (d i j l : Z) : res (list T) :=
  let n := zlen (st d) in
  assert_ (zlen (st i) =? n) ;;; assert_ (zlen (st j) =? n) ;;; assert_ (zlen (st l) =? n) ;;;
  Ok (map (fun t => f (zn s0 (st i) t) (zn s0 (st j) t) (zn s0 (st l) t)) (zrange 0 n)).

(** Execution in one process; [ops o x y] is the product of operator o with x into y *)
Fixpoint run {A} (ops : Z -> list T -> list T -> res (list T)) (s : script A) (st : store) : res (A * store) :=
  match s with
  | Halt _ a => Ok (a, st)
  | Raise _ f => Fail f
  | Sizes _ i j k => assert_ (zlen (st i) =? zlen (st j)) ;;; run ops k st
  | Swap _ i j k => run ops k (put (put st i (st j)) j (st i))
  | Each _ d i j l f k => v <- each f st d i j l ;; run ops k (put st d v)
  | Inner _ i j k => d <- l_inner (st i) (st j) ;; run ops (k d) st
  | Apply _ o i d k => y <- ops o (st i) (st d) ;; run ops k (put st d y)
  end.

(* ---------------------------------------------------------------- all ranks *)

(** Where a rank stops: at the end, at a fault, or at a collective operation *)
Inductive blocked (A : Type) : Type :=
| BHalt (a : A) (st : store)
| BRaise (f : fault)
| BInner (d : T) (k : T -> script A) (st : store)
| BApply (o i d : Z) (k : script A) (st : store).

(** [par] says which function Dot_ is: ParMult, or the default InnerProduct (solvers.hpp:51), which
    does not communicate. *)
Section Ranks.
Context (par : bool).

(** One rank runs up to the next collective operation. *)
Fixpoint advance {A} (s : script A) (st : store) : blocked A :=
  match s with
  | Halt _ a => BHalt _ a st
  | Raise _ f => BRaise _ f
  | Sizes _ i j k => if zlen (st i) =? zlen (st j) then advance k st else BRaise _ FAssert
  | Swap _ i j k => advance k (put (put st i (st j)) j (st i))
  | Each _ d i j l f k => match each f st d i j l with Ok v => advance k (put st d v) | Fail e => BRaise _ e end
  | Inner _ i j k =>
      match l_inner (st i) (st j) with Ok d => if par then BInner _ d k st else advance (k d) st | Fail e => BRaise _ e end
  | Apply _ o i d k => BApply _ o i d k st
  end.

(** All ranks have to be where [f] accepts them; a fault on a rank ends the job. *)
Fixpoint expect {A X} (f : blocked A -> option X) (bs : list (blocked A)) : outcome (list X) :=
  match bs with
  | [] => Done []
  | b :: bs =>
      match b with
      | BRaise _ e => Crash e
      | _ => match f b with
             | Some x => obind (expect f bs) (fun l => Done (x :: l))
             | None => match expect f bs with Crash e => Crash e | _ => Deadlock end
             end
      end
  end.

Definition halted {A} (b : blocked A) : option (A * store) := match b with BHalt _ a st => Some (a, st) | _ => None end.
Definition at_inner {A} (b : blocked A) : option (T * (T -> script A) * store) :=
  match b with BInner _ d k st => Some (d, k, st) | _ => None end.
Definition at_apply {A} (o : Z) (b : blocked A) : option (Z * Z * script A * store) :=
  match b with BApply _ o' i d k st => if o' =? o then Some (i, d, k, st) else None | _ => None end.

(** The ranks together: rank 0 at [s], the others where they stopped.  [red] is MPI_Allreduce, [ops o xs ys]
    the collective product: the inputs and the outputs of all ranks before, the outputs after. *)
Fixpoint together {A} (red : allreduce) (ops : Z -> list (list T) -> list (list T) -> res (list (list T)))
    (s : script A) (st : store) (bs : list (blocked A)) : outcome (list (A * store)) :=
  match s with
  | Halt _ a => obind (expect halted bs) (fun l => Done ((a, st) :: l))
  | Raise _ f => Crash f
  | Sizes _ i j k => if zlen (st i) =? zlen (st j) then together red ops k st bs else Crash FAssert
  | Swap _ i j k => together red ops k (put (put st i (st j)) j (st i)) bs
  | Each _ d i j l f k => match each f st d i j l with Ok v => together red ops k (put st d v) bs | Fail e => Crash e end
  | Inner _ i j k =>
      match l_inner (st i) (st j) with
      | Fail e => Crash e
      | Ok d =>
          if par then
            obind (expect at_inner bs) (fun l =>
              let ds := d :: map (fun x => fst (fst x)) l in
              together red ops (k (red 0 ds)) st
                (map (fun r => match get l (r - 1) with Ok (_, k, st) => advance (k (red r ds)) st | Fail e => BRaise _ e end) (zrange 1 (zlen ds))))
          else together red ops (k d) st bs
      end
  | Apply _ o i d k =>
      obind (expect (at_apply o) bs) (fun l =>
        match ops o (st i :: map (fun '(i, _, _, st) => st i) l) (st d :: map (fun '(_, d, _, st) => st d) l) with
        | Ok (y :: ys) => together red ops k (put st d y) (map (fun '((_, d, k, st), y) => advance k (put st d y)) (combine l ys))
        | Ok [] => Crash FUB
        | Fail e => Crash e
        end)
  end.

(** The job: the function on every rank with the vectors of the rank *)
Definition spmd {A} (red : allreduce) (ops : Z -> list (list T) -> list (list T) -> res (list (list T)))
    (s : script A) (sts : list store) : outcome (list (A * store)) :=
  match sts with
  | [] => Done []
  | st :: sts => together red ops s st (map (advance s) sts)
  end.

End Ranks.

Arguments Halt {A}. Arguments Raise {A}. Arguments Sizes {A}. Arguments Swap {A}. Arguments Each {A}. Arguments Inner {A}. Arguments Apply {A}.

(* ---------------------------------------------------------------- the solvers *)

(** The vectors of the solvers: b, x and the members.  Operator 0 is A_, operator 1 is M_. *)
Definition vB : Z := 0.
Definition vX : Z := 1.
Definition vAp : Z := 2.
Definition vR : Z := 3.
Definition vP : Z := 4.
Definition vZ : Z := 5.

(** solvers.cpp:156-163, 196-203 *)
Definition s_prec (M : bool) (k : script Z) : script Z := if M then Apply 1 vR vZ k else Each vZ vR vR vR (fun a _ _ => a) k.

(** solvers.cpp:182-220  the body of the loop; [next] follows *)
Definition s_pcg_step (M : bool) (par : sparams S) (tol : T) (num : Z) (next : script Z) : script Z :=
  Apply 0 vP vAp
  (Inner vP vAp (fun pAp =>
   Inner vR vZ (fun r_z =>
   if slt (sp_floor par) pAp then
     Each vX vX vP vP (fun a b _ => (a + (r_z / pAp) * b)%S)
     (Inner vZ vR (fun denom =>
      Each vR vR vAp vAp (fun a b _ => (a - (r_z / pAp) * b)%S)
      (s_prec M
      (Inner vZ vR (fun numer =>
       if slt numer tol then Halt num
       else Each vP vP vP vP (fun a _ _ => (a * (numer / denom))%S) (Each vP vP vZ vZ (fun a b _ => (a + b)%S) next))))))
   else Raise FThrow))).

(** solvers.cpp:180-222 *)
Fixpoint s_pcg_loop (fuel : nat) (M : bool) (par : sparams S) (tol : T) (num : Z) : script Z :=
  s_pcg_step M par tol num
    (if num + 1 <? sp_max par then match fuel with O => Raise FUB | Datatypes.S n => s_pcg_loop n M par tol (num + 1) end
     else Halt (num + 1)).

(** solvers.cpp:145-223  PCGSolver::Mult(b, x); the result is num_iter_.  The members have the size A_->Rows(). *)
Definition s_pcg (M : bool) (par : sparams S) : script Z :=
  Sizes vX vAp (Sizes vB vAp
  (Apply 0 vX vAp
  (Each vR vB vB vB (fun a _ _ => a)
  (Each vR vR vAp vAp (fun a b _ => (a - b)%S)
  (s_prec M
  (Each vP vZ vZ vZ (fun a _ _ => a)
  (Inner vZ vR (fun r0 =>
   let tol := smax (r0 * sp_rel par * sp_rel par)%S (sp_abs par * sp_abs par)%S in
   Inner vZ vR (fun d => if slt d tol then Halt 1 else s_pcg_loop (Z.to_nat (sp_max par)) M par tol 1))))))))).

Definition vW0 : Z := 2.
Definition vW1 : Z := 3.
Definition vV0 : Z := 4.
Definition vV1 : Z := 5.
Definition vU1 : Z := 6.
Definition vQ : Z := 7.

Section Minres.
Context (root : T -> T).  (* std::sqrt *)

(** v /= c, vectorview.hpp:605-616 *)
Definition s_divc (v : Z) (c : T) (k : script Z) : script Z :=
  if seqb c s0 then Raise FAssert else Each v v v v (fun a _ _ => (a / c)%S) k.

(** solvers.cpp:317-359, 469-513: the end of a pass, from alpha on; [u] is the vector the directions are made
    of, [inner] computes Dot_ for the new beta, [exchange] are the swaps *)
Definition s_lanczos (tol : T) (l : mloc S) (u : Z) (inner : (T -> script Z) -> script Z) (exchange : script Z -> script Z)
    (alpha : T) (next : mloc S -> script Z) (stop : script Z) : script Z :=
  Each vV0 vQ vV0 vV1 (fun q v0 v1 => ((q - (m_beta l * v0)) - (alpha * v1))%S)
  (inner (fun d =>
   let delta := ((m_g2 l * alpha) - ((m_g l * m_s2 l) * m_beta l))%S in
   let rho3 := (m_s l * m_beta l)%S in
   let rho2 := ((m_s2 l * alpha) + ((m_g l * m_g2 l) * m_beta l))%S in
   let beta := root d in
   let rho1 := root ((delta * delta) + (beta * beta))%S in
   Each vW0 u vW0 vW1 (fun a b c => ((((s1 / rho1) * a) - ((rho3 / rho1) * b)) - ((rho2 / rho1) * c))%S)
   (Each vX vX vW0 vW0 (fun a b _ => (a + (((delta / rho1) * m_eta l) * b))%S)
   (let eta := ((- (beta / rho1)) * m_eta l)%S in
    if slt (sabs eta) tol then stop
    else exchange (next (MLoc beta eta (m_g2 l) (delta / rho1)%S (m_s2 l) (beta / rho1)%S)))))).

(** solvers.cpp:310-359  the loop of MINRESSolver::Mult *)
Fixpoint s_minres_loop (left : nat) (tol : T) (max num : Z) (l : mloc S) : script Z :=
  if num <=? max then
    match left with
    | O => Raise FUB
    | Datatypes.S n =>
        s_divc vV1 (m_beta l)
        (Apply 0 vV1 vQ
        (Inner vV1 vQ (fun alpha =>
         s_lanczos tol l vV1 (Inner vV0 vV0) (fun k => Swap vV0 vV1 (Swap vW0 vW1 k)) alpha (s_minres_loop n tol max (num + 1)) (Halt num))))
    end
  else Halt num.

(** solvers.cpp:460-513  the loop of PMINRESSolver::Mult *)
Fixpoint s_pminres_loop (left : nat) (tol : T) (max num : Z) (l : mloc S) : script Z :=
  if num <=? max then
    match left with
    | O => Raise FUB
    | Datatypes.S n =>
        s_divc vV1 (m_beta l)
        (s_divc vU1 (m_beta l)
        (Apply 0 vU1 vQ
        (Inner vU1 vQ (fun alpha =>
         s_lanczos tol l vU1 (fun k => Apply 1 vV0 vQ (Inner vV0 vQ k)) (fun k => Swap vU1 vQ (Swap vV0 vV1 (Swap vW0 vW1 k)))
           alpha (s_pminres_loop n tol max (num + 1)) (Halt num)))))
    end
  else Halt num.

(** x = 0.0 *)
Definition s_zero (v : Z) (k : script Z) : script Z := Each v v v v (fun _ _ _ => s0) k.

(** solvers.cpp:283-361  MINRESSolver::Mult(b, x) *)
Definition s_minres (par : sparams S) : script Z :=
  Sizes vX vQ (Sizes vB vQ
  (s_zero vW0 (s_zero vW1 (s_zero vV0
  (Apply 0 vX vQ
  (Each vV1 vB vQ vQ (fun a b _ => (a - b)%S)
  (Inner vV1 vV1 (fun d =>
   let beta := root d in
   let tol := smax (beta * sp_rel par * sp_rel par)%S (sp_abs par * sp_abs par)%S in
   s_minres_loop (Z.to_nat (sp_max par)) tol (sp_max par) 1 (MLoc beta beta s1 s1 s0 s0))))))))).

(** solvers.cpp:429-515  PMINRESSolver::Mult(b, x) *)
Definition s_pminres (par : sparams S) : script Z :=
  Sizes vB vQ (Sizes vX vQ
  (s_zero vW0 (s_zero vW1 (s_zero vV0
  (Apply 0 vX vQ
  (Each vV1 vB vQ vQ (fun a b _ => (a - b)%S)
  (Apply 1 vV1 vU1
  (Inner vU1 vV1 (fun d =>
   let beta := root d in
   let tol := smax (beta * sp_rel par * sp_rel par)%S (sp_abs par * sp_abs par)%S in
   s_pminres_loop (Z.to_nat (sp_max par)) tol (sp_max par) 1 (MLoc beta beta s1 s1 s0 s0)))))))))).

End Minres.
End Spmd.

Arguments Halt {S A}. Arguments Raise {S A}. Arguments Sizes {S A}. Arguments Swap {S A}. Arguments Each {S A}. Arguments Inner {S A}. Arguments Apply {S A}.
Arguments BHalt {S A}. Arguments BRaise {S A}. Arguments BInner {S A}. Arguments BApply {S A}.
Arguments script S A : clear implicits.
Arguments store S : clear implicits.
Arguments blocked S A : clear implicits.
