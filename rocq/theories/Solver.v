(** Model of src/solvers.cpp and include/solvers.hpp: the Krylov solvers.

    Vectors are lists (the view arithmetic is proved in VecProofs to act entrywise on the
    elements); operators are the [op]s of Block.v and may carry state.  [Dot_] is any function.
    std::sqrt and the constant -1e12 are parameters.  Not modelled: the printing when verbose,
    sharing of memory between b and x. *)

From Coq Require Import ZArith List Bool.
From Verif Require Import Base Scalar Spec Vec Block.
Import ListNotations.
Open Scope Z_scope.

Section Solver.
Context {S : scalar}.
Notation T := (car S).

(* ---------------------------------------------------------------- vector arithmetic *)

(** vectorview.hpp:381-391, 401-412, 551-584: x[i] = f(x[i], y[i]) for vectors of equal size *)
Definition l_zip (f : T -> T -> T) (x y : list T) : res (list T) :=
  assert_ (zlen y =? zlen x) ;;;
  for_ 0 (zlen x) x (fun i x => a <- get x i ;; b <- get y i ;; set x i (f a b)).

(** vectorview.hpp:590-599, 605-616: x[i] = f(x[i]) *)
Definition l_map (f : T -> T) (x : list T) : res (list T) :=
  for_ 0 (zlen x) x (fun i x => a <- get x i ;; set x i (f a)).

(** vectorview.hpp:571-584  x -= y *)
Definition l_sub (x y : list T) : res (list T) := l_zip (fun a b => (a - b)%S) x y.
(** vectorview.hpp:552-565  x += y *)
Definition l_plus (x y : list T) : res (list T) := l_zip (fun a b => (a + b)%S) x y.
(** vectorview.hpp:381-391  x.Add(alpha, y) *)
Definition l_axpy (alpha : T) (x y : list T) : res (list T) := l_zip (fun a b => (a + alpha * b)%S) x y.
(** vectorview.hpp:401-412  x.Sub(alpha, y) *)
Definition l_axmy (alpha : T) (x y : list T) : res (list T) := l_zip (fun a b => (a - alpha * b)%S) x y.
(** vectorview.hpp:590-599  x *= c *)
Definition l_mulc (x : list T) (c : T) : res (list T) := l_map (fun a => (a * c)%S) x.
(** vectorview.hpp:605-616  x /= c *)
Definition l_divc (x : list T) (c : T) : res (list T) :=
  assert_ (negb (seqb c s0)) ;;; l_map (fun a => (a / c)%S) x.
(** x = 0.0 *)
Definition l_zero (x : list T) : list T := map (fun _ => s0) x.

(** std::max *)
Definition smax (a b : T) : T := if slt a b then b else a.

(* ---------------------------------------------------------------- solver parameters *)

(** include/solvers.hpp:79-88  max_iter_, rel_tol_, abs_tol_; and the constant -1e12 of
    solvers.cpp:188 *)
Record sparams : Type := SParams {
  sp_max : Z;
  sp_rel : T;
  sp_abs : T;
  sp_floor : T
}.

Section Run.
Context {W : Type}.

(** [Dot_] *)
Definition dotp : Type := list T -> list T -> res T.

(** solvers.cpp:13-24  Solver(A, max_iter, ...): the checks *)
Definition solver_checks (A : op S W) (par : sparams) : res unit :=
  assert_ (0 <=? sp_max par) ;;; assert_ (o_rows A =? o_cols A).

(* ---------------------------------------------------------------- PCG *)

(** The members Ap_, r_, p_, z_ of PCGSolver *)
Record pbuf : Type := PBuf { pb_Ap : list T; pb_r : list T; pb_p : list T; pb_z : list T }.

(** solvers.cpp:91-114  PCGSolver(A, [M], ...) *)
Definition pcg_new (A : op S W) (M : option (op S W)) (par : sparams) : res pbuf :=
  solver_checks A par ;;;
  match M with
  | Some m => assert_ (o_rows A =? o_cols m) ;;; assert_ (o_rows m =? o_cols m)
  | None => Ok tt
  end ;;;
  z <- vec (o_rows A) s0 ;;
  Ok (PBuf z z z z).

(** solvers.cpp:156-163, 196-203  M_->Mult(r_, z_) or z_ = r_ *)
Definition pcg_prec (M : option (op S W)) (w : W) (r z : list T) : res (W * list T) :=
  match M with
  | Some m => op_mult_vec m w r z
  | None => Ok (w, r)
  end.

(** solvers.cpp:182-220  the body of the loop; the flag says whether it reached the break *)
Definition pcg_step (A : op S W) (M : option (op S W)) (dot : dotp) (par : sparams) (tol : T)
    (w : W) (u : pbuf) (x : list T) : res (bool * W * pbuf * list T) :=
  '(w, Ap) <- op_mult_vec A w (pb_p u) (pb_Ap u) ;;
  pAp <- dot (pb_p u) Ap ;;
  r_z <- dot (pb_r u) (pb_z u) ;;
  let alpha := (r_z / pAp)%S in
  (if slt (sp_floor par) pAp then Ok tt else Fail FThrow) ;;;
  x <- l_axpy alpha x (pb_p u) ;;
  denom <- dot (pb_z u) (pb_r u) ;;
  r <- l_axmy alpha (pb_r u) Ap ;;
  '(w, z) <- pcg_prec M w r (pb_z u) ;;
  numer <- dot z r ;;
  if slt numer tol then Ok (true, w, PBuf Ap r (pb_p u) z, x)
  else
    let beta := (numer / denom)%S in
    p <- l_mulc (pb_p u) beta ;;
    p <- l_plus p z ;;
    Ok (false, w, PBuf Ap r p z, x).

(** solvers.cpp:180-222  do { ... } while (++num_iter_ < max_iter_).  The fuel is there to make
    the definition structural; [pcg_mult] passes max_iter, and the loop then never runs out
    (SolverProofs, pcg_loop_fuel). *)
Fixpoint pcg_loop (fuel : nat) (A : op S W) (M : option (op S W)) (dot : dotp) (par : sparams) (tol : T)
    (num : Z) (w : W) (u : pbuf) (x : list T) : res (W * pbuf * list T * Z) :=
  '(stop, w, u, x) <- pcg_step A M dot par tol w u x ;;
  if (stop : bool) then Ok (w, u, x, num)
  else if num + 1 <? sp_max par
       then match fuel with
            | O => Fail FUB
            | Datatypes.S k => pcg_loop k A M dot par tol (num + 1) w u x
            end
       else Ok (w, u, x, num + 1).

(** solvers.cpp:145-223  PCGSolver::Mult(b, x): new state, buffers, x and num_iter_ *)
Definition pcg_mult (A : op S W) (M : option (op S W)) (dot : dotp) (par : sparams)
    (w : W) (u : pbuf) (b x : list T) : res (W * pbuf * list T * Z) :=
  assert_ (zlen x =? o_rows A) ;;; assert_ (zlen b =? o_rows A) ;;;
  '(w, Ap) <- op_mult_vec A w x (pb_Ap u) ;;
  r <- l_sub b Ap ;;
  '(w, z) <- pcg_prec M w r (pb_z u) ;;
  r0 <- dot z r ;;
  let tol := smax (r0 * sp_rel par * sp_rel par)%S (sp_abs par * sp_abs par)%S in
  d <- dot z r ;;
  if slt d tol then Ok (w, PBuf Ap r z z, x, 1)
  else pcg_loop (Z.to_nat (sp_max par)) A M dot par tol 1 w (PBuf Ap r z z) x.

(** solvers.cpp:83-89, 236-242  CG(A, b, x, ...) and PCG(A, M, b, x, ...).  The versions that
    return x (72-81, 225-234) start from an x filled by Randomize. *)
Definition pcg_run (A : op S W) (M : option (op S W)) (dot : dotp) (par : sparams)
    (w : W) (b x : list T) : res (W * pbuf * list T * Z) :=
  u <- pcg_new A M par ;; pcg_mult A M dot par w u b x.

(* ---------------------------------------------------------------- MINRES *)

Section Minres.
Context (root : T -> T).  (* std::sqrt *)

(** The members w0_, w1_, v0_, v1_, u1_, q_ of MINRESSolver (which has no u1_) and PMINRESSolver *)
Record mbuf : Type := MBuf {
  mb_w0 : list T; mb_w1 : list T; mb_v0 : list T; mb_v1 : list T; mb_u1 : list T; mb_q : list T
}.

(** The local variables beta, eta, gamma, gamma2, sigma, sigma2 *)
Record mloc : Type := MLoc { m_beta : T; m_eta : T; m_g : T; m_g2 : T; m_s : T; m_s2 : T }.

(** solvers.cpp:244-252, 382-396  constructors *)
Definition minres_new (A : op S W) (M : option (op S W)) (par : sparams) : res mbuf :=
  solver_checks A par ;;;
  match M with
  | Some m => assert_ (o_rows A =? o_cols m) ;;; assert_ (o_rows m =? o_cols m)
  | None => Ok tt
  end ;;;
  z <- vec (o_rows A) s0 ;;
  Ok (MBuf z z z z z z).

(** solvers.cpp:317-320, 469-472  v0_[i] = q_[i] - (beta * v0_[i]) - (alpha * v1_[i]) *)
Definition lanczos (size : Z) (beta alpha : T) (q v0 v1 : list T) : res (list T) :=
  for_ 0 size v0 (fun i v0 =>
    a <- get q i ;; b <- get v0 i ;; c <- get v1 i ;;
    set v0 i ((a - (beta * b)) - (alpha * c))%S).

(** solvers.cpp:330-333, 483-486
    w0_[i] = ((1.0 / rho1) * v1_[i]) - ((rho3 / rho1) * w0_[i]) - ((rho2 / rho1) * w1_[i]) *)
Definition dirs (size : Z) (rho1 rho2 rho3 : T) (v w0 w1 : list T) : res (list T) :=
  for_ 0 size w0 (fun i w0 =>
    a <- get v i ;; b <- get w0 i ;; c <- get w1 i ;;
    set w0 i ((((s1 / rho1) * a) - ((rho3 / rho1) * b)) - ((rho2 / rho1) * c))%S).

(** solvers.cpp:338-341, 491-494  x[i] += gamma2 * eta * w0_[i] *)
Definition advance (size : Z) (g2 eta : T) (w0 x : list T) : res (list T) :=
  for_ 0 size x (fun i x =>
    a <- get x i ;; b <- get w0 i ;; set x i (a + ((g2 * eta) * b))%S).

(** solvers.cpp:312-359  one pass of the MINRES loop; the flag says whether it reached the break *)
Definition minres_step (A : op S W) (dot : dotp) (tol : T) (w : W) (u : mbuf) (l : mloc) (x : list T) :
    res (bool * W * mbuf * mloc * list T) :=
  let size := o_cols A in
  v1 <- l_divc (mb_v1 u) (m_beta l) ;;
  '(w, q) <- op_mult_vec A w v1 (mb_q u) ;;
  alpha <- dot v1 q ;;
  v0 <- lanczos size (m_beta l) alpha q (mb_v0 u) v1 ;;
  let delta := ((m_g2 l * alpha) - ((m_g l * m_s2 l) * m_beta l))%S in
  let rho3 := (m_s l * m_beta l)%S in
  let rho2 := ((m_s2 l * alpha) + ((m_g l * m_g2 l) * m_beta l))%S in
  d <- dot v0 v0 ;;
  let beta := root d in
  let rho1 := root ((delta * delta) + (beta * beta))%S in
  w0 <- dirs size rho1 rho2 rho3 v1 (mb_w0 u) (mb_w1 u) ;;
  let gamma := m_g2 l in
  let gamma2 := (delta / rho1)%S in
  x <- advance size gamma2 (m_eta l) w0 x ;;
  let sigma := m_s2 l in
  let sigma2 := (beta / rho1)%S in
  let eta := ((- sigma2) * m_eta l)%S in
  let l := MLoc beta eta gamma gamma2 sigma sigma2 in
  if slt (sabs eta) tol then Ok (true, w, MBuf w0 (mb_w1 u) v0 v1 (mb_u1 u) q, l, x)
  else Ok (false, w, MBuf (mb_w1 u) w0 v1 v0 (mb_u1 u) q, l, x).

(** solvers.cpp:462-513  one pass of the PMINRES loop *)
Definition pminres_step (A M : op S W) (dot : dotp) (tol : T) (w : W) (u : mbuf) (l : mloc) (x : list T) :
    res (bool * W * mbuf * mloc * list T) :=
  let size := o_cols A in
  v1 <- l_divc (mb_v1 u) (m_beta l) ;;
  u1 <- l_divc (mb_u1 u) (m_beta l) ;;
  '(w, q) <- op_mult_vec A w u1 (mb_q u) ;;
  alpha <- dot u1 q ;;
  v0 <- lanczos size (m_beta l) alpha q (mb_v0 u) v1 ;;
  let delta := ((m_g2 l * alpha) - ((m_g l * m_s2 l) * m_beta l))%S in
  let rho3 := (m_s l * m_beta l)%S in
  let rho2 := ((m_s2 l * alpha) + ((m_g l * m_g2 l) * m_beta l))%S in
  '(w, q) <- op_mult_vec M w v0 q ;;
  d <- dot v0 q ;;
  let beta := root d in
  let rho1 := root ((delta * delta) + (beta * beta))%S in
  w0 <- dirs size rho1 rho2 rho3 u1 (mb_w0 u) (mb_w1 u) ;;
  let gamma := m_g2 l in
  let gamma2 := (delta / rho1)%S in
  x <- advance size gamma2 (m_eta l) w0 x ;;
  let sigma := m_s2 l in
  let sigma2 := (beta / rho1)%S in
  let eta := ((- sigma2) * m_eta l)%S in
  let l := MLoc beta eta gamma gamma2 sigma sigma2 in
  if slt (sabs eta) tol then Ok (true, w, MBuf w0 (mb_w1 u) v0 v1 u1 q, l, x)
  else Ok (false, w, MBuf (mb_w1 u) w0 v1 v0 q u1, l, x).

(** solvers.cpp:310, 460  for (num_iter_ = 1; num_iter_ <= max_iter_; ++num_iter_) with a break.
    [left] counts the passes that remain: max_iter - num + 1. *)
Definition mstep : Type := W -> mbuf -> mloc -> list T -> res (bool * W * mbuf * mloc * list T).
Fixpoint mloop (left : nat) (step : mstep) (max num : Z) (w : W) (u : mbuf) (l : mloc) (x : list T) :
    res (W * mbuf * mloc * list T * Z) :=
  if num <=? max then
    match left with
    | O => Fail FUB
    | Datatypes.S k =>
        '(stop, w, u, l, x) <- step w u l x ;;
        if (stop : bool) then Ok (w, u, l, x, num) else mloop k step max (num + 1) w u l x
    end
  else Ok (w, u, l, x, num).

(** solvers.cpp:283-361  MINRESSolver::Mult(b, x).  The local variables are returned too: eta is
    what verbose output prints. *)
Definition minres_mult (A : op S W) (dot : dotp) (par : sparams) (w : W) (u : mbuf) (b x : list T) :
    res (W * mbuf * mloc * list T * Z) :=
  assert_ (zlen x =? o_rows A) ;;; assert_ (zlen b =? o_rows A) ;;;
  '(w, q) <- op_mult_vec A w x (mb_q u) ;;
  v1 <- l_sub b q ;;
  d <- dot v1 v1 ;;
  let beta := root d in
  let tol := smax (beta * sp_rel par * sp_rel par)%S (sp_abs par * sp_abs par)%S in
  mloop (Z.to_nat (sp_max par)) (minres_step A dot tol) (sp_max par) 1 w
    (MBuf (l_zero (mb_w0 u)) (l_zero (mb_w1 u)) (l_zero (mb_v0 u)) v1 (mb_u1 u) q)
    (MLoc beta beta s1 s1 s0 s0) x.

(** solvers.cpp:429-515  PMINRESSolver::Mult(b, x) *)
Definition pminres_mult (A M : op S W) (dot : dotp) (par : sparams) (w : W) (u : mbuf) (b x : list T) :
    res (W * mbuf * mloc * list T * Z) :=
  assert_ (zlen b =? o_rows A) ;;; assert_ (zlen x =? o_cols A) ;;;
  '(w, q) <- op_mult_vec A w x (mb_q u) ;;
  v1 <- l_sub b q ;;
  '(w, u1) <- op_mult_vec M w v1 (mb_u1 u) ;;
  d <- dot u1 v1 ;;
  let beta := root d in
  let tol := smax (beta * sp_rel par * sp_rel par)%S (sp_abs par * sp_abs par)%S in
  mloop (Z.to_nat (sp_max par)) (pminres_step A M dot tol) (sp_max par) 1 w
    (MBuf (l_zero (mb_w0 u)) (l_zero (mb_w1 u)) (l_zero (mb_v0 u)) v1 u1 q)
    (MLoc beta beta s1 s1 s0 s0) x.

(** solvers.cpp:374-380, 528-535  MINRES(A, b, x, ...) and PMINRES(A, M, b, x, ...) *)
Definition minres_run (A : op S W) (dot : dotp) (par : sparams) (w : W) (b x : list T) :
    res (W * mbuf * mloc * list T * Z) :=
  u <- minres_new A None par ;; minres_mult A dot par w u b x.
Definition pminres_run (A M : op S W) (dot : dotp) (par : sparams) (w : W) (b x : list T) :
    res (W * mbuf * mloc * list T * Z) :=
  u <- minres_new A (Some M) par ;; pminres_mult A M dot par w u b x.

End Minres.
End Run.
End Solver.

Arguments sparams S : clear implicits.
Arguments pbuf S : clear implicits.
Arguments mbuf S : clear implicits.
Arguments mloc S : clear implicits.
Arguments dotp S : clear implicits.
