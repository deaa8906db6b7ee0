(** Threads of an OpenMP parallel region between two barriers: programs that read and write shared
    arrays one cell at a time, run in any interleaving.  Two accesses to one cell that are both
    possible next, one of them a write, are a data race: undefined behaviour. *)

From Coq Require Import ZArith List Bool Lia.
From Verif Require Import Base.
Import ListNotations.
Open Scope Z_scope.

Section Threads.
Context {V : Type}.

(** The shared arrays *)
Definition mem : Type := list (list V).
Definition m_get (m : mem) (x i : Z) : res V := a <- get m x ;; get a i.
Definition m_set (m : mem) (x i : Z) (v : V) : res mem := a <- get m x ;; a <- set a i v ;; set m x a.

(** A program: it ends with a value of its private state, fails, or accesses cell i of array x *)
Inductive prog (A : Type) : Type :=
| Ret (a : A)
| Err (f : fault)
| Rd (x i : Z) (k : V -> prog A)
| Wr (x i : Z) (v : V) (k : prog A).
Arguments Ret {A}. Arguments Err {A}. Arguments Rd {A}. Arguments Wr {A}.

Fixpoint pbind {A B} (p : prog A) (f : A -> prog B) : prog B :=
  match p with
  | Ret a => f a
  | Err e => Err e
  | Rd x i k => Rd x i (fun v => pbind (k v) f)
  | Wr x i v k => Wr x i v (pbind k f)
  end.

(** Code that accesses private and constant data only *)
Definition lift {A} (r : res A) : prog A := match r with Ok a => Ret a | Fail f => Err f end.
Definition wr (x i : Z) (v : V) : prog unit := Wr x i v (Ret tt).

Definition pfold {A B} (f : A -> B -> prog A) : list B -> A -> prog A :=
  fix go l a := match l with [] => Ret a | b :: l => pbind (f a b) (go l) end.
(** for (i = lo; i < hi; i++) *)
Definition pfor {A} (lo hi : Z) (a : A) (f : Z -> A -> prog A) : prog A := pfold (fun a i => f i a) (zrange lo hi) a.

(** A program alone *)
Fixpoint run {A} (p : prog A) (m : mem) : res (A * mem) :=
  match p with
  | Ret a => Ok (a, m)
  | Err f => Fail f
  | Rd x i k => v <- m_get m x i ;; run (k v) m
  | Wr x i v k => m <- m_set m x i v ;; run k m
  end.

(** The next access of a program: array, cell, is it a write *)
Definition next {A} (p : prog A) : option (Z * Z * bool) :=
  match p with Rd x i _ => Some (x, i, false) | Wr x i _ _ => Some (x, i, true) | _ => None end.
Definition conflict {A} (p q : prog A) : bool :=
  match next p, next q with
  | Some (x, i, w), Some (y, j, u) => (x =? y) && (i =? j) && (w || u)
  | _, _ => false
  end.

(** Thread t makes one access *)
Definition step {A} (st : list (prog A) * mem) (t : Z) : res (list (prog A) * mem) :=
  let '(pool, m) := st in
  if (0 <=? t) && (t <? zlen pool) then
    p <- get pool t ;;
    for_ 0 (zlen pool) tt (fun s _ =>
      q <- get pool s ;; if negb (s =? t) && conflict p q then Fail FUB else Ok tt) ;;;
    match p with
    | Ret _ => Ok st
    | Err f => Fail f
    | Rd x i k => v <- m_get m x i ;; pool <- set pool t (k v) ;; Ok (pool, m)
    | Wr x i v k => m <- m_set m x i v ;; pool <- set pool t k ;; Ok (pool, m)
    end
  else Ok st.

(** One phase: the threads take turns as the schedule says; what they have not done when it ends,
    they do one after the other.  Every interleaving is the result of some schedule. *)
Definition par_phase {A} (sched : list Z) (pool : list (prog A)) (m : mem) : res (list A * mem) :=
  '(pool, m) <- foldM step sched (pool, m) ;;
  foldM (fun st p => let '(vals, m) := st in '(a, m) <- run p m ;; Ok (vals ++ [a], m)) pool ([], m).

End Threads.

Arguments mem V : clear implicits.
Arguments prog V A : clear implicits.
Arguments Ret {V A}. Arguments Err {V A}. Arguments Rd {V A}. Arguments Wr {V A}.

Notation "x <~ p ;; q" := (pbind p (fun x => q)) (at level 61, p at next level, right associativity).
Notation "' x <~ p ;; q" := (pbind p (fun y => match y with x => q end)) (at level 61, x pattern, p at next level, right associativity).
Notation "p ~;; q" := (pbind p (fun _ => q)) (at level 61, right associativity).
