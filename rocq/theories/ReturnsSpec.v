(** What the functions that return a new object promise. *)

From Coq Require Import ZArith List Bool.
From Verif Require Import Base Scalar Spec Dense Vec VecSpec.
Import ListNotations.
Open Scope Z_scope.

Section ReturnsSpec.
Context {S : scalar}.
Notation T := (car S).

(** op applied to the entries of two lists in turn *)
Definition entrywise (op : T -> T -> T) (l m : list T) : list T := map (fun p => op (fst p) (snd p)) (combine l m).

(** The call ends in a state in which every variable has the list it had before, and in which the
    new variable, the last one, has the list l.  (The variable before it is the parameter of the
    call, empty after the move.) *)
Definition returns_new (grow : Z -> Z -> Z) (st : vstate S) (r : res (vstate S)) (l : list T) : Prop :=
  exists st', r = Ok st' /\ reached grow st' /\ values st' = values st ++ [[]; l].

(** Vector x of length n whose entry i is gen i *)
Definition listed (gen : Z -> T) (n : Z) : list T := map gen (zrange 0 n).

End ReturnsSpec.
