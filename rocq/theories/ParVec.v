(** Model of the arithmetic of modules/parlinalgcpp's ParVector and of the functions of vectorview.hpp that
    can be called with one.

    Mult and L2Norm are virtual and overridden by ParVector; a VectorView passed by reference keeps its class,
    passed by value it does not (only the base part is copied).  So what a function does depends on the
    class of the object it is called with: [Plain] for VectorView and Vector, [Dist] for ParVector.

    A distributed vector is given by a heap and a view on every rank.  Every rank calls the same function with
    objects of the same class. *)

From Coq Require Import ZArith List Bool.
From Verif Require Import Base Scalar Spec Vec Par.
Import ListNotations.
Open Scope Z_scope.

Inductive vclass : Type := Plain | Dist.

Section ParVec.
Context {S : scalar}.
Notation T := (car S).

(** lhs.Mult(rhs): vectorview.hpp:467-475, vector.hpp:112-116 (Plain), parvector.cpp:153-161 (Dist) *)
Definition mult_of (k : vclass) (red : allreduce) (ws : list (heap S * view * view)) : res (list T) :=
  match k with
  | Plain => ranks (zlen ws) (fun r => '(h, x, y) <- get ws r ;; v_inner h x y)
  | Dist => par_mult red ws
  end.

(** vectorview.hpp:455-459, 503-507, parvector.cpp:209-212  InnerProduct(lhs, rhs), lhs * rhs, Mult(lhs, rhs) *)
Definition inner_product_of := mult_of.

(** vectorview.hpp:461-465, 491-495 (Plain), parvector.cpp:204-207, 224-227 (Dist)  x.L2Norm(), L2Norm(x) *)
Definition l2norm_of (k : vclass) (red : allreduce) (root : T -> T) (ws : list (heap S * view)) : res (list T) :=
  s <- mult_of k red (map (fun '(h, x) => (h, x, x)) ws) ;; Ok (map root s).

(** parvector.cpp:229-237  ParMult(comm, lhs, rhs): lhs.Mult(rhs) is the virtual call *)
Definition par_mult_of (k : vclass) (red : allreduce) (ws : list (heap S * view * view)) : res (list T) :=
  local_sum <- mult_of k red ws ;;
  Ok (map (fun r => red r local_sum) (zrange 0 (zlen ws))).

(** parvector.cpp:214-222  ParL2Norm(comm, vect) *)
Definition par_l2norm_of (k : vclass) (red : allreduce) (root : T -> T) (ws : list (heap S * view)) : res (list T) :=
  s <- par_mult_of k red (map (fun '(h, x) => (h, x, x)) ws) ;; Ok (map root s).

(** vectorview.cpp:39-42, 49-53  Normalize(x), x.Normalize() for either class: the parameter of Normalize is a
    VectorView passed by value, so L2Norm is that of a VectorView *)
Definition normalize_all (root : T -> T) (ws : list (heap S * view)) : res (list (heap S)) :=
  ranks (zlen ws) (fun r => '(h, x) <- get ws r ;; v_normalize root h x).

(** A member or operator of Vector, called on every rank *)
Definition everywhere (f : heap S -> view -> view -> res (heap S)) (ws : list (heap S * view * view)) : res (list (heap S)) :=
  ranks (zlen ws) (fun r => '(h, x, y) <- get ws r ;; f h x y).

(** parvector.cpp:119-143  operator+=, -=, *=, /= of two ParVectors: those of vectorview.hpp on every rank *)
Definition pv_add := everywhere v_add_view.
Definition pv_sub := everywhere v_sub_view.
Definition pv_mul := everywhere v_mul_view.
Definition pv_div := everywhere v_div_view.

(** parvector.cpp:145-150  operator=(double val) *)
Definition pv_fill (t : T) (ws : list (heap S * view)) : res (list (heap S)) :=
  ranks (zlen ws) (fun r => '(h, x) <- get ws r ;; v_fill h x t).

End ParVec.
