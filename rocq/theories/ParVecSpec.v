(** What the arithmetic of distributed vectors has to do. *)

From Coq Require Import ZArith List Bool.
From Verif Require Import Base Scalar Spec Vec VecSpec Par ParSpec.
Import ListNotations.
Open Scope Z_scope.

Section ParVecSpec.
Context {S : scalar}.
Notation T := (car S).

(** A rank holds a heap, a view x and a view y.  The distributed vectors x and y. *)
Definition vec_x (ws : list (heap S * view * view)) : list (heap S * view) := map (fun w => (fst (fst w), snd (fst w))) ws.
Definition vec_y (ws : list (heap S * view * view)) : list (heap S * view) := map (fun w => (fst (fst w), snd w)) ws.

(** On every rank both are views of the rank's memory, of the same size. *)
Definition same_layout (ws : list (heap S * view * view)) : Prop :=
  forall h x y, In (h, x, y) ws -> view_ok h x /\ view_ok h y /\ v_len y = v_len x.

(** The distributed vector x seen in the memories [hs] the ranks have afterwards. *)
Definition after (ws : list (heap S * view)) (hs : list (heap S)) : list (heap S * view) := combine hs (map snd ws).

(** x_i := op x_i y_i for every element of the distributed vectors, and no other cell of any rank changes. *)
Definition elementwise (op : T -> T -> T) (ws : list (heap S * view * view)) (result : res (list (heap S))) : Prop :=
  exists hs, result = Ok hs /\
  dist_list (after (vec_x ws) hs) = map (fun ab => op (fst ab) (snd ab)) (combine (dist_list (vec_x ws)) (dist_list (vec_y ws))) /\
  Forall2 (fun '(h, x, y) h' => writes h x (fun i => op (vat h x i) (vat h y i)) h') ws hs.

End ParVecSpec.
