(** What the theorems about VectorView and Vector say: elements seen through a view, the
    effect of a loop that writes through a view, and vectors as plain lists. *)

From Coq Require Import ZArith List Bool.
From Verif Require Import Base Scalar Spec Dense Vec.
Import ListNotations.
Open Scope Z_scope.

Section VecSpec.
Context {S : scalar}.
Notation T := (car S).

(** A view into a live buffer. *)
Definition view_ok (h : heap S) (v : view) : Prop :=
  0 <= v_len v /\
  (v_len v = 0 \/
   exists k, h_block h (v_buf v) = Ok k /\ 0 <= v_off v /\ v_off v + v_len v <= zlen (b_cells k)).

(** Element i seen through v (the default is never used for a view_ok and i in range). *)
Definition vat (h : heap S) (v : view) (i : Z) : T := match v_at h v i with Ok t => t | Fail _ => s0 end.

(** Element j of w is the same memory cell as some element of z. *)
Definition inside (z w : view) (j : Z) : bool :=
  (v_buf w =? v_buf z) && (v_off z <=? v_off w + j) && (v_off w + j <? v_off z + v_len z).

(** h' is h with element i of z set to g i for every i, and nothing else changed: every
    view w that was usable still is, and sees the new values exactly where it overlaps z. *)
Definition writes (h : heap S) (z : view) (g : Z -> T) (h' : heap S) : Prop :=
  forall w, view_ok h w ->
    view_ok h' w /\
    forall j, 0 <= j < v_len w ->
      vat h' w j = if inside z w j then g (v_off w + j - v_off z) else vat h w j.

(** x starts before z and reaches into it: a loop that runs upwards and writes z[i] after
    reading x[i] would read elements it has already overwritten. *)
Definition reads_behind (z x : view) : Prop :=
  v_buf x = v_buf z /\ v_off x < v_off z < v_off x + v_len x.

(* ---------------------------------------------------------------- vectors as lists *)

(** Calls on Vector variables (numbered in order of creation) and views of them. *)
Inductive vop : Type :=
| PNew (n : Z) (t : T)            (* Vector(n, t) *)
| POfList (l : list T)            (* Vector(std::vector) *)
| POfView (r : vref)              (* Vector(view) *)
| PCopy (y : Z)                   (* Vector(y) *)
| PMove (y : Z)                   (* Vector(std::move(y)) *)
| PSetSize (x n : Z) (t : T)      (* x.SetSize(n, t) *)
| PAssign (x y : Z)               (* x = y *)
| PAssignView (x : Z) (r : vref)  (* x = view *)
| PSwap (x y : Z)                 (* swap(x, y) *)
| PMoveAssign (x y : Z)           (* x = std::move(y) *)
| PFill (r : vref) (t : T)        (* view = t *)
| PWrite (r : vref) (i : Z) (t : T)  (* view[i] = t *)
| PSet (r q : vref)               (* view = view *)
| PMap (f : T -> T) (r : vref)    (* view *= t and the like *)
| PZip (f : T -> T -> T) (r q : vref). (* view += view and the like *)

Definition run_vop (grow : Z -> Z -> Z) (st : vstate S) (o : vop) : res (vstate S) :=
  match o with
  | PNew n t => st_new grow st n t
  | POfList l => st_of_list grow st l
  | POfView r => st_of_view grow st r
  | PCopy y => st_copy grow st y
  | PMove y => st_move st y
  | PSetSize x n t => st_set_size grow st x n t
  | PAssign x y => st_assign grow st x y
  | PAssignView x r => st_assign_view grow st x r
  | PSwap x y => st_swap st x y
  | PMoveAssign x y => st_move_assign st x y
  | PFill r t => st_on1 (fun h v => v_fill h v t) st r
  | PWrite r i t => st_on1 (fun h v => v_set h v i t) st r
  | PSet r q => st_on2 v_assign st r q
  | PMap f r => st_on1 (v_map f) st r
  | PZip f r q => st_on2 (v_zip f) st r q
  end.
Definition run_vops grow st (ops : list vop) := foldM (run_vop grow) ops st.

(** The same calls on plain lists: one list for each variable, no sharing.  None: outside
    the domain. *)
Definition lref (vs : list (list T)) (r : vref) : option (Z * Z * Z) := (* variable, offset, size *)
  match r with
  | RVar x => if (0 <=? x) && (x <? zlen vs) then Some (x, 0, zlen (zn [] vs x)) else None
  | RSub x off n => if (0 <=? x) && (x <? zlen vs) && (0 <=? off) && (0 <=? n) && (off + n <=? zlen (zn [] vs x)) then Some (x, off, n) else None
  end.
Definition lslice (vs : list (list T)) (x off n : Z) : list T := map (fun i => zn s0 (zn [] vs x) (off + i)) (zrange 0 n).
(** elements off .. off+n-1 of variable x become f 0 .. f (n-1) *)
Definition lput (vs : list (list T)) (x off n : Z) (f : Z -> T) : list (list T) :=
  upd vs (Z.to_nat x) (map (fun i => if (off <=? i) && (i <? off + n) then f (i - off) else zn s0 (zn [] vs x) i) (zrange 0 (zlen (zn [] vs x)))).
Definition lvar (vs : list (list T)) (x : Z) : option (list T) := if (0 <=? x) && (x <? zlen vs) then Some (zn [] vs x) else None.
Definition lset (vs : list (list T)) (x : Z) (l : list T) : list (list T) := upd vs (Z.to_nat x) l.
(** the source range starts before the target range and reaches into it *)
Definition lbehind (x off n y off' : Z) : bool := (x =? y) && (off' <? off) && (off <? off' + n).

Definition spec_vop (vs : list (list T)) (o : vop) : option (list (list T)) :=
  match o with
  | PNew n t => if 0 <=? n then Some (vs ++ [repeat t (Z.to_nat n)]) else None
  | POfList l => Some (vs ++ [l])
  | POfView r => match lref vs r with Some (x, off, n) => Some (vs ++ [lslice vs x off n]) | None => None end
  | PCopy y => match lvar vs y with Some l => Some (vs ++ [l]) | None => None end
  | PMove y => match lvar vs y with Some l => Some (lset vs y [] ++ [l]) | None => None end
  | PSetSize x n t =>
      match lvar vs x with
      | Some l => if 0 <=? n then Some (lset vs x (firstn (Z.to_nat n) l ++ repeat t (Z.to_nat (n - zlen l)))) else None
      | None => None
      end
  | PAssign x y => match lvar vs x, lvar vs y with Some _, Some l => Some (lset vs x l) | _, _ => None end
  | PAssignView x r =>
      match lvar vs x, lref vs r with
      | Some _, Some (y, off, n) =>
          (* a proper part of x itself is cut off by the resize before it is read *)
          if (x =? y) && negb (off =? 0) && negb (n =? 0) then None else Some (lset vs x (lslice vs y off n))
      | _, _ => None
      end
  | PSwap x y => match lvar vs x, lvar vs y with Some l, Some m => Some (lset (lset vs x m) y l) | _, _ => None end
  | PMoveAssign x y => match lvar vs x, lvar vs y with Some l, Some m => Some (lset (lset vs x m) y l) | _, _ => None end
  | PFill r t => match lref vs r with Some (x, off, n) => Some (lput vs x off n (fun _ => t)) | None => None end
  | PWrite r i t =>
      match lref vs r with
      | Some (x, off, n) => if (0 <=? i) && (i <? n) then Some (lput vs x (off + i) 1 (fun _ => t)) else None
      | None => None
      end
  | PSet r q =>
      match lref vs r, lref vs q with
      | Some (x, off, n), Some (y, off', n') =>
          if (n =? n') && negb (lbehind x off n y off') then Some (lput vs x off n (fun i => zn s0 (zn [] vs y) (off' + i))) else None
      | _, _ => None
      end
  | PMap f r =>
      match lref vs r with
      | Some (x, off, n) => Some (lput vs x off n (fun i => f (zn s0 (zn [] vs x) (off + i))))
      | None => None
      end
  | PZip f r q =>
      match lref vs r, lref vs q with
      | Some (x, off, n), Some (y, off', n') =>
          if (n =? n') && negb (lbehind x off n y off')
          then Some (lput vs x off n (fun i => f (zn s0 (zn [] vs x) (off + i)) (zn s0 (zn [] vs y) (off' + i)))) else None
      | _, _ => None
      end
  end.
Fixpoint spec_vops (vs : list (list T)) (ops : list vop) : option (list (list T)) :=
  match ops with
  | [] => Some vs
  | o :: ops => match spec_vop vs o with Some vs => spec_vops vs ops | None => None end
  end.

(** The list held by each variable of a program state. *)
Definition values (st : vstate S) : list (list T) :=
  map (fun w => match v_list (st_heap st) (w_view w) with Ok l => l | Fail _ => [] end) (st_vars st).

(** A state some program reaches. *)
Definition reached (grow : Z -> Z -> Z) (st : vstate S) : Prop :=
  exists ops vs, spec_vops [] ops = Some vs /\ run_vops grow (VState [] []) ops = Ok st.

(** The variables a call can change. *)
Definition ref_var (r : vref) : Z := match r with RVar x => x | RSub x _ _ => x end.
Definition changes (o : vop) (x : Z) : Prop :=
  match o with
  | PNew _ _ | POfList _ | POfView _ | PCopy _ => False
  | PMove y => x = y
  | PSetSize y _ _ | PAssign y _ | PAssignView y _ => x = y
  | PSwap y z | PMoveAssign y z => x = y \/ x = z
  | PFill r _ | PWrite r _ _ | PSet r _ | PMap _ r | PZip _ r _ => x = ref_var r
  end.

End VecSpec.

Arguments vop S : clear implicits.
