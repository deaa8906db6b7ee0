(** Model of include/vectorview.hpp, src/vectorview.cpp and include/vector.hpp.

    Memory is a list of buffers; a pointer is a buffer number and an offset.  A VectorView
    is the pair (data_, size_).  A Vector is a VectorView together with the std::vector it
    owns.  Reading or writing outside the elements of a live buffer is undefined. *)

From Coq Require Import ZArith List Bool.
From Verif Require Import Base Scalar Spec Dense.
Import ListNotations.
Open Scope Z_scope.

Section Vec.
Context {S : scalar}.
Notation T := (car S).

(** The storage of one std::vector<T>: its elements and its capacity. *)
Record block : Type := Block { b_cells : list T; b_cap : Z }.
(** Freed buffers stay in the list as None, so that addresses are never reused. *)
Definition heap : Type := list (option block).

Definition h_block (h : heap) (b : Z) : res block :=
  o <- get h b ;; match o with Some k => Ok k | None => Fail FUB end.
Definition h_read (h : heap) (b i : Z) : res T := k <- h_block h b ;; get (b_cells k) i.
Definition h_write (h : heap) (b i : Z) (t : T) : res heap :=
  k <- h_block h b ;; c <- set (b_cells k) i t ;; set h b (Some (Block c (b_cap k))).
Definition h_alloc (h : heap) (cells : list T) (cap : Z) : heap * Z := (h ++ [Some (Block cells cap)], zlen h).
Definition h_free (h : heap) (b : Z) : res heap := h_block h b ;;; set h b None.

(* ---------------------------------------------------------------- VectorView *)

(** vectorview.hpp:193-194  data_ = (v_buf, v_off), size_ = v_len.  nullptr is buffer -1. *)
Record view : Type := View { v_buf : Z; v_off : Z; v_len : Z }.

(** vectorview.hpp:197-202  VectorView() *)
Definition v_null : view := View (-1) 0 0.

(** vectorview.hpp:204-210  VectorView(T* data, int size) *)
Definition v_make (b off size : Z) : res view :=
  assert_ (0 <=? size) ;;; assert_ ((size =? 0) || negb (b =? -1)) ;;; Ok (View b off size).

(** data_[i], without a check *)
Definition v_at (h : heap) (v : view) (i : Z) : res T := h_read h (v_buf v) (v_off v + i).
Definition v_put (h : heap) (v : view) (i : Z) (t : T) : res heap := h_write h (v_buf v) (v_off v + i) t.

(** vectorview.hpp:319-333  operator[]: only the upper bound is checked *)
Definition v_get (h : heap) (v : view) (i : Z) : res T := assert_ (i <? v_len v) ;;; v_at h v i.
Definition v_set (h : heap) (v : view) (i : Z) (t : T) : res heap := assert_ (i <? v_len v) ;;; v_put h v i t.

(** [begin(), end()) read from front to back *)
Definition v_list (h : heap) (v : view) : res (list T) :=
  for_ 0 (v_len v) [] (fun i l => t <- v_at h v i ;; Ok (l ++ [t])).

(** std::copy(begin(src), end(src), begin(dst)): element by element from the front.  The
    destination must not start inside the source range; a destination that starts where the
    source starts is accepted (every implementation then copies each element onto itself). *)
Definition v_copy (h : heap) (dst src : view) : res heap :=
  if (v_buf dst =? v_buf src) && (v_off src <? v_off dst) && (v_off dst <? v_off src + v_len src) then Fail FUB
  else for_ 0 (v_len src) h (fun i h => t <- v_at h src i ;; v_put h dst i t).

(** vectorview.hpp:245-280  the three operator=(VectorView) *)
Definition v_assign (h : heap) (dst src : view) : res heap :=
  assert_ (v_len src =? v_len dst) ;;; v_copy h dst src.

(** vectorview.hpp:289-295  operator=(T val) *)
Definition v_fill (h : heap) (v : view) (t : T) : res heap :=
  for_ 0 (v_len v) h (fun i h => v_put h v i t).

(** vectorview.hpp:381-393  Add(double alpha, rhs) *)
Definition v_add_scaled (h : heap) (v : view) (alpha : T) (rhs : view) : res heap :=
  assert_ (v_len rhs =? v_len v) ;;;
  for_ 0 (v_len v) h (fun i h => x <- v_get h rhs i ;; a <- v_at h v i ;; v_put h v i (sadd a (smul alpha x))).

(** vectorview.hpp:403-415  Sub(double alpha, rhs) *)
Definition v_sub_scaled (h : heap) (v : view) (alpha : T) (rhs : view) : res heap :=
  assert_ (v_len rhs =? v_len v) ;;;
  for_ 0 (v_len v) h (fun i h => x <- v_get h rhs i ;; a <- v_at h v i ;; v_put h v i (ssub a (smul alpha x))).

(** vectorview.hpp:425-437  Set(double alpha, rhs) *)
Definition v_set_scaled (h : heap) (v : view) (alpha : T) (rhs : view) : res heap :=
  assert_ (v_len rhs =? v_len v) ;;;
  for_ 0 (v_len v) h (fun i h => x <- v_get h rhs i ;; v_put h v i (smul alpha x)).

(** vectorview.hpp:512-523, 530-545, 551-564, 571-583  operator*=, /=, +=, -= with a view *)
Definition v_zip (op : T -> T -> T) (h : heap) (lhs rhs : view) : res heap :=
  assert_ (v_len lhs =? v_len rhs) ;;;
  for_ 0 (v_len lhs) h (fun i h => x <- v_get h rhs i ;; a <- v_get h lhs i ;; v_set h lhs i (op a x)).
Definition v_mul_view := v_zip smul.
Definition v_add_view := v_zip sadd.
Definition v_sub_view := v_zip ssub.
Definition v_div_view (h : heap) (lhs rhs : view) : res heap :=
  assert_ (v_len lhs =? v_len rhs) ;;;
  for_ 0 (v_len lhs) h (fun i h =>
    d <- v_get h rhs i ;; assert_ (negb (seqb d s0)) ;;;
    x <- v_get h rhs i ;; a <- v_get h lhs i ;; v_set h lhs i (sdiv a x)).

(** vectorview.hpp:395-401, 417-423, 439-445  Add(rhs), Sub(rhs), Set(rhs) *)
Definition v_add := v_add_view.
Definition v_sub := v_sub_view.
Definition v_set_to := v_assign.

(** vectorview.hpp:589-646  operator*=, /=, +=, -= with a scalar; vector.hpp:281-297
    operator/(T, Vector) is the last one *)
Definition v_map (f : T -> T) (h : heap) (v : view) : res heap :=
  for_ 0 (v_len v) h (fun i h => a <- v_at h v i ;; v_put h v i (f a)).
Definition v_mul_scalar (h : heap) (v : view) (t : T) : res heap := v_map (fun a => smul a t) h v.
Definition v_div_scalar (h : heap) (v : view) (t : T) : res heap :=
  assert_ (negb (seqb t s0)) ;;; v_map (fun a => sdiv a t) h v.
Definition v_add_scalar (h : heap) (v : view) (t : T) : res heap := v_map (fun a => sadd a t) h v.
Definition v_sub_scalar (h : heap) (v : view) (t : T) : res heap := v_map (fun a => ssub a t) h v.
Definition v_rdiv_scalar (h : heap) (t : T) (v : view) : res heap := v_map (fun a => sdiv t a) h v.

(** vectorview.hpp:819-832  Add(alpha, x, beta, y, gamma, z) *)
Definition v_axpby (h : heap) (alpha : T) (x : view) (beta : T) (y : view) (gamma : T) (z : view) : res heap :=
  assert_ (v_len y =? v_len x) ;;; assert_ (v_len z =? v_len x) ;;;
  for_ 0 (v_len x) h (fun i h =>
    xi <- v_get h x i ;; yi <- v_get h y i ;; zi <- v_get h z i ;;
    v_set h z i (sadd (sadd (smul alpha xi) (smul beta yi)) (smul gamma zi))).
(** vectorview.hpp:839-856  Add(x, y, z) and Sub(x, y, z) *)
Definition v_add3 (h : heap) (x y z : view) : res heap := v_axpby h s1 x s1 y s0 z.
Definition v_sub3 (h : heap) (x y z : view) : res heap := v_axpby h s1 x (sopp s1) y s0 z.

(* ---------------------------------------------------------------- reductions *)

(** vectorview.hpp:443-448, 738-742  Sum: std::accumulate *)
Definition v_sum (h : heap) (v : view) : res T := l <- v_list h v ;; Ok (fold_left sadd l s0).

(** vectorview.hpp:455-478, 499-504  InnerProduct, Mult, operator*: std::inner_product *)
Definition v_inner (h : heap) (v w : view) : res T :=
  assert_ (v_len w =? v_len v) ;;;
  for_ 0 (v_len v) s0 (fun i s => a <- v_at h v i ;; b <- v_at h w i ;; Ok (sadd s (smul a b))).

(** vectorview.hpp:679-731  AbsMax, Max, Min, AbsMin *)
Definition v_max (h : heap) (v : view) : res T :=
  assert_ (0 <? v_len v) ;;; l <- v_list h v ;; max_element l.
Definition v_min (h : heap) (v : view) : res T :=
  assert_ (0 <? v_len v) ;;; l <- v_list h v ;; min_element l.
(** std::max_element and std::min_element with the comparison |a| < |b| *)
Definition abs_max_element (l : list T) : res T :=
  match l with
  | [] => Fail FUB
  | a :: l => Ok (fold_left (fun m x => if slt (sabs m) (sabs x) then x else m) l a)
  end.
Definition abs_min_element (l : list T) : res T :=
  match l with
  | [] => Fail FUB
  | a :: l => Ok (fold_left (fun m x => if slt (sabs x) (sabs m) then x else m) l a)
  end.
Definition v_abs_max (h : heap) (v : view) : res T :=
  assert_ (0 <? v_len v) ;;; l <- v_list h v ;; m <- abs_max_element l ;; Ok (sabs m).
Definition v_abs_min (h : heap) (v : view) : res T :=
  assert_ (0 <? v_len v) ;;; l <- v_list h v ;; m <- abs_min_element l ;; Ok (sabs m).

(** The conversion (double) n of an int. *)
Definition of_int (n : Z) : T :=
  match n with
  | Z0 => s0
  | Zpos p => Pos.iter (fun t => sadd t s1) s0 p
  | Zneg p => sopp (Pos.iter (fun t => sadd t s1) s0 p)
  end.
(** vectorview.hpp:748-752  Mean *)
Definition v_mean (h : heap) (v : view) : res T := s <- v_sum h v ;; Ok (sdiv s (of_int (v_len v))).

(** vectorview.hpp:461-465, 492-496  L2Norm, for a given square root function *)
Definition v_l2norm (sqrt : T -> T) (h : heap) (v : view) : res T := s <- v_inner h v v ;; Ok (sqrt s).
(** vectorview.cpp:39-42  Normalize *)
Definition v_normalize (sqrt : T -> T) (h : heap) (v : view) : res heap :=
  n <- v_l2norm sqrt h v ;; v_div_scalar h v n.
(** vectorview.cpp:44-47  SubAvg *)
Definition v_sub_avg (h : heap) (v : view) : res heap := m <- v_mean h v ;; v_sub_scalar h v m.

(** vectorview.cpp:5-37  Randomize, for the values gen 0, gen 1, ... the engine produces *)
Definition v_randomize (gen : Z -> T) (h : heap) (v : view) : res heap :=
  for_ 0 (v_len v) h (fun i h => v_put h v i (gen i)).

(** vectorview.hpp:653-674  operator==, with the constant tol = 1e-12 *)
Fixpoint close_list (tol : T) (l m : list T) : bool :=
  match l, m with
  | a :: l, b :: m => if slt tol (sabs (ssub a b)) then false else close_list tol l m
  | _, _ => true
  end.
Definition v_eq (tol : T) (h : heap) (v w : view) : res bool :=
  if negb (v_len v =? v_len w) then Ok false
  else l <- v_list h v ;; m <- v_list h w ;; Ok (close_list tol l m).

(* ---------------------------------------------------------------- Vector *)

(** vector.hpp:106  base class and data_ (the number of its buffer, or -1 before the first
    allocation). *)
Record vector : Type := Vector { w_view : view; w_data : Z }.

(** vector.hpp:27  Vector() *)
Definition w_new : vector := Vector v_null (-1).

(** data_.size() *)
Definition d_size (h : heap) (b : Z) : res Z := if b =? -1 then Ok 0 else k <- h_block h b ;; Ok (zlen (b_cells k)).

(** data_.resize(n, t).  When the capacity is exceeded a new buffer of any sufficient
    capacity is taken ([grow] is the policy of the library) and the old one is freed. *)
Definition d_resize (grow : Z -> Z -> Z) (h : heap) (b n : Z) (t : T) : res (heap * Z) :=
  if n <? 0 then Fail FThrow
  else if b =? -1 then
    (if n =? 0 then Ok (h, -1) else Ok (h_alloc h (repeat t (Z.to_nat n)) (Z.max n (grow 0 n))))
  else
    k <- h_block h b ;;
    let cells := firstn (Z.to_nat n) (b_cells k) ++ repeat t (Z.to_nat (n - zlen (b_cells k))) in
    if n <=? b_cap k then h <- set h b (Some (Block cells (b_cap k))) ;; Ok (h, b)
    else h <- h_free h b ;; Ok (h_alloc h cells (Z.max n (grow (b_cap k) n))).

(** vectorview.hpp:228-235  SetData(data_.data(), data_.size()) *)
Definition d_view (h : heap) (b : Z) : res view := n <- d_size h b ;; v_make b 0 n.

(** The state of a program: memory and its Vector variables. *)
Record vstate : Type := VState { st_heap : heap; st_vars : list vector }.

(** A VectorView argument: a Vector variable (converted to its base class), or a view
    VectorView(x.begin() + off, size) of one. *)
Inductive vref : Type :=
| RVar (x : Z)
| RSub (x off size : Z).
Definition v_of (st : vstate) (r : vref) : res view :=
  match r with
  | RVar x => w <- get (st_vars st) x ;; Ok (w_view w)
  | RSub x off size => w <- get (st_vars st) x ;; v_make (v_buf (w_view w)) (v_off (w_view w) + off) size
  end.

Definition st_push (st : vstate) (h : heap) (w : vector) : vstate := VState h (st_vars st ++ [w]).
Definition st_put (st : vstate) (h : heap) (x : Z) (w : vector) : res vstate :=
  vs <- set (st_vars st) x w ;; Ok (VState h vs).

Variable grow : Z -> Z -> Z.

(** vector.hpp:118-133  Vector(int size) and Vector(int size, T val) *)
Definition st_new (st : vstate) (n : Z) (t : T) : res vstate :=
  '(h, b) <- d_resize grow (st_heap st) (-1) n t ;; v <- d_view h b ;; Ok (st_push st h (Vector v b)).

(** vector.hpp:154-160  Vector(std::vector<T> vect): takes over the elements *)
Definition st_of_list (st : vstate) (l : list T) : res vstate :=
  let (h, b) := h_alloc (st_heap st) l (Z.max (zlen l) (grow 0 (zlen l))) in
  v <- d_view h b ;; Ok (st_push st h (Vector v b)).

(** vector.hpp:145-152  Vector(const VectorView<T>&); 135-143 Vector(const T*, int) *)
Definition st_of_view (st : vstate) (r : vref) : res vstate :=
  v <- v_of st r ;;
  '(h, b) <- d_resize grow (st_heap st) (-1) (v_len v) s0 ;;
  h <- v_copy h (View b 0 (v_len v)) v ;;
  w <- d_view h b ;; Ok (st_push st h (Vector w b)).

(** vector.hpp:162-167  Vector(const Vector&): data_ is copied *)
Definition st_copy (st : vstate) (y : Z) : res vstate :=
  u <- get (st_vars st) y ;;
  n <- d_size (st_heap st) (w_data u) ;;
  '(h, b) <- d_resize grow (st_heap st) (-1) n s0 ;;
  h <- v_copy h (View b 0 n) (View (w_data u) 0 n) ;;
  v <- d_view h b ;; Ok (st_push st h (Vector v b)).

(** vector.hpp:169-175  Vector(Vector&&): swap with a default constructed object *)
Definition st_move (st : vstate) (y : Z) : res vstate :=
  u <- get (st_vars st) y ;;
  v <- d_view (st_heap st) (w_data u) ;;
  vs <- set (st_vars st) y w_new ;;
  Ok (VState (st_heap st) (vs ++ [Vector v (w_data u)])).

(** vector.hpp:177-201  SetSize(size) and SetSize(size, val) *)
Definition st_set_size (st : vstate) (x n : Z) (t : T) : res vstate :=
  w <- get (st_vars st) x ;;
  if n =? v_len (w_view w) then Ok st
  else
    assert_ (0 <=? n) ;;;
    '(h, b) <- d_resize grow (st_heap st) (w_data w) n t ;;
    v <- d_view h b ;; st_put st h x (Vector v b).

(** vector.hpp:203-212  operator=(const Vector&).  data_ of x is resized before data_ of y is
    read, so y is looked up again (it may be the same object). *)
Definition st_assign (st : vstate) (x y : Z) : res vstate :=
  u <- get (st_vars st) y ;;
  w <- get (st_vars st) x ;;
  '(h, b) <- d_resize grow (st_heap st) (w_data w) (v_len (w_view u)) s0 ;;
  st <- st_put st h x (Vector (w_view w) b) ;;
  u <- get (st_vars st) y ;;
  n <- d_size h (w_data u) ;;
  h <- v_copy h (View b 0 n) (View (w_data u) 0 n) ;;
  v <- d_view h b ;; st_put st h x (Vector v b).

(** vector.hpp:214-223  operator=(const VectorView&): the view is fixed before the resize *)
Definition st_assign_view (st : vstate) (x : Z) (r : vref) : res vstate :=
  v <- v_of st r ;;
  w <- get (st_vars st) x ;;
  '(h, b) <- d_resize grow (st_heap st) (w_data w) (v_len v) s0 ;;
  h <- v_copy h (View b 0 (v_len v)) v ;;
  v <- d_view h b ;; st_put st h x (Vector v b).

(** vector.hpp:235-240  swap *)
Definition st_swap (st : vstate) (x y : Z) : res vstate :=
  w <- get (st_vars st) x ;; u <- get (st_vars st) y ;;
  vs <- set (st_vars st) x u ;; vs <- set vs y w ;;
  Ok (VState (st_heap st) vs).

(** vector.hpp:225-233  operator=(Vector&&): swap, then SetData *)
Definition st_move_assign (st : vstate) (x y : Z) : res vstate :=
  st <- st_swap st x y ;;
  w <- get (st_vars st) x ;;
  v <- d_view (st_heap st) (w_data w) ;; st_put st (st_heap st) x (Vector v (w_data w)).

(** Any function of views applied to references. *)
Definition st_on1 (f : heap -> view -> res heap) (st : vstate) (r : vref) : res vstate :=
  v <- v_of st r ;; h <- f (st_heap st) v ;; Ok (VState h (st_vars st)).
Definition st_on2 (f : heap -> view -> view -> res heap) (st : vstate) (r q : vref) : res vstate :=
  v <- v_of st r ;; w <- v_of st q ;; h <- f (st_heap st) v w ;; Ok (VState h (st_vars st)).

(** vectorview.hpp:341-365  GetSubVector(indices, vect): vect is the variable y.  A view that
    is not a Vector keeps the pointer it had before SetSize. *)
Definition st_sub_vector (st : vstate) (r : vref) (ids : list Z) (y : Z) : res vstate :=
  v0 <- v_of st r ;;
  st <- st_set_size st y (zlen ids) s0 ;;
  for_ 0 (zlen ids) st (fun i st =>
    v <- match r with RVar _ => v_of st r | RSub _ _ _ => Ok v0 end ;;
    j <- get ids i ;; assert_ (0 <=? j) ;;; assert_ (j <? v_len v) ;;;
    t <- v_get (st_heap st) v j ;;
    w <- get (st_vars st) y ;;
    h <- v_set (st_heap st) (w_view w) i t ;;
    Ok (VState h (st_vars st))).

End Vec.

Arguments block S : clear implicits.
Arguments heap S : clear implicits.
Arguments vstate S : clear implicits.
