(** What the theorems about block vectors, block matrices and block operators say.
    Definitions only. *)

From Coq Require Import ZArith List Bool.
From Verif Require Import Base Scalar Spec Dense Sparse Vec VecSpec Block.
Import ListNotations.
Open Scope Z_scope.

(* ---------------------------------------------------------------- offsets *)

(** Block i covers the positions ofs l i .. ofs l (i+1) - 1. *)
Definition ofs (l : list Z) (i : Z) : Z := zn 0 l i.
Definition nblocks (l : list Z) : Z := zlen l - 1.
Definition bsize (l : list Z) (i : Z) : Z := ofs l (i + 1) - ofs l i.
Definition total (l : list Z) : Z := ofs l (nblocks l).

(** An offset list: starts with 0 and does not decrease; blocks may be empty. *)
Record offsets_ok (l : list Z) : Prop := {
  of_len : 1 <= zlen l;
  of_first : ofs l 0 = 0;
  of_mono : forall i, 0 <= i < nblocks l -> ofs l i <= ofs l (i + 1)
}.

(** Position r lies in block i. *)
Definition in_block (l : list Z) (i r : Z) : bool := (ofs l i <=? r) && (r <? ofs l (i + 1)).

Section BlockSpec.
Context {S : scalar}.
Notation T := (car S).

(* ---------------------------------------------------------------- block matrices *)

(** Block (i,j). *)
Definition bm_block (M : bmat S) (i j : Z) : csr S := zn sp_empty (zn [] (bm_A M) i) j.

(** A block that was never set is the empty matrix; a block that was set has the size the
    offsets give it. *)
Definition block_ok (rows cols : Z) (B : csr S) : Prop :=
  B = sp_empty \/ (csr_valid B /\ c_rows B = rows /\ c_cols B = cols).

Record bm_ok (M : bmat S) : Prop := {
  bk_ro : offsets_ok (bm_ro M);
  bk_co : offsets_ok (bm_co M);
  bk_rows : bm_rows M = total (bm_ro M);
  bk_cols : bm_cols M = total (bm_co M);
  bk_A : zlen (bm_A M) = nblocks (bm_ro M);
  bk_row : forall i, 0 <= i < nblocks (bm_ro M) -> zlen (zn [] (bm_A M) i) = nblocks (bm_co M);
  bk_block : forall i j, 0 <= i < nblocks (bm_ro M) -> 0 <= j < nblocks (bm_co M) ->
    block_ok (bsize (bm_ro M) i) (bsize (bm_co M) j) (bm_block M i j)
}.

(** What a program can build: the constructor followed by SetBlock calls with valid matrices. *)
Definition bm_sets (M : bmat S) (l : list (Z * Z * csr S)) : res (bmat S) :=
  foldM (fun M (e : Z * Z * csr S) => bm_set_block M (fst (fst e)) (snd (fst e)) (snd e)) l M.
Definition bm_built (ro co : list Z) (l : list (Z * Z * csr S)) (M : bmat S) : Prop :=
  Forall (fun e : Z * Z * csr S => csr_valid (snd e)) l /\
  (M0 <- bm_new ro co ;; bm_sets M0 l) = Ok M.

(** The block of the last SetBlock call for (i,j), or the empty matrix. *)
Fixpoint last_set (l : list (Z * Z * csr S)) (i j : Z) (B : csr S) : csr S :=
  match l with
  | [] => B
  | (a, b, C) :: l => last_set l i j (if (i =? a) && (j =? b) then C else B)
  end.

(** The matrix put together from blocks F i j placed at the offsets. *)
Definition tile (ro co : list Z) (F : Z -> Z -> mat S) : mat S :=
  fun r c => sum_range 0 (nblocks ro) (fun i => sum_range 0 (nblocks co) (fun j =>
    if in_block ro i r && in_block co j c then F i j (r - ofs ro i) (c - ofs co j) else s0)).

Definition bm_mat (M : bmat S) : mat S := tile (bm_ro M) (bm_co M) (fun i j => csr_mat (bm_block M i j)).

(** Part j of a vector. *)
Definition vpart (l : list Z) (x : vect S) (j : Z) : vect S := fun k => x (ofs l j + k).
Definition lpart (l : list Z) (x : list T) (j : Z) : list T :=
  map (fun k => zn s0 x (ofs l j + k)) (zrange 0 (bsize l j)).

(** The condition under which Transpose returns: every block already has the size of the
    block it becomes. *)
Definition transposable (M : bmat S) : Prop :=
  forall i j, 0 <= i < nblocks (bm_ro M) -> 0 <= j < nblocks (bm_co M) ->
    c_rows (bm_block M i j) = bsize (bm_co M) j /\ c_cols (bm_block M i j) = bsize (bm_ro M) i.

(* ---------------------------------------------------------------- block vectors *)

(** A block vector: a usable Vector whose size is the one the offsets give. *)
Definition bv_ok (h : heap S) (w : vector) (offs : list Z) : Prop :=
  view_ok h (w_view w) /\ offsets_ok offs /\ v_len (w_view w) = total offs.

(* ---------------------------------------------------------------- operators *)

(** In every state satisfying I, Mult returns f(input) and MultAT returns g(input) whatever
    the output held before, and I holds again. *)
Definition op_does {W : Type} (I : W -> Prop) (o : op S W) (f g : list T -> list T) : Prop :=
  0 <= o_rows o /\ 0 <= o_cols o /\
  (forall w x out, I w -> zlen x = o_cols o -> zlen out = o_rows o ->
     zlen (f x) = o_rows o /\ exists w', o_mult o w x out = Ok (w', f x) /\ I w') /\
  (forall w x out, I w -> zlen x = o_rows o -> zlen out = o_cols o ->
     zlen (g x) = o_cols o /\ exists w', o_multAT o w x out = Ok (w', g x) /\ I w').

(** The operator represents the matrix A. *)
Definition op_matrix {W : Type} (I : W -> Prop) (o : op S W) (A : mat S) : Prop :=
  op_does I o (fun x => map (mat_vec A (o_cols o) (vec_of x)) (zrange 0 (o_rows o)))
              (fun x => map (mat_vec (mat_T A) (o_rows o) (vec_of x)) (zrange 0 (o_cols o))).

(* ---------------------------------------------------------------- block operators *)

Definition bo_block {W} (B : bop S W) (i j : Z) : option (op S W) := zn None (zn [] (bo_A B) i) j.

Record bo_ok {W} (B : bop S W) : Prop := {
  ok_ro : offsets_ok (bo_ro B);
  ok_co : offsets_ok (bo_co B);
  ok_rows : bo_rows B = total (bo_ro B);
  ok_cols : bo_cols B = total (bo_co B);
  ok_A : zlen (bo_A B) = nblocks (bo_ro B);
  ok_row : forall i, 0 <= i < nblocks (bo_ro B) -> zlen (zn [] (bo_A B) i) = nblocks (bo_co B);
  ok_block : forall i j o, 0 <= i < nblocks (bo_ro B) -> 0 <= j < nblocks (bo_co B) ->
    bo_block B i j = Some o -> o_rows o = bsize (bo_ro B) i /\ o_cols o = bsize (bo_co B) j
}.

(** The buffers have the sizes of the operator. *)
Definition buf_ok {W} (B : bop S W) (u : bbuf S) : Prop :=
  zlen (bb_x u) = bo_cols B /\ zlen (bb_y u) = bo_rows B.

(** The operators in B compute F i j (Mult) and G i j (MultAT). *)
Definition blocks_do {W} (I : W -> Prop) (B : bop S W) (F G : Z -> Z -> list T -> list T) : Prop :=
  forall i j o, 0 <= i < nblocks (bo_ro B) -> 0 <= j < nblocks (bo_co B) -> bo_block B i j = Some o ->
    op_does I o (F i j) (G i j).

(** Entry k of block row i of the result: the sum, in order, over the blocks that are set. *)
Definition bo_value {W} (B : bop S W) (F : Z -> Z -> list T -> list T) (x : list T) (i k : Z) : T :=
  fold_left (fun a j => match bo_block B i j with None => a | Some _ => sadd a (zn s0 (F i j (lpart (bo_co B) x j)) k) end)
    (zrange 0 (nblocks (bo_co B))) s0.
Definition bo_valueAT {W} (B : bop S W) (G : Z -> Z -> list T -> list T) (x : list T) (j l : Z) : T :=
  fold_left (fun a i => match bo_block B i j with None => a | Some _ => sadd a (zn s0 (G i j (lpart (bo_ro B) x i)) l) end)
    (zrange 0 (nblocks (bo_ro B))) s0.

(** A block that is not set counts as zero. *)
Definition opt_mat {W} (o : option (op S W)) (A : mat S) : mat S := match o with Some _ => A | None => fun _ _ => s0 end.

(** What a program does with a BlockOperator. *)
Inductive bcall (W : Type) : Type :=
| CSet (i j : Z) (o : op S W)
| CMult (x out : list T)
| CMultAT (x out : list T).
Arguments CSet {W} _ _ _.
Arguments CMult {W} _ _.
Arguments CMultAT {W} _ _.

Definition run_bcall {W} (s : bop S W * W * bbuf S) (c : bcall W) : res (bop S W * W * bbuf S) :=
  let '(B, w, u) := s in
  match c with
  | CSet i j o => B <- bo_set_block B i j o ;; Ok (B, w, u)
  | CMult x out => '(w, u, _) <- bo_mult B w u x out ;; Ok (B, w, u)
  | CMultAT x out => '(w, u, _) <- bo_multAT B w u x out ;; Ok (B, w, u)
  end.
(** The operator of the last SetBlock call for (i,j). *)
Fixpoint last_op {W} (l : list (bcall W)) (i j : Z) (o : option (op S W)) : option (op S W) :=
  match l with
  | [] => o
  | CSet a b o' :: l => last_op l i j (if (i =? a) && (j =? b) then Some o' else o)
  | _ :: l => last_op l i j o
  end.
(** B, w, u are reached from the constructor (with operators in state w0) by the calls l. *)
Definition bo_reached {W} (ro co : list Z) (w0 : W) (l : list (bcall W)) (s : bop S W * W * bbuf S) : Prop :=
  ('(B, u) <- bo_new W ro co ;; foldM run_bcall l (B, w0, u)) = Ok s.

(** Every operator the calls install computes some function of its input. *)
Definition sane_call {W} (I : W -> Prop) (c : bcall W) : Prop :=
  match c with
  | CSet i j o => exists f g, op_does I o f g
  | _ => True
  end.

End BlockSpec.

Arguments bcall S W : clear implicits.
Arguments CSet {S W} _ _ _.
Arguments CMult {S W} _ _.
Arguments CMultAT {S W} _ _.
