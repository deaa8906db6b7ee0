(** ParSplit followed by the solvers on all ranks: the shares of the solution of the original system. *)

From Coq Require Import ZArith List Bool Lia Permutation.
From Verif Require Import Base Scalar Spec SumFacts LoopFacts LifeProofs Vec Dense Sparse SparseMore CsrFacts SortProofs SparseProofs Block BlockSpec BlockOp Solver SolverSpec SolverProofs KrylovFacts SolverLinks Par ParSpec ParProofs ParSplitProofs ParLinks
  HypreTransposeSpec ParMatvec ParMatvecSpec ParMatvecProofs I32ParProofs Spmd SpmdSpec SpmdProofs SpmdSolvers SpmdMatrix SplitSpec.
Import ListNotations.
Open Scope Z_scope.

Lemma pieces_inj {S : scalar} sizes (xs ys : list (list (car S))) X : pieces sizes xs X -> pieces sizes ys X -> xs = ys.
Proof.
  intros (Hx & E) (Hy & E'). rewrite <- E' in E. clear E' X. revert ys sizes Hx Hy E. induction xs as [|x xs IH]; intros ys sizes Hx Hy E; subst sizes; destruct ys as [|y ys]; try discriminate Hy; [reflexivity|].
  cbn in Hy, E. injection Hy as H1 H2. assert (Lx : length x = length y) by (unfold zlen in H1; lia).
  assert (x = y /\ concat xs = concat ys) as (-> & E').
  { clear - Lx E. revert y Lx E. induction x as [|a x IHx]; intros [|b y] Lx E; cbn in *; try lia; [now split|]. injection E as -> E. destruct (IHx y) as (-> & ->); [lia|exact E|]. now split. }
  f_equal. now apply (IH ys (map zlen xs)).
Qed.

Section Order.
Context (part : list Z) (p : Z).
Let n : Z := zlen part.
Hypothesis Hp : forall i, 0 <= i < n -> 0 <= zn 0 part i < p.
Hypothesis Hp0 : 0 <= p.

Lemma mine_local r : mine part r = local_of part r.
Proof. reflexivity. Qed.

(** The vertices in the order of the ranks *)
Definition order : list Z := concat (map (mine part) (zrange 0 p)).
Definition loads : list Z := map zlen (map (mine part) (zrange 0 p)).

Lemma zlen_loads : zlen loads = p.
Proof. unfold loads. rewrite zlen_map, zlen_map_zrange; lia. Qed.

Lemma loads_first r : 0 <= r <= p -> first_of loads r = start part r.
Proof. intros Hr. apply (start_first part p r); [intros i Hi; apply Hp, Hi|exact Hr]. Qed.

Lemma start_p : start part p = n.
Proof. unfold start. apply count_all; [apply zlen_nonneg|]. intros k Hk. specialize (Hp k Hk). lia. Qed.

Lemma loads_total : first_of loads (zlen loads) = n.
Proof. rewrite zlen_loads, loads_first by lia. apply start_p. Qed.

Lemma zlen_order : zlen order = n.
Proof.
  change (zlen (concat (map (mine part) (zrange 0 p))) = n). rewrite (concat_len (S := Zs)). rewrite zlen_map_zrange by lia.
  change (first_of loads p = n). rewrite <- zlen_loads at 1. apply loads_total.
Qed.

Lemma get_mine r : 0 <= r < p -> get (map (mine part) (zrange 0 p)) r = Ok (mine part r).
Proof. intros Hr. rewrite (get_ok []) by (rewrite zlen_map_zrange; lia). rewrite zn_map_zrange by lia. reflexivity. Qed.

Lemma order_at r i : 0 <= r < p -> 0 <= i < zlen (mine part r) -> zn 0 order (start part r + i) = zn 0 (mine part r) i.
Proof.
  intros Hr Hi. rewrite <- loads_first by lia. exact (concat_at (S := Zs) (map (mine part) (zrange 0 p)) r (mine part r) i (get_mine r Hr) Hi).
Qed.

Lemma order_number v : 0 <= v < n -> zn 0 order (renumber part v) = v.
Proof.
  intros Hv. destruct (local_number part v Hv) as (B & E). cbn zeta in *. rewrite <- mine_local in B, E.
  replace (renumber part v) with (start part (zn 0 part v) + (renumber part v - start part (zn 0 part v))) by lia.
  rewrite order_at by (auto; now apply Hp). exact E.
Qed.

Lemma renumber_onto t : 0 <= t < n -> exists v, 0 <= v < n /\ renumber part v = t.
Proof.
  intros Ht. destruct (owner_exists loads t) as (r & Hr & Ho).
  - intros r Hr. unfold loads in *. rewrite zlen_map in Hr. rewrite (zn_map [] 0) by lia. apply zlen_nonneg.
  - rewrite loads_total. exact Ht.
  - rewrite zlen_loads in Hr. rewrite !loads_first in Ho by lia. rewrite start_S in Ho. destruct (local_position part r (t - start part r)) as (B & _ & E); [lia|].
    eexists. split; [exact B|]. cbn zeta in E. lia.
Qed.

Lemma renumber_n v : 0 <= v < n -> 0 <= renumber part v < n.
Proof. intros Hv. exact (renumber_below part p v Hp Hv). Qed.

Lemma order_range t : 0 <= t < n -> 0 <= zn 0 order t < n /\ renumber part (zn 0 order t) = t.
Proof. intros Ht. destruct (renumber_onto t Ht) as (v & Hv & <-). rewrite order_number by exact Hv. now split. Qed.

Lemma order_perm : Permutation order (zrange 0 n).
Proof.
  pose proof zlen_order as L. apply NoDup_Permutation.
  - apply (NoDup_nth _ 0). intros a b Ha Hb E. unfold zlen in L.
    assert (Ea : renumber part (zn 0 order (Z.of_nat a)) = Z.of_nat a) by (apply order_range; lia).
    assert (Eb : renumber part (zn 0 order (Z.of_nat b)) = Z.of_nat b) by (apply order_range; lia).
    unfold zn in Ea, Eb. rewrite Nat2Z.id in Ea, Eb. rewrite E in Ea. lia.
  - apply NoDup_zrange.
  - intros x. rewrite In_zrange. split.
    + intros Hx. destruct (In_zn 0 _ _ Hx) as (t & Ht & <-). apply order_range. lia.
    + intros Hx. rewrite <- (order_number x Hx). apply zn_In. rewrite L. now apply renumber_n.
Qed.

(* ---------------------------------------------------------------- vectors *)

Context {S : scalar}.
Notation T := (car S).

Definition gathered (x : list T) : list T := map (fun i => zn s0 x i) order.
Definition scattered (x : list T) : list T := map (fun i => zn s0 x (renumber part i)) (zrange 0 n).

Lemma zlen_gathered x : zlen (gathered x) = n.
Proof. unfold gathered. rewrite zlen_map. apply zlen_order. Qed.
Lemma zlen_scattered x : zlen (scattered x) = n.
Proof. unfold scattered. apply zlen_map_zrange, zlen_nonneg. Qed.

Lemma zn_gathered x t : 0 <= t < n -> zn s0 (gathered x) t = zn s0 x (zn 0 order t).
Proof. intros Ht. unfold gathered. rewrite (zn_map 0 s0) by (rewrite zlen_order; exact Ht). reflexivity. Qed.

Lemma gathered_scattered x : zlen x = n -> gathered (scattered x) = x.
Proof.
  intros L. apply (list_ext s0); [rewrite zlen_gathered; lia|]. intros t Ht. rewrite zlen_gathered in Ht. rewrite zn_gathered by exact Ht.
  destruct (order_range t Ht) as (B & E). unfold scattered. rewrite zn_map_zrange by exact B. rewrite E. reflexivity.
Qed.

Lemma deal_pieces x : pieces loads (deal part p x) (gathered x).
Proof.
  split.
  - unfold deal, loads. rewrite !map_map. apply map_ext. intros r. unfold share. apply zlen_map.
  - unfold deal, gathered, order. rewrite concat_map, map_map. reflexivity.
Qed.

Lemma pieces_deal xs X : pieces loads xs X -> xs = deal part p (scattered X) /\ zlen X = n.
Proof.
  intros P. assert (L : zlen X = n).
  { destruct P as (Hs & <-). rewrite concat_len, Hs. rewrite <- loads_total. f_equal. rewrite <- Hs, zlen_map. reflexivity. }
  split; [|exact L]. apply (pieces_inj loads xs _ X P). rewrite <- (gathered_scattered X L) at 2. apply deal_pieces.
Qed.

Lemma scattered_gathered x : zlen x = n -> scattered (gathered x) = x.
Proof.
  intros L. apply (list_ext s0); [rewrite zlen_scattered; lia|]. intros t Ht. rewrite zlen_scattered in Ht. unfold scattered. rewrite zn_map_zrange by exact Ht.
  rewrite zn_gathered by now apply renumber_n. rewrite order_number by exact Ht. reflexivity.
Qed.

Lemma gathered_map (g : Z -> T) : gathered (map g (zrange 0 n)) = map g order.
Proof.
  unfold gathered. apply map_ext_in. intros i Hi. apply (Permutation_in _ order_perm) in Hi. apply In_zrange in Hi. now rewrite zn_map_zrange.
Qed.

Lemma order_range_map (g : Z -> T) : map (fun t => g (zn 0 order t)) (zrange 0 n) = map g order.
Proof. rewrite <- (map_map (zn 0 order) g). f_equal. rewrite <- zlen_order. apply map_zn_zrange. Qed.

(* ---------------------------------------------------------------- scripts *)

Context (R : ring_laws S).

Lemma dot_map (l : list Z) (f g : Z -> T) : dot (map f l) (map g l) = sum_list (map (fun i => smul (f i) (g i)) l).
Proof. unfold dot. f_equal. induction l as [|a l IH]; [reflexivity|]. cbn. rewrite IH. reflexivity. Qed.

Lemma dot_gathered x y : zlen x = n -> zlen y = n -> dot (gathered x) (gathered y) = dot x y.
Proof.
  intros Lx Ly. unfold gathered. rewrite dot_map. rewrite (sum_map_perm R _ _ _ order_perm). rewrite <- dot_map. f_equal; [rewrite <- Lx|rewrite <- Ly]; apply map_zn_zrange.
Qed.

(** The operators of one process on vectors in the order of the ranks *)
Definition in_order (whole : Z -> list T -> list T -> res (list T)) (o : Z) (x y : list T) : res (list T) :=
  z <- whole o (scattered x) (scattered y) ;; Ok (gathered z).

Definition same_data (st st' : store S) : Prop := forall v, zlen (st v) = n /\ st' v = gathered (st v).

Lemma same_put st st' d x : same_data st st' -> zlen x = n -> same_data (put st d x) (put st' d (gathered x)).
Proof. intros H L v. unfold put. destruct (v =? d); [now split|apply H]. Qed.

Lemma run_in_order {A} (whole : Z -> list T -> list T -> res (list T)) :
  (forall o x y z, zlen x = n -> zlen y = n -> whole o x y = Ok z -> zlen z = n) ->
  forall (s : script S A) (st st' : store S), same_data st st' ->
  match run whole s st with
  | Ok (a, t) => exists t', run (in_order whole) s st' = Ok (a, t') /\ same_data t t'
  | Fail f => run (in_order whole) s st' = Fail f
  end.
Proof.
  intros K. induction s as [a|f|i j k IH|i j k IH|d i j l f k IH|i j k IH|o i d k IH]; intros st st' H; cbn [run].
  - exists st'. now split.
  - reflexivity.
  - rewrite (proj2 (H i)), (proj2 (H j)), !zlen_gathered, (proj1 (H i)), (proj1 (H j)), Z.eqb_refl. cbn [assert_ bind]. now apply IH.
  - apply IH. intros v. unfold put. destruct (v =? j); [apply H|]. destruct (v =? i); apply H.
  - assert (Es : each f st d i j l = Ok (map (fun t => f (zn s0 (st i) t) (zn s0 (st j) t) (zn s0 (st l) t)) (zrange 0 n))).
    { unfold each. rewrite (proj1 (H i)), (proj1 (H j)), (proj1 (H l)), (proj1 (H d)), Z.eqb_refl. reflexivity. }
    assert (Es' : each f st' d i j l = Ok (gathered (map (fun t => f (zn s0 (st i) t) (zn s0 (st j) t) (zn s0 (st l) t)) (zrange 0 n)))).
    { unfold each. rewrite (proj2 (H i)), (proj2 (H j)), (proj2 (H l)), (proj2 (H d)), !zlen_gathered, Z.eqb_refl. cbn [assert_ bind]. f_equal.
      rewrite gathered_map, <- order_range_map. apply map_ext_in. intros t Ht. apply In_zrange in Ht. rewrite !zn_gathered by exact Ht. reflexivity. }
    rewrite Es, Es'. cbn [bind]. apply IH. apply same_put; [exact H|]. apply zlen_map_zrange, zlen_nonneg.
  - rewrite (proj2 (H i)), (proj2 (H j)). rewrite !(l_inner_dot R) by (rewrite ?zlen_gathered, ?(proj1 (H i)), ?(proj1 (H j)); reflexivity). cbn [bind].
    rewrite dot_gathered by apply H. now apply IH.
  - unfold in_order at 1 3. rewrite (proj2 (H i)), (proj2 (H d)). rewrite !scattered_gathered by apply H.
    destruct (whole o (st i) (st d)) as [z|e] eqn:Ez; cbn [bind]; [|reflexivity]. apply IH. apply same_put; [exact H|]. apply (K o _ _ _ (proj1 (H i)) (proj1 (H d)) Ez).
Qed.

End Order.

(* ---------------------------------------------------------------- the matrix made by ParSplit *)

Section Split.
Context {S : scalar}.
Notation T := (car S).
Context (E : eqb_laws S) (R : ring_laws S) (srt : sorter) (reorder : csr S -> csr S) (A : csr S) (part : list Z) (p : Z).
Hypothesis Hs : sorts srt.
Hypothesis Hr : reorders reorder.
Hypothesis VA : csr_valid A.
Hypothesis Hq : c_rows A = c_cols A.
Hypothesis Hp0 : 0 < p.
Hypothesis Hn : zlen part = c_rows A.
Hypothesis Hp : forall i, 0 <= i < zlen part -> 0 <= zn 0 part i < p.
Hypothesis Sy : forall i j, zn 0 part i = zn 0 part j -> csr_mat A i j = csr_mat A j i.

Let n : Z := zlen part.
Let Hp0' : 0 <= p. Proof. lia. Qed.

Record split_of (Cs : list (parmat S)) : Prop := {
  so_split : par_split srt reorder p A part = Ok Cs;
  so_owns : owns (loads part p) Cs;
  so_dist : distributed n n Cs;
  so_mat : forall i j, 0 <= i < n -> 0 <= j < n -> world_mat Cs (renumber part i) (renumber part j) = csr_mat A i j
}.

Lemma split_exists : exists Cs, split_of Cs.
Proof.
  destruct (par_split_ok E R srt reorder A part p Hs Hr VA Hq Hp0 Hn Hp) as (Cs & E1 & L & H & W). exists Cs.
  assert (HC : forall r C, get Cs r = Ok C -> 0 <= r < p /\ pm_valid C /\ pm_rs C = [start part r; start part (r + 1); n] /\ pm_cs C = pm_rs C).
  { intros r C G. apply (get_Ok_inv pm_none) in G. destruct G as (B & ->). rewrite L in B. destruct (H r B) as (V & H1 & H2). split; [exact B|]. split; [exact V|]. split; [exact H1|congruence]. }
  split; [exact E1| | |].
  - split; [rewrite (zlen_loads part p Hp0'); now symmetry|]. intros r C G. destruct (HC r C G) as (B & _ & E2 & E3). split; [|exact E3].
    rewrite (loads_total part p Hp Hp0'), !(loads_first part p Hp) by lia. exact E2.
  - split.
    + intros r C G. destruct (HC r C G) as (B & V & E2 & E3). split; [exact V|]. unfold pm_grows, pm_gcols. rewrite E3, E2. split; reflexivity.
    + intros r q C D N G1 G2. destruct (HC r C G1) as (B & _ & -> & _). destruct (HC q D G2) as (B' & _ & -> & _). unfold zn. cbn. unfold apart.
      destruct (Z.lt_ge_cases r q); [left|right]; apply start_mono; lia.
    + intros r q C D N G1 G2. destruct (HC r C G1) as (B & _ & E2 & ->). destruct (HC q D G2) as (B' & _ & E2' & ->). rewrite E2, E2'. unfold zn. cbn. unfold apart.
      destruct (Z.lt_ge_cases r q); [left|right]; apply start_mono; lia.
  - intros i j Hi Hj. rewrite W by assumption. unfold split_value. destruct (Z.eqb_spec (zn 0 part i) (zn 0 part j)) as [Q|Q]; [|reflexivity].
    destruct (Z.le_ge_cases i j); [rewrite Z.min_l, Z.max_r by lia; reflexivity|]. rewrite Z.min_r, Z.max_l by lia. now apply Sy.
Qed.

Context (Cs : list (parmat S)) (SO : split_of Cs).
Context (H : hypre S) (MU : multiplies H).

Lemma sp_keeps_n : keeps n (sp_op A).
Proof.
  intros x y z Lx Ly. unfold op_mult_vec. cbn [sp_op o_rows o_mult]. rewrite l_set_size_same by (unfold n in Ly; lia). cbn [bind].
  destruct (sp_mult_spec R A x y VA) as (z' & E' & L & _); [unfold n in Lx; lia|unfold n in Ly; lia|]. rewrite E'. cbn [bind]. intros Ez. injection Ez as <-. unfold n. lia.
Qed.

(** ParMatrix::Mult on the shares *)
Lemma split_mult x y : zlen x = n -> zlen y = n ->
  exists z, of_op (sp_op A) x y = Ok z /\ sp_mult A x y = Ok z /\ view_mult H Cs (deal part p x) (deal part p y) = Ok (deal part p z).
Proof.
  intros Lx Ly. destruct SO as [E1 OW D W].
  destruct (sp_mult_spec R A x y VA) as (z & EZ & LZ & VZ); [unfold n in Lx; lia|unfold n in Ly; lia|]. exists z. split; [|split; [exact EZ|]].
  { unfold of_op, op_mult_vec. cbn [sp_op o_rows o_mult]. rewrite l_set_size_same by (unfold n in Ly; lia). cbn [bind]. rewrite EZ. reflexivity. }
  assert (PL : forall r, 0 <= r < zlen (loads part p) -> 0 <= zn 0 (loads part p) r).
  { intros r B. unfold loads in *. rewrite zlen_map in B. rewrite (zn_map [] 0) by lia. apply zlen_nonneg. }
  pose proof (loads_total part p Hp Hp0') as LT. fold n in LT.
  pose proof (owns_tiles (loads part p) Cs OW PL) as TI. rewrite LT in TI.
  destruct (view_mult_value H n n Cs (deal part p x) (deal part p y) (vec_of (gathered part p x)) MU D TI (same (loads part p) Cs OW)
    (to_cols (loads part p) Cs OW _ _ (pieces_holds (loads part p) Cs OW _ _ (deal_pieces part p x)))
    (proj1 (pieces_holds (loads part p) Cs OW _ _ (deal_pieces part p y)))) as (zs & Es & Hz).
  rewrite Es. f_equal. apply (holds_pieces (loads part p) Cs OW) in Hz. rewrite LT in Hz.
  apply (pieces_inj (loads part p) zs _ _ Hz). replace (map _ (zrange 0 n)) with (gathered part p z); [apply deal_pieces|].
  pose proof (zlen_nonneg part).
  apply (list_ext s0); [rewrite zlen_gathered by assumption; rewrite zlen_map_zrange by assumption; reflexivity|].
  intros t Ht. rewrite zlen_gathered in Ht by assumption. rewrite zn_gathered, zn_map_zrange by assumption.
  destruct (order_range part p Hp Hp0' t Ht) as (Bi & Ei). set (i := zn 0 (order part p) t) in *. change (zn s0 z i) with (vec_of z i). rewrite VZ by (unfold n in *; lia).
  unfold mat_vec. rewrite <- Hq, <- Hn.
  transitivity (sum_list (map (fun j => smul (world_mat Cs t j) (vec_of (gathered part p x) j)) (map (renumber part) (zrange 0 n)))).
  - unfold sum_range. rewrite map_map. apply sum_map_ext. intros j Hj. apply In_zrange in Hj. rewrite <- Ei, W by assumption. f_equal. unfold vec_of.
    rewrite zn_gathered by (try assumption; now apply (renumber_n part p Hp)). rewrite (order_number part p Hp Hp0') by exact Hj. reflexivity.
  - unfold sum_range. apply (sum_map_perm R). apply NoDup_Permutation.
    + exact (proj1 (proj2 (renumber_perm part p Hp))).
    + apply NoDup_zrange.
    + intros g. rewrite In_zrange, in_map_iff. split.
      * intros (j & <- & Hj). apply In_zrange in Hj. now apply (renumber_n part p Hp).
      * intros Hg. destruct (renumber_onto part p Hp Hp0' g Hg) as (v & Hv & Ev). exists v. split; [exact Ev|]. now apply In_zrange.
Qed.

Context (M : option (op S unit)) (P : option (list (list T) -> list (list T) -> res (list (list T)))) (PC : split_precond part p M P).

Lemma split_collective : collective (loads part p) (par_ops H Cs P) (in_order part p (solver_ops (sp_op A) M)).
Proof.
  intros o xs ys X Y Px Py. destruct (pieces_deal part p Hp Hp0' xs X Px) as (-> & LX). destruct (pieces_deal part p Hp Hp0' ys Y Py) as (-> & LY).
  pose proof (zlen_scattered part X) as L1. pose proof (zlen_scattered part Y) as L2.
  unfold in_order, par_ops, solver_ops. destruct (o =? 0).
  - destruct (split_mult _ _ L1 L2) as (z & -> & _ & ->). cbn [bind]. eexists. split; [reflexivity|]. apply deal_pieces.
  - unfold split_precond in PC. destruct M as [m|], P as [q|]; try contradiction; [|reflexivity].
    pose proof (proj2 PC _ _ L1 L2) as G. destruct (of_op m (scattered part X) (scattered part Y)) as [z|f]; cbn [bind]; [|exact G].
    eexists. split; [exact G|]. apply deal_pieces.
Qed.

Lemma ops_keep o x y z : zlen x = n -> zlen y = n -> solver_ops (sp_op A) M o x y = Ok z -> zlen z = n.
Proof.
  intros Lx Ly. unfold solver_ops. destruct (o =? 0); [|destruct M as [m|] eqn:EM; [|discriminate]].
  - intros G. pose proof (of_op_cases (sp_op A) x y) as C. rewrite G in C. exact (sp_keeps_n _ _ _ Lx Ly C).
  - intros G. pose proof (of_op_cases m x y) as C. rewrite G in C. unfold split_precond in PC. destruct P; [|contradiction]. exact (proj1 PC _ _ _ Lx Ly C).
Qed.

Context (red : allreduce (S := S)) (SR : sums red).
Context (sts : list (store S)) (st : store S) (DE : dealt part p sts st).

Lemma dealt_ne : sts <> [].
Proof.
  intros ->. pose proof (proj2 (DE 0)) as G. cbn in G. apply (f_equal zlen) in G. unfold deal in G. rewrite zlen_map_zrange in G by lia. unfold zlen in G. cbn in G. lia.
Qed.

(** Any function on all ranks *)
Lemma split_run {B} (s : script S B) :
  match run (solver_ops (sp_op A) M) s st with
  | Ok (a, st') => exists sts', spmd true red (par_ops H Cs P) s sts = Done (map (fun s => (a, s)) sts') /\ dealt part p sts' st'
  | Fail f => spmd true red (par_ops H Cs P) s sts = Crash f
  end.
Proof.
  set (st2 := fun v => gathered part p (st v)).
  assert (SD : same_data part p st st2) by (intros v; split; [apply DE|reflexivity]).
  assert (CU : cut (loads part p) sts st2) by (intros v; rewrite (proj2 (DE v)); apply deal_pieces).
  pose proof (run_in_order part p Hp Hp0' R (solver_ops (sp_op A) M) ops_keep s st st2 SD) as G.
  pose proof (spmd_run R red (loads part p) _ _ SR split_collective s st2 sts dealt_ne CU) as K. unfold agree in K.
  destruct (run (solver_ops (sp_op A) M) s st) as [(a, t)|f].
  - destruct G as (t' & G & SD'). rewrite G in K. destruct K as (sts' & K & C'). exists sts'. split; [exact K|].
    intros v. split; [apply SD'|]. apply (pieces_inj (loads part p) _ _ (t' v)); [apply C'|]. rewrite (proj2 (SD' v)). apply deal_pieces.
  - rewrite G in K. exact K.
Qed.

Lemma prec_keeps_n m : M = Some m -> keeps n m.
Proof. intros EM. unfold split_precond in PC. rewrite EM in PC. destruct P; [|contradiction]. exact (proj1 PC). Qed.

Lemma dealt_sized : sized n st.
Proof. intros v. apply DE. Qed.

Lemma pcg_split par u : pb_Ap u = st vAp -> pb_z u = st vZ ->
  match pcg_mult (sp_op A) M l_inner par tt u (st vB) (st vX) with
  | Ok (_, _, x, k) => exists sts', spmd true red (par_ops H Cs P) (s_pcg (isM M) par) sts = Done (map (fun s => (k, s)) sts') /\
      map (fun s : store S => s vX) sts' = deal part p x
  | Fail f => spmd true red (par_ops H Cs P) (s_pcg (isM M) par) sts = Crash f
  end.
Proof.
  intros Eu Ez. rewrite (pcg_eq n (sp_op A) M par (eq_sym Hn) (eq_sym (eq_trans Hn Hq)) sp_keeps_n prec_keeps_n st u dealt_sized Eu Ez).
  pose proof (split_run (s_pcg (isM M) par)) as G.
  destruct (run (solver_ops (sp_op A) M) (s_pcg (isM M) par) st) as [(k, st')|f]; cbn [bind pcg_state fst snd]; [|exact G].
  destruct G as (sts' & G & D'). exists sts'. split; [exact G|apply D'].
Qed.

Context (root : T -> T).

Lemma minres_split par :
  match minres_mult root (sp_op A) l_inner par tt (mb st) (st vB) (st vX) with
  | Ok (_, _, _, x, k) => exists sts', spmd true red (par_ops H Cs P) (s_minres root par) sts = Done (map (fun s => (k, s)) sts') /\
      map (fun s : store S => s vX) sts' = deal part p x
  | Fail f => spmd true red (par_ops H Cs P) (s_minres root par) sts = Crash f
  end.
Proof.
  pose proof (minres_eq n (sp_op A) M par (eq_sym Hn) (eq_sym (eq_trans Hn Hq)) sp_keeps_n prec_keeps_n root st dealt_sized) as E'.
  pose proof (split_run (s_minres root par)) as G.
  destruct (minres_mult root (sp_op A) l_inner par tt (mb st) (st vB) (st vX)) as [((((w, u), l), x), k)|f].
  - destruct E' as (st' & _ & _ & -> & E'). rewrite E' in G. destruct G as (sts' & G & D'). exists sts'. split; [exact G|apply D'].
  - rewrite E' in G. exact G.
Qed.

Lemma pminres_split par m : M = Some m ->
  match pminres_mult root (sp_op A) m l_inner par tt (mb st) (st vB) (st vX) with
  | Ok (_, _, _, x, k) => exists sts', spmd true red (par_ops H Cs P) (s_pminres root par) sts = Done (map (fun s => (k, s)) sts') /\
      map (fun s : store S => s vX) sts' = deal part p x
  | Fail f => spmd true red (par_ops H Cs P) (s_pminres root par) sts = Crash f
  end.
Proof.
  intros EM. pose proof (pminres_eq n (sp_op A) M par (eq_sym Hn) (eq_sym (eq_trans Hn Hq)) sp_keeps_n prec_keeps_n root m EM st dealt_sized) as E'.
  pose proof (split_run (s_pminres root par)) as G.
  destruct (pminres_mult root (sp_op A) m l_inner par tt (mb st) (st vB) (st vX)) as [((((w, u), l), x), k)|f].
  - destruct E' as (st' & _ & _ & -> & E'). rewrite E' in G. destruct G as (sts' & G & D'). exists sts'. split; [exact G|apply D'].
  - rewrite E' in G. exact G.
Qed.

End Split.

(* ---------------------------------------------------------------- the theorems *)

Section Theorems.
Context {S : scalar}.
Notation T := (car S).

Theorem split_program (E : eqb_laws S) (R : ring_laws S) srt reorder (A : csr S) part p : sorts srt -> reorders reorder -> splittable A part p ->
  exists Cs, par_split srt reorder p A part = Ok Cs /\
  forall (H : hypre S) (red : allreduce (S := S)), multiplies H -> sums red ->
  forall M P, split_precond part p M P -> forall sts st, dealt part p sts st ->
  forall (B : Type) (s : script S B),
  match run (solver_ops (sp_op A) M) s st with
  | Ok (a, st') => exists sts', spmd true red (par_ops H Cs P) s sts = Done (map (fun s => (a, s)) sts') /\ dealt part p sts' st'
  | Fail f => spmd true red (par_ops H Cs P) s sts = Crash f
  end.
Proof.
  intros Hs Hr [VA Hq Hp0 Hn Hp Sy]. destruct (split_exists E R srt reorder A part p Hs Hr VA Hq Hp0 Hn Hp Sy) as (Cs & SO). exists Cs. split; [exact (so_split _ _ _ _ _ _ SO)|].
  intros H red MU SR M P PC sts st DE B s. exact (split_run R srt reorder A part p VA Hq Hp0 Hn Hp Cs SO H MU M P PC red SR sts st DE s).
Qed.

Theorem split_product (E : eqb_laws S) (R : ring_laws S) srt reorder (A : csr S) part p : sorts srt -> reorders reorder -> splittable A part p ->
  exists Cs, par_split srt reorder p A part = Ok Cs /\
  forall H : hypre S, multiplies H -> forall x y, zlen x = zlen part -> zlen y = zlen part ->
  exists z, sp_mult A x y = Ok z /\ view_mult H Cs (deal part p x) (deal part p y) = Ok (deal part p z).
Proof.
  intros Hs Hr [VA Hq Hp0 Hn Hp Sy]. destruct (split_exists E R srt reorder A part p Hs Hr VA Hq Hp0 Hn Hp Sy) as (Cs & SO). exists Cs. split; [exact (so_split _ _ _ _ _ _ SO)|].
  intros H MU x y Lx Ly. destruct (split_mult R srt reorder A part p VA Hq Hp0 Hn Hp Cs SO H MU x y Lx Ly) as (z & _ & Ez & Ev). eauto.
Qed.

Theorem split_pcg (E : eqb_laws S) (R : ring_laws S) srt reorder (A : csr S) part p : sorts srt -> reorders reorder -> splittable A part p ->
  exists Cs, par_split srt reorder p A part = Ok Cs /\
  forall (H : hypre S) (red : allreduce (S := S)), multiplies H -> sums red ->
  forall M P, split_precond part p M P -> forall sts st, dealt part p sts st ->
  forall (par : sparams S) (u : pbuf S), pb_Ap u = st vAp -> pb_z u = st vZ ->
  match pcg_mult (sp_op A) M l_inner par tt u (st vB) (st vX) with
  | Ok (_, _, x, k) => exists sts', spmd true red (par_ops H Cs P) (s_pcg (isM M) par) sts = Done (map (fun s => (k, s)) sts') /\
      map (fun s : store S => s vX) sts' = deal part p x
  | Fail f => spmd true red (par_ops H Cs P) (s_pcg (isM M) par) sts = Crash f
  end.
Proof.
  intros Hs Hr [VA Hq Hp0 Hn Hp Sy]. destruct (split_exists E R srt reorder A part p Hs Hr VA Hq Hp0 Hn Hp Sy) as (Cs & SO). exists Cs. split; [exact (so_split _ _ _ _ _ _ SO)|].
  intros H red MU SR M P PC sts st DE par u. exact (pcg_split R srt reorder A part p VA Hq Hp0 Hn Hp Cs SO H MU M P PC red SR sts st DE par u).
Qed.

Theorem split_minres (E : eqb_laws S) (R : ring_laws S) srt reorder (A : csr S) part p : sorts srt -> reorders reorder -> splittable A part p ->
  exists Cs, par_split srt reorder p A part = Ok Cs /\
  forall (H : hypre S) (red : allreduce (S := S)), multiplies H -> sums red ->
  forall sts st, dealt part p sts st -> forall (root : T -> T) (par : sparams S),
  match minres_mult root (sp_op A) l_inner par tt (mb st) (st vB) (st vX) with
  | Ok (_, _, _, x, k) => exists sts', spmd true red (par_ops H Cs None) (s_minres root par) sts = Done (map (fun s => (k, s)) sts') /\
      map (fun s : store S => s vX) sts' = deal part p x
  | Fail f => spmd true red (par_ops H Cs None) (s_minres root par) sts = Crash f
  end.
Proof.
  intros Hs Hr [VA Hq Hp0 Hn Hp Sy]. destruct (split_exists E R srt reorder A part p Hs Hr VA Hq Hp0 Hn Hp Sy) as (Cs & SO). exists Cs. split; [exact (so_split _ _ _ _ _ _ SO)|].
  intros H red MU SR sts st DE root par. exact (minres_split R srt reorder A part p VA Hq Hp0 Hn Hp Cs SO H MU None None I red SR sts st DE root par).
Qed.

Theorem split_pminres (E : eqb_laws S) (R : ring_laws S) srt reorder (A : csr S) part p : sorts srt -> reorders reorder -> splittable A part p ->
  exists Cs, par_split srt reorder p A part = Ok Cs /\
  forall (H : hypre S) (red : allreduce (S := S)), multiplies H -> sums red ->
  forall m q, split_precond part p (Some m) (Some q) -> forall sts st, dealt part p sts st -> forall (root : T -> T) (par : sparams S),
  match pminres_mult root (sp_op A) m l_inner par tt (mb st) (st vB) (st vX) with
  | Ok (_, _, _, x, k) => exists sts', spmd true red (par_ops H Cs (Some q)) (s_pminres root par) sts = Done (map (fun s => (k, s)) sts') /\
      map (fun s : store S => s vX) sts' = deal part p x
  | Fail f => spmd true red (par_ops H Cs (Some q)) (s_pminres root par) sts = Crash f
  end.
Proof.
  intros Hs Hr [VA Hq Hp0 Hn Hp Sy]. destruct (split_exists E R srt reorder A part p Hs Hr VA Hq Hp0 Hn Hp Sy) as (Cs & SO). exists Cs. split; [exact (so_split _ _ _ _ _ _ SO)|].
  intros H red MU SR m q PC sts st DE root par. exact (pminres_split R srt reorder A part p VA Hq Hp0 Hn Hp Cs SO H MU (Some m) (Some q) PC red SR sts st DE root par m eq_refl).
Qed.

(** Assembly, distribution and solution of a symmetric positive definite system *)
Theorem split_converges (F : field_laws S) (E : eqb_laws S) (O : order_laws S) srt reorder (A : csr S) part p : sorts srt -> reorders reorder -> splittable A part p ->
  mat_sym (c_rows A) (csr_mat A) -> mat_pos_def (c_rows A) (csr_mat A) ->
  exists Cs, par_split srt reorder p A part = Ok Cs /\
  forall (H : hypre S) (red : allreduce (S := S)), multiplies H -> sums red ->
  forall sts st, dealt part p sts st ->
  let n := c_rows A in let res x := residual (csr_mat A) n (st vB) x in let sq r := inner n (vec_of r) (vec_of r) in
  forall par : sparams S, slt s0 (tolerance par (sq (res (st vX)))) = true -> slt (sp_floor par) s0 = true -> n < sp_max par ->
  exists sts' x k, spmd true red (par_ops H Cs None) (s_pcg false par) sts = Done (map (fun s => (k, s)) sts') /\ 1 <= k <= Z.max 1 n /\
    map (fun s : store S => s vX) sts' = deal part p x /\ slt (sq (res x)) (tolerance par (sq (res (st vX)))) = true.
Proof.
  intros Hs Hr SP SY PD. pose proof (field_ring S F) as R. destruct (split_pcg E R srt reorder A part p Hs Hr SP) as (Cs & E1 & K). exists Cs. split; [exact E1|].
  destruct SP as [VA Hq Hp0 Hn Hp _]. intros H red MU SR sts st DE n res sq par Ht Hf Hm.
  assert (Ac : acts_as (fun _ : unit => True) (sp_op A) n (csr_mat A)) by (apply matrix_acts; [apply (sp_op_matrix R); exact VA|reflexivity|exact (eq_sym Hq)]).
  assert (Ln : forall v, zlen (st v) = n) by (intros v; rewrite (proj1 (DE v)); exact Hn).
  assert (Lr : forall x, zlen (res x) = n) by (intros x; unfold res, residual; apply zlen_map_zrange; rewrite <- (Ln vX); apply zlen_nonneg).
  assert (I : forall x, mat_list id_mat n (res x) = res x) by (intros x; apply (idm_list F); apply Lr).
  destruct (pcg_converges_within F E O (fun _ : unit => True) (sp_op A) n (csr_mat A) Ac SY None id_mat par tt (PBuf (st vAp) (st vR) (st vP) (st vZ)) (st vB) (st vX) PD
    (fun x Hx => idm_list F n x Hx) (idm_sym n) Logic.I (Ln _) (Ln _)) as (w & u & x & k & Ek & Bk & Hres); try assumption; [fold (res (st vX)); rewrite !I; exact Ht|].
  fold (res x) in Hres. fold (res (st vX)) in Hres. rewrite !I in Hres.
  pose proof (K H red MU SR None None Logic.I sts st DE par (PBuf (st vAp) (st vR) (st vP) (st vZ)) eq_refl eq_refl) as P.
  rewrite Ek in P. destruct P as (sts' & P & Px). exists sts', x, k. split; [exact P|]. split; [exact Bk|]. split; [exact Px|exact Hres].
Qed.

(** The shares determine the vector *)
Theorem deal_share (part : list Z) (p : Z) (x : list T) : (forall i, 0 <= i < zlen part -> 0 <= zn 0 part i < p) -> 0 <= p -> zlen x = zlen part ->
  map zlen (deal part p x) = map (fun r => count (fun i => zn 0 part i =? r) (zlen part)) (zrange 0 p) /\
  forall i, 0 <= i < zlen part -> zn s0 (zn [] (deal part p x) (zn 0 part i)) (count (fun j => zn 0 part j =? zn 0 part i) i) = zn s0 x i.
Proof.
  intros Hp Hp0 Lx. split.
  - unfold deal. rewrite map_map. apply map_ext. intros r. unfold share, mine. rewrite zlen_map. apply count_filter, zlen_nonneg.
  - intros i Hi. pose proof (Hp i Hi). unfold deal. rewrite zn_map_zrange by assumption. unfold share.
    pose proof (local_number part i Hi) as (B & Ei). cbn zeta in *. rewrite renumber_eq in B, Ei.
    replace (start part (zn 0 part i) + count (own part (zn 0 part i)) i - start part (zn 0 part i)) with (count (own part (zn 0 part i)) i) in B, Ei by lia.
    change (fun j => zn 0 part j =? zn 0 part i) with (own part (zn 0 part i)). rewrite (zn_map 0 s0) by exact B. f_equal. exact Ei.
Qed.

End Theorems.
