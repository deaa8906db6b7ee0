(** When no pivot is zero: leading blocks, positive definite matrices. *)

From Coq Require Import ZArith List Bool Lia Ring Field_theory.
From Verif Require Import Base Scalar Spec SumFacts LoopFacts Dense DenseFacts SolverSpec LuQr LuQrSpec LuProofs.
Import ListNotations.
Open Scope Z_scope.

Section LuMore.
Context {S : scalar}.
Notation T := (car S).
Context (F : field_laws S) (E : eqb_laws S).
Let R : ring_laws S := field_ring S F.
Let Rth : ring_theory (@s0 S) s1 sadd smul ssub sopp (@eq (car S)) := R.
Add Ring SRingLuM : Rth.

Lemma zero_dec (a : T) : a = s0 \/ a <> s0.
Proof. destruct (seqb a s0) eqn:H; [left; now apply E|right]. intros K. apply E in K. congruence. Qed.

(** An upper triangular system with nonzero diagonal has a solution. *)
Lemma upper_exists (m : Z) (U : mat S) (b : vect S) : 0 <= m -> nonzero_diag m U ->
  exists x : vect S, forall r, 0 <= r < m -> sum_range r m (fun c => smul (U r c) (x c)) = b r.
Proof.
  intros Hm HU.
  assert (H : forall k : nat, Z.of_nat k <= m -> exists x : vect S, forall r, m - Z.of_nat k <= r < m -> sum_range r m (fun c => smul (U r c) (x c)) = b r).
  { induction k as [|k IH]; intros Hk.
    - exists (fun _ => s0). intros r Hr. lia.
    - destruct IH as (x & Hx); [lia|]. set (p := m - Z.of_nat (Datatypes.S k)).
      set (v := sdiv (ssub (b p) (sum_range (p + 1) m (fun c => smul (U p c) (x c)))) (U p p)).
      exists (fun c => if c =? p then v else x c). intros r Hr. destruct (Z.eq_dec r p) as [->|].
      + rewrite (sum_range_first p m) by lia. rewrite Z.eqb_refl.
        rewrite (sum_range_ext (p + 1) m _ (fun c => smul (U p c) (x c))).
        2:{ intros c Hc. destruct (Z.eqb_spec c p); [lia|reflexivity]. }
        set (s := sum_range (p + 1) m _) in *. transitivity (sadd (smul v (U p p)) s); [ring|]. unfold v. rewrite (div_mul F) by (apply HU; lia). ring.
      + rewrite <- (Hx r) by lia. apply sum_range_ext. intros c Hc. destruct (Z.eqb_spec c p); [lia|reflexivity]. }
  destruct (H (Z.to_nat m)) as (x & Hx); [lia|]. exists x. intros r Hr. apply Hx. lia.
Qed.

Lemma upper_kernel (i : Z) (U : mat S) : 0 <= i -> upper (i + 1) U -> nonzero_diag i U -> U i i = s0 ->
  exists x : vect S, x i = s1 /\ forall r, 0 <= r <= i -> mat_vec U (i + 1) x r = s0.
Proof.
  intros Hi HU Hd H0. destruct (upper_exists i U (fun r => sopp (U r i)) Hi Hd) as (x & Hx).
  exists (fun c => if c =? i then s1 else x c). split; [now rewrite Z.eqb_refl|]. intros r Hr. unfold mat_vec.
  rewrite (sum_range_last R) by lia. rewrite Z.eqb_refl.
  rewrite (sum_range_ext 0 i _ (fun c => smul (U r c) (x c))).
  2:{ intros c Hc. destruct (Z.eqb_spec c i); [lia|reflexivity]. }
  destruct (Z.eq_dec r i) as [->|].
  - rewrite H0. rewrite (sum_range_0 R). 2:{ intros c Hc. rewrite HU by lia. ring. } ring.
  - rewrite (sum_range_split R 0 r i) by lia. rewrite (Hx r) by lia.
    rewrite (sum_range_0 R 0 r). 2:{ intros c Hc. rewrite HU by lia. ring. } ring.
Qed.

Variable n : Z.
Notation sq := (is_dense n n).

Lemma pivot_nonzero (A : mat S) i (L U : dense S) : 0 <= i < n -> lu_facts n A i L U -> nonzero_diag i (dense_mat U) -> mat_nonsingular (i + 1) A ->
  dense_mat U i i <> s0.
Proof.
  intros Hi (HL & HU & FL & FU & FA) Hd HA H0.
  destruct (upper_kernel i (dense_mat U)) as (x & Hx & Hk); [lia|intros r c Hr Hc Hlt; apply FU; lia|exact Hd|exact H0|].
  assert (Hz : x i = s0).
  { apply (HA x); [|lia]. intros r Hr. unfold mat_vec.
    rewrite (sum_range_ext 0 (i + 1) _ (fun c => sadd (sum_range 0 i (fun k => smul (dense_mat L r k) (smul (dense_mat U k c) (x c)))) (smul (if r <? i then s0 else dense_mat U r c) (x c)))).
    2:{ intros c Hc. rewrite FA by lia. rewrite (sum_range_ext 0 i (fun k => smul (dense_mat L r k) (smul (dense_mat U k c) (x c))) (fun k => smul (smul (dense_mat L r k) (dense_mat U k c)) (x c))) by (intros; ring).
        rewrite (sum_range_scale_r R). ring. }
    rewrite (sum_range_add R). rewrite (sum_range_swap R).
    rewrite (sum_range_0 R 0 i).
    2:{ intros k Hk'. rewrite (sum_range_scale R). fold (mat_vec (dense_mat U) (i + 1) x k). rewrite Hk by lia. ring. }
    destruct (Z.ltb_spec r i).
    - rewrite (sum_range_0 R); [ring|]. intros; ring.
    - fold (mat_vec (dense_mat U) (i + 1) x r). rewrite Hk by lia. ring. }
  rewrite Hx in Hz. exact (F_1_neq_0 F Hz).
Qed.

(** Nonsingular leading blocks: the elimination succeeds. *)
Lemma lu_decomp_leading (A : dense S) m : 0 <= n -> n <= m <= n + 1 -> sq A -> leading_nonsingular m (dense_mat A) ->
  exists L U, lu_decomp A = Ok (L, U) /\ sq L /\ sq U /\ lower n (dense_mat L) /\ unit_diag n (dense_mat L) /\
    upper n (dense_mat U) /\ nonzero_diag (m - 1) (dense_mat U) /\ same_mat n n (mat_mul (dense_mat L) (dense_mat U) n) (dense_mat A).
Proof.
  intros Hn Hm HA HN. rewrite (lu_decomp_steps n) by apply HA. destruct (@d_zeros_ok S n n Hn Hn) as (L0 & -> & K0 & R0 & C0 & Z0). cbn [bind].
  cut (returns (for_ 0 n (L0, A) (lu_step n)) (fun LU => lu_facts n (dense_mat A) n (fst LU) (snd LU) /\ nonzero_diag (m - 1) (dense_mat (snd LU)))).
  { intros H. apply returns_exists in H. destruct H as ((L & U) & Ok & H & Hd). cbn [fst snd] in *.
    exists L, U. split; [exact Ok|]. split; [apply H|]. split; [apply H|]. destruct (lu_facts_end F n _ _ _ H) as (H1 & H2 & H3 & H4). auto. }
  apply (returns_for (fun i LU => lu_facts n (dense_mat A) i (fst LU) (snd LU) /\ nonzero_diag (Z.min i (m - 1)) (dense_mat (snd LU)))).
  - exact Hn.
  - cbn [fst snd]. split; [apply (lu_facts_start F); [exact HA|split; [exact K0|split; assumption]|exact Z0]|]. intros i Hi. lia.
  - intros i (L & U) Hi (H & Hd). cbn [fst snd] in *.
    assert (Hp : i < m - 1 -> dense_mat U i i <> s0).
    { intros Hi1. apply (pivot_nonzero (dense_mat A) i L U Hi H); [|apply HN; lia]. intros k Hk. apply Hd. lia. }
    eapply returns_weaken; [apply (lu_step_facts F n _ i L U Hi H); intros; apply Hp; lia|]. cbv beta. intros (M & V). cbn [fst snd]. intros (H' & EV & _).
    split; [exact H'|]. intros k Hk. rewrite EV by lia. destruct (Z.eq_dec k i) as [->|]; [apply Hp; lia|apply Hd; lia].
  - intros (L & U) (H & Hd). cbn [fst snd] in *. split; [exact H|]. intros k Hk. apply Hd. lia.
Qed.

Lemma lu_solve_ok (A : dense S) (b : list T) : 0 <= n -> sq A -> zlen b = n -> leading_nonsingular (n + 1) (dense_mat A) ->
  exists x, lu_solve A b = Ok x /\ solves n (dense_mat A) b x.
Proof.
  intros Hn HA Hb HN. destruct (lu_decomp_leading A (n + 1) Hn ltac:(lia) HA HN) as (L & U & Ok & HL & HU & TL & DL & TU & DU & M).
  unfold lu_solve. rewrite Ok. cbn [bind]. replace (n + 1 - 1) with n in DU by lia.
  destruct (solve_lu_ok F n L U b Hn HL HU Hb TL) as (x & Ex & Hx & H); [intros i Hi; rewrite DL by lia; apply (F_1_neq_0 F)|exact TU|exact DU|].
  exists x. split; [exact Ex|]. split; [exact Hx|]. intros i Hi. rewrite <- H by lia.
  apply mat_vec_ext; [|reflexivity]. intros j Hj. symmetry. now apply M.
Qed.

(** A nonsingular system has at most one solution. *)
Lemma solves_unique (A : mat S) (b x y : list T) : mat_nonsingular n A -> solves n A b x -> solves n A b y -> x = y.
Proof.
  intros HA (Hx & Ex) (Hy & Ey). apply (list_ext s0); [lia|]. rewrite Hx. intros i Hi.
  assert (H : ssub (vec_of x i) (vec_of y i) = s0).
  { apply (HA (fun k => ssub (vec_of x k) (vec_of y k))); [|exact Hi]. intros r Hr. transitivity (ssub (mat_vec A n (vec_of x) r) (mat_vec A n (vec_of y) r)).
    - unfold mat_vec. rewrite (sum_range_ext 0 n _ (fun j => sadd (smul (A r j) (vec_of x j)) (smul (sopp s1) (smul (A r j) (vec_of y j))))) by (intros; ring).
      rewrite (sum_range_add R), (sum_range_scale R). ring.
    - rewrite Ex, Ey by lia. ring. }
  change (vec_of x i = vec_of y i). transitivity (sadd (ssub (vec_of x i) (vec_of y i)) (vec_of y i)); [ring|]. rewrite H. ring.
Qed.

Lemma pos_def_leading (A : mat S) : order_laws S -> mat_pos_def n A -> leading_nonsingular (n + 1) A.
Proof.
  intros O HA k Hk x Hx i Hi. destruct (zero_dec (x i)) as [H|H]; [exact H|exfalso].
  set (y := fun j => if j <? k then x j else s0).
  assert (Hp : slt s0 (inner n y (mat_vec A n y)) = true).
  { apply HA. exists i. split; [lia|]. unfold y. destruct (Z.ltb_spec i k); [exact H|lia]. }
  replace (inner n y (mat_vec A n y)) with (@s0 S) in Hp; [rewrite (slt_irrefl _ O) in Hp; discriminate|].
  unfold inner. rewrite (sum_range_0 R); [reflexivity|]. intros r Hr. unfold y at 1. destruct (Z.ltb_spec r k) as [L|L]; [|ring].
  replace (mat_vec A n y r) with (@s0 S); [ring|]. rewrite <- (Hx r) by lia. unfold mat_vec. rewrite (sum_range_split R 0 k n) by lia.
  rewrite (sum_range_0 R k n). 2:{ intros j Hj. unfold y. destruct (Z.ltb_spec j k); [lia|]. ring. }
  rewrite (sum_range_ext 0 k (fun j => smul (A r j) (y j)) (fun j => smul (A r j) (x j))); [ring|].
  intros j Hj. unfold y. destruct (Z.ltb_spec j k); [reflexivity|lia].
Qed.

End LuMore.
