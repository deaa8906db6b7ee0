(** C108: the remaining steps. *)

From Coq Require Import ZArith List Bool Lia Ring Field_theory QArith.Qcanon.
From Verif Require Import Base Scalar Spec SumFacts LoopFacts Dense DenseFacts Examples ScalarQ SolverSpec LuQr LuQrSpec LuProofs LuMore.
Import ListNotations.
Open Scope Z_scope.

Section LuLinks.
Context {S : scalar}.
Notation T := (car S).
Context (F : field_laws S).
Let R : ring_laws S := field_ring S F.
Let Rth : ring_theory (@s0 S) s1 sadd smul ssub sopp (@eq (car S)) := R.
Add Ring SRingLuL : Rth.

Lemma forward_triangle (n : Z) (L : dense S) (b : list T) : 0 <= n -> is_dense n n L -> zlen b = n ->
  nonzero_diag n (dense_mat L) ->
  exists x, forward_elim L b = Ok x /\ solves n (fun i j => if j <=? i then dense_mat L i j else s0) b x.
Proof.
  intros Hn HL Hb Hd. destruct (forward_ok F n L b Hn HL Hb Hd) as (x & E & Hx & H). exists x. split; [exact E|]. split; [exact Hx|].
  intros i Hi. rewrite (lower_sum F n); [|intros r c Hr Hc Hrc; destruct (Z.leb_spec c r); [lia|reflexivity]|exact Hi].
  rewrite <- H by lia. apply sum_range_ext. intros j Hj. destruct (Z.leb_spec j i); [reflexivity|lia].
Qed.
Lemma back_triangle (n : Z) (U : dense S) (b : list T) : 0 <= n -> is_dense n n U -> zlen b = n ->
  nonzero_diag n (dense_mat U) ->
  exists x, back_solve U b = Ok x /\ solves n (fun i j => if i <=? j then dense_mat U i j else s0) b x.
Proof.
  intros Hn HL Hb Hd. destruct (back_ok F n U b Hn HL Hb Hd) as (x & E & Hx & H). exists x. split; [exact E|]. split; [exact Hx|].
  intros i Hi. rewrite (upper_sum F n); [|intros r c Hr Hc Hrc; destruct (Z.leb_spec r c); [lia|reflexivity]|exact Hi].
  rewrite <- H by lia. apply sum_range_ext. intros j Hj. destruct (Z.leb_spec i j); [reflexivity|lia].
Qed.

Lemma lower_zero n (L : mat S) (y : vect S) : lower n L -> unit_diag n L -> (forall r, 0 <= r < n -> mat_vec L n y r = s0) ->
  forall i, 0 <= i < n -> y i = s0.
Proof.
  intros HL HD H. enough (K : forall k : nat, forall i, 0 <= i < n -> i < Z.of_nat k -> y i = s0).
  { intros i Hi. apply (K (Z.to_nat (i + 1))); lia. }
  induction k as [|k IH]; intros i Hi Hk; [lia|]. specialize (H i Hi). rewrite (lower_sum F n L y i HL Hi) in H.
  rewrite (sum_range_last R) in H by lia. rewrite (sum_range_0 R 0 i) in H. 2:{ intros j Hj. rewrite IH by lia. ring. }
  rewrite HD in H by lia. rewrite <- H. ring.
Qed.
Lemma upper_zero n (U : mat S) (x : vect S) : upper n U -> nonzero_diag n U -> (forall r, 0 <= r < n -> mat_vec U n x r = s0) ->
  forall i, 0 <= i < n -> x i = s0.
Proof.
  intros HU HD H. enough (K : forall k : nat, forall i, 0 <= i < n -> n - Z.of_nat k <= i -> x i = s0).
  { intros i Hi. apply (K (Z.to_nat (n - i))); lia. }
  induction k as [|k IH]; intros i Hi Hk; [lia|]. specialize (H i Hi). rewrite (upper_sum F n U x i HU Hi) in H.
  rewrite (sum_range_first i n) in H by lia. rewrite (sum_range_0 R (i + 1) n) in H. 2:{ intros j Hj. rewrite IH by lia. ring. }
  apply (mul_zero F (x i) (U i i)); [|apply HD, Hi]. rewrite <- H. ring.
Qed.

(** A product of such factors has nonsingular leading blocks. *)
Lemma product_leading (n m : Z) (A L U : mat S) : n <= m <= n + 1 -> lower n L -> unit_diag n L -> upper n U -> nonzero_diag (m - 1) U ->
  same_mat n n (mat_mul L U n) A -> leading_nonsingular m A.
Proof.
  intros Hm HL HD HU HN HM k Hk x Hx. assert (Hkn : k <= n) by lia.
  apply (upper_zero k U); [intros i j Hi Hj; apply HU; lia|intros i Hi; apply HN; lia|].
  apply (lower_zero k L); [intros i j Hi Hj; apply HL; lia|intros i Hi; apply HD; lia|].
  intros r Hr. rewrite <- (Hx r Hr). unfold mat_vec.
  rewrite (sum_range_ext 0 k (fun j => smul (A r j) (x j)) (fun j => sum_range 0 k (fun p => smul (smul (L r p) (U p j)) (x j)))).
  - rewrite (sum_range_swap R). apply sum_range_ext. intros p Hp. rewrite <- (sum_range_scale R). apply sum_range_ext. intros j Hj. ring.
  - intros j Hj. rewrite (sum_range_scale_r R). rewrite <- (HM r j) by lia. unfold mat_mul. rewrite (sum_range_split R 0 k n) by lia.
    rewrite (sum_range_0 R k n); [ring|]. intros p Hp. rewrite HL by lia. ring.
Qed.

Context (E : eqb_laws S).

Lemma lu_pivots_iff (n m : Z) (A : dense S) : 0 <= n -> n <= m <= n + 1 -> is_dense n n A ->
  (leading_nonsingular m (dense_mat A) <-> exists L U, lu_decomp A = Ok (L, U) /\ nonzero_diag (m - 1) (dense_mat U)).
Proof.
  intros Hn Hm HA. split.
  - intros H. destruct (lu_decomp_leading F n A m Hn Hm HA H) as (L & U & EO & _ & _ & _ & _ & _ & K & _). exists L, U. auto.
  - intros (L & U & EO & HN). destruct (lu_decomp_sound F n A Hn HA) as (L' & U' & EO' & _ & _ & K). rewrite EO in EO'. injection EO' as <- <-.
    destruct K as (K1 & K2 & K3 & K4); [intros i Hi; apply HN; lia|].
    apply (product_leading n m _ (dense_mat L) (dense_mat U)); assumption.
Qed.

Lemma lu_solve_only (n : Z) (A : dense S) (b : list T) : 0 <= n -> is_dense n n A -> zlen b = n -> leading_nonsingular (n + 1) (dense_mat A) ->
  exists x, lu_solve A b = Ok x /\ solves n (dense_mat A) b x /\ forall y, solves n (dense_mat A) b y -> y = x.
Proof.
  intros Hn HA Hb HL. destruct (lu_solve_ok F n A b Hn HA Hb HL) as (x & EO & Hx). exists x. split; [exact EO|]. split; [exact Hx|].
  intros y Hy. destruct (Z.eq_dec n 0) as [->|N].
  - destruct Hx as (Lx & _), Hy as (Ly & _). destruct x, y; unfold zlen in *; cbn in *; try lia. reflexivity.
  - apply (solves_unique F n (dense_mat A) b); [|exact Hy|exact Hx]. apply HL. lia.
Qed.
Lemma lu_solve_pos_def (O : order_laws S) (n : Z) (A : dense S) (b : list T) : 0 <= n -> is_dense n n A -> zlen b = n -> mat_pos_def n (dense_mat A) ->
  exists x, lu_solve A b = Ok x /\ solves n (dense_mat A) b x /\ forall y, solves n (dense_mat A) b y -> y = x.
Proof. intros Hn HA Hb HP. apply lu_solve_only; try assumption. now apply (pos_def_leading F E n). Qed.

End LuLinks.

(* ---------------------------------------------------------------- right-hand sides that are too short *)

Section ShortRhs.
Context {S : scalar}.
Notation T := (car S).

Lemma x_get_short (x : list T) i : zlen x <= i -> x_get x i = Fail FAssert.
Proof. intros H. unfold x_get. destruct (Z.ltb_spec i (zlen x)); [lia|reflexivity]. Qed.

Lemma forward_short (n : Z) (L : dense S) (b : list T) : is_dense n n L -> zlen b < n -> forward_elim L b = Fail FAssert.
Proof.
  intros HL Hb. pose proof (zlen_nonneg b) as Hz. unfold forward_elim. destruct (HL) as (_ & HR & _). rewrite HR. rewrite vec_ok by lia. cbn [bind].
  rewrite (for_split 0 (zlen b) n) by lia.
  assert (G : returns (for_ 0 (zlen b) (repeat s0 (Z.to_nat n)) (fun i x => bi <- x_get b i ;; sum <- for_down (i - 1) (-1) bi (fun j sum => l <- d_get L i j ;; xj <- x_get x j ;; Ok (ssub sum (smul l xj))) ;; d <- d_get L i i ;; x_set x i (sdiv sum d))) (fun x => zlen x = n)).
  { apply (returns_for (fun _ x => zlen x = n)); [lia|rewrite zlen_repeat; lia| |auto].
    intros i x Hi Hx. rewrite x_get_ok by lia. cbn [bind]. apply returns_bind. apply (returns_for_down (fun _ _ => True)); [lia|exact I| |].
    - intros j sum Hj _. rewrite (is_dense_get _ _ L i j HL) by lia. cbn [bind]. rewrite x_get_ok by lia. exact I.
    - intros sum _. rewrite (is_dense_get _ _ L i i HL) by lia. cbn [bind]. rewrite x_set_ok by lia. cbn [returns]. now rewrite zlen_upd. }
  apply returns_exists in G. destruct G as (x & -> & Hx). cbn [bind]. unfold for_. rewrite zrange_cons by lia. cbn [foldM]. rewrite x_get_short by lia. reflexivity.
Qed.

Lemma back_short (n : Z) (U : dense S) (b : list T) : is_dense n n U -> zlen b < n -> back_solve U b = Fail FAssert.
Proof.
  intros HU Hb. pose proof (zlen_nonneg b) as Hz. unfold back_solve. destruct (HU) as (_ & HR & _). rewrite HR. rewrite vec_ok by lia. cbn [bind].
  unfold for_down. rewrite zrange_snoc by lia. rewrite rev_app_distr. cbn [rev app foldM]. rewrite x_get_short by lia. reflexivity.
Qed.

Lemma solve_short (F : field_laws S) (n : Z) (A : dense S) (b : list T) : is_dense n n A -> zlen b < n -> lu_solve A b = Fail FAssert.
Proof.
  intros HA Hb. pose proof (zlen_nonneg b) as Hz. unfold lu_solve. destruct (lu_decomp_sound F n A) as (L & U & E & HL & _); [lia|exact HA|]. rewrite E. cbn [bind]. unfold solve_lu.
  now rewrite (forward_short n) by assumption.
Qed.
End ShortRhs.
