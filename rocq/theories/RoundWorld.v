(** Rounding errors of sums over ranks. *)

From Coq Require Import ZArith Reals List Bool Lia Lra Permutation Floats.SpecFloat.
From Flocq Require Import Core.
From Verif Require Import Base Scalar ScalarR Spec Double RoundSpec RoundSumSpec RoundFacts RoundProofs RoundSum Vec VecSpec VecProofs Par ParSpec ParVec ParVecSpec ParVecProofs RoundWorldSpec.
Import ListNotations.
Open Scope R_scope.

Section Tree.
Context {X : Type} (val : X -> spec_float) (ex sz : X -> R).
Definition tot (f : X -> R) (L : list X) : R := fold_right (fun w s => f w + s) 0 L.

Lemma tot_app f L M : tot f (L ++ M) = tot f L + tot f M.
Proof. unfold tot. induction L as [|w L IH]; cbn; [lra|]. rewrite IH. lra. Qed.
Lemma tot_perm f L M : Permutation L M -> tot f L = tot f M.
Proof. induction 1; cbn in *; unfold tot in *; lra. Qed.
Lemma tot_le f g L : (forall w, In w L -> Rabs (f w) <= g w) -> Rabs (tot f L) <= tot g L.
Proof.
  induction L as [|w L IH]; intros H; cbn; [rewrite Rabs_R0; lra|]. fold (tot f L) (tot g L). eapply Rle_trans; [apply Rabs_triang|].
  pose proof (H w (or_introl eq_refl)). pose proof (IH (fun v Hv => H v (or_intror Hv))). lra.
Qed.
Lemma tot_pos f L : (forall w, In w L -> 0 <= f w) -> 0 <= tot f L.
Proof. induction L as [|w L IH]; intros H; cbn; [lra|]. fold (tot f L). pose proof (H w (or_introl eq_refl)). pose proof (IH (fun v Hv => H v (or_intror Hv))). lra. Qed.

(** A bracketing of the values of L: it is one value or two bracketings of a part each. *)
Lemma tree_cases (P : list X -> spec_float -> Prop) :
  (forall w, P [w] (val w)) ->
  (forall L L1 L2 a b, Permutation L (L1 ++ L2) -> L1 <> [] -> L2 <> [] -> P L1 a -> P L2 b -> P L (SFadd 53 1024 a b)) ->
  forall L y, tree_sum (S := SFs) (map val L) y -> P L y.
Proof.
  intros P1 P2 L y H. remember (map val L) as l eqn:El. revert L El.
  induction H as [x|l l1 l2 a b H1 IH1 H2 IH2 Hp]; intros L El.
  - destruct L as [|w [|]]; try discriminate. injection El as ->. apply P1.
  - subst l. apply Permutation_sym, Permutation_map_inv in Hp as (L' & E & Hp). symmetry in E. apply map_eq_app in E as (L1 & L2 & -> & E1 & E2).
    apply (P2 L L1 L2 a b Hp); [| |apply IH1; auto|apply IH2; auto].
    + intros ->. subst l1. cbn in H1. clear - H1. remember [] as l0. induction H1; try discriminate. subst l. apply Permutation_nil, app_eq_nil in H. tauto.
    + intros ->. subst l2. cbn in H2. clear - H2. remember [] as l0. induction H2; try discriminate. subst l. apply Permutation_nil, app_eq_nil in H. tauto.
Qed.

Context (n : nat) (c : R).
Notation q := (1 + unit_roundoff).

Lemma tree_double L y : tree_sum (S := SFs) (map val L) y -> (forall w, In w L -> double (val w)) -> double y.
Proof.
  revert L y. apply (tree_cases (fun L y => (forall w, In w L -> double (val w)) -> double y)).
  - intros w H. apply H. now left.
  - intros L L1 L2 a b Hp _ _ H1 H2 H. apply add_double; [apply H1|apply H2]; intros w Hw; apply H; apply (Permutation_in w (Permutation_sym Hp)); apply in_or_app; auto.
Qed.

Lemma step_real k v1 v2 s1 s2 A c0 e : Rabs (s1 + s2) <= A -> Rabs (v1 - s1) + Rabs (v2 - s2) <= (q ^ k - 1) * A + c0 * q ^ k * underflow ->
  Rabs e <= unit_roundoff -> Rabs ((v1 + v2) * (1 + e) - (s1 + s2)) <= (q ^ S k - 1) * A + c0 * q ^ S k * underflow.
Proof.
  intros Hs Hv He. pose proof u_pos as U. replace ((v1 + v2) * (1 + e) - (s1 + s2)) with (((v1 - s1) + (v2 - s2)) * (1 + e) + (s1 + s2) * e) by ring.
  assert (E1 : Rabs (1 + e) <= q) by (eapply Rle_trans; [apply Rabs_triang|]; rewrite Rabs_R1; lra).
  eapply Rle_trans; [apply Rabs_triang|]. rewrite !Rabs_mult.
  assert (A1 : Rabs (v1 - s1 + (v2 - s2)) * Rabs (1 + e) <= ((q ^ k - 1) * A + c0 * q ^ k * underflow) * q).
  { apply Rmult_le_compat; auto using Rabs_pos. eapply Rle_trans; [apply Rabs_triang|exact Hv]. }
  assert (A2 : Rabs (s1 + s2) * Rabs e <= A * unit_roundoff) by (apply Rmult_le_compat; auto using Rabs_pos).
  cbn [pow]. nra.
Qed.

Lemma grow j k A c0 : (j <= k)%nat -> 0 <= A -> 0 <= c0 -> (q ^ j - 1) * A + c0 * q ^ j * underflow <= (q ^ k - 1) * A + c0 * q ^ k * underflow.
Proof.
  intros H HA Hc. pose proof u_pos. pose proof eta_pos. assert (G : q ^ j <= q ^ k) by (apply Rle_pow; [lra|lia]).
  assert (0 <= c0 * underflow) by (apply Rmult_le_pos; lra). nra.
Qed.

Definition good (w : X) : Prop := double (val w) /\ Rabs (ex w) <= sz w /\ (finite (val w) -> Rabs (rv (val w) - ex w) <= (q ^ n - 1) * sz w + c * q ^ n * underflow).
Definition weight (L : list X) : R := INR (length L) * c.
Definition height (L : list X) : nat := n + (length L - 1).

Lemma good_sub (L L1 L2 : list X) (Q : X -> Prop) : Permutation L (L1 ++ L2) -> (forall w, In w L -> Q w) -> (forall w, In w L1 -> Q w) /\ (forall w, In w L2 -> Q w).
Proof. intros Hp H. split; intros w Hw; apply H; apply (Permutation_in w (Permutation_sym Hp)); apply in_or_app; auto. Qed.

Lemma weight_split L L1 L2 : Permutation L (L1 ++ L2) -> weight L = weight L1 + weight L2.
Proof. intros Hp. unfold weight. rewrite (Permutation_length Hp), app_length, plus_INR. ring. Qed.

Lemma height_split L L1 L2 : Permutation L (L1 ++ L2) -> L1 <> [] -> L2 <> [] -> (S (height L1) <= height L /\ S (height L2) <= height L)%nat.
Proof.
  intros Hp N1 N2. unfold height. rewrite (Permutation_length Hp), app_length. destruct L1; [congruence|]. destruct L2; [congruence|]. cbn [length]. lia.
Qed.

Lemma sz_pos w : good w -> 0 <= sz w.
Proof. intros (_ & H & _). pose proof (Rabs_pos (ex w)). lra. Qed.

Lemma range_of L y : 0 <= c -> (forall w, In w L -> good w) -> Rabs (rv y - tot ex L) <= (q ^ height L - 1) * tot sz L + weight L * q ^ height L * underflow ->
  Rabs (rv y) <= q ^ height L * (tot sz L + weight L * underflow).
Proof.
  intros Hc HG H. assert (Hs : Rabs (tot ex L) <= tot sz L) by (apply tot_le; intros w Hw; apply (HG w Hw)).
  replace (rv y) with ((rv y - tot ex L) + tot ex L) by ring. eapply Rle_trans; [apply Rabs_triang|]. lra.
Qed.

Lemma tree_rounds L y : 0 <= c -> tree_sum (S := SFs) (map val L) y -> (forall w, In w L -> good w) ->
  double y /\
  (finite y -> Rabs (rv y - tot ex L) <= (q ^ height L - 1) * tot sz L + weight L * q ^ height L * underflow) /\
  ((forall w, In w L -> finite (val w)) -> q ^ height L * (tot sz L + weight L * underflow) < bpow radix2 1024 -> finite y).
Proof.
  intros Hc H. revert L y H.
  apply (tree_cases (fun L y => (forall w, In w L -> good w) -> double y /\
    (finite y -> Rabs (rv y - tot ex L) <= (q ^ height L - 1) * tot sz L + weight L * q ^ height L * underflow) /\
    ((forall w, In w L -> finite (val w)) -> q ^ height L * (tot sz L + weight L * underflow) < bpow radix2 1024 -> finite y))).
  - intros w H. destruct (H w (or_introl eq_refl)) as (D & _ & G). split; [exact D|]. split.
    + intros F. unfold height, weight. cbn [length tot fold_right INR].
      rewrite Nat.sub_diag, Nat.add_0_r, !Rplus_0_r, Rmult_1_l. exact (G F).
    + intros F _. apply F. now left.
  - intros L L1 L2 a b Hp N1 N2 H1 H2 H. destruct (good_sub L L1 L2 good Hp H) as (G1 & G2).
    destruct (H1 G1) as (D1 & E1 & R1), (H2 G2) as (D2 & E2 & R2).
    pose proof (height_split L L1 L2 Hp N1 N2) as (B1 & B2). rewrite (tot_perm ex _ _ Hp), (tot_perm sz _ _ Hp), (weight_split _ _ _ Hp), !tot_app.
    destruct (height L) as [|k]; [lia|].
    assert (P1 : 0 <= tot sz L1) by (apply tot_pos; intros w Hw; apply sz_pos; auto). assert (P2 : 0 <= tot sz L2) by (apply tot_pos; intros w Hw; apply sz_pos; auto).
    assert (W1 : 0 <= weight L1) by (apply Rmult_le_pos; [apply pos_INR|exact Hc]). assert (W2 : 0 <= weight L2) by (apply Rmult_le_pos; [apply pos_INR|exact Hc]).
    destruct (rnd_add _ _ (rv_format _ D1) (rv_format _ D2)) as (e & He & Ee).
    split; [now apply add_double|]. split.
    + intros F. destruct (add_finite _ _ D1 D2 F) as (F1 & F2 & E). specialize (E1 F1). specialize (E2 F2). rewrite E, Ee.
      apply step_real; [|pose proof (grow (height L1) k _ _ ltac:(lia) P1 W1); pose proof (grow (height L2) k _ _ ltac:(lia) P2 W2); lra|exact He].
      eapply Rle_trans; [apply Rabs_triang|]. apply Rplus_le_compat; apply tot_le; [intros w Hw; apply (G1 w Hw)|intros w Hw; apply (G2 w Hw)].
    + intros HF B. destruct (good_sub L L1 L2 _ Hp HF) as (Q1 & Q2). pose proof u_pos as U. pose proof eta_pos as T.
      assert (U1 : 0 <= weight L1 * underflow) by (apply Rmult_le_pos; lra). assert (U2 : 0 <= weight L2 * underflow) by (apply Rmult_le_pos; lra).
      assert (K1 : q ^ height L1 <= q ^ k) by (apply Rle_pow; [lra|lia]). assert (K2 : q ^ height L2 <= q ^ k) by (apply Rle_pow; [lra|lia]).
      pose proof (pow_ge (height L1)) as Y1. pose proof (pow_ge (height L2)) as Y2. pose proof (pow_ge k) as Y. cbn [pow] in B.
      set (A1 := tot sz L1 + weight L1 * underflow) in *. set (A2 := tot sz L2 + weight L2 * underflow) in *.
      assert (Z1 : 0 <= A1) by (unfold A1; lra). assert (Z2 : 0 <= A2) by (unfold A2; lra).
      replace (tot sz L1 + tot sz L2 + (weight L1 + weight L2) * underflow) with (A1 + A2) in B by (unfold A1, A2; ring).
      assert (M1 : q ^ height L1 * A1 <= q ^ k * A1) by (apply Rmult_le_compat_r; lra). assert (M2 : q ^ height L2 * A2 <= q ^ k * A2) by (apply Rmult_le_compat_r; lra).
      assert (V1 : 0 <= q ^ k * A1) by (apply Rmult_le_pos; lra). assert (V2 : 0 <= q ^ k * A2) by (apply Rmult_le_pos; lra).
      assert (V3 : q ^ k * A1 + q ^ k * A2 <= q * q ^ k * (A1 + A2)) by nra.
      assert (F1 : finite a) by (apply R1; [exact Q1|lra]). assert (F2 : finite b) by (apply R2; [exact Q2|lra]).
      pose proof (range_of L1 a Hc G1 (E1 F1)) as C1. pose proof (range_of L2 b Hc G2 (E2 F2)) as C2. fold A1 in C1. fold A2 in C2.
      apply add_in_range; auto. rewrite Ee, Rabs_mult.
      assert (X1 : Rabs (1 + e) <= q) by (eapply Rle_trans; [apply Rabs_triang|]; rewrite Rabs_R1; lra).
      eapply Rle_lt_trans; [apply Rmult_le_compat; [apply Rabs_pos|apply Rabs_pos|eapply Rle_trans; [apply Rabs_triang|apply Rplus_le_compat; [exact C1|exact C2]]|exact X1]|].
      eapply Rle_lt_trans; [|exact B]. nra.
Qed.

Lemma tree_integral L y : tree_sum (S := SFs) (map val L) y ->
  (forall w, In w L -> double (val w) /\ finite (val w) /\ rv (val w) = ex w /\ Rabs (ex w) <= sz w /\ exists z : Z, ex w = IZR z) ->
  tot sz L <= 9007199254740992 -> finite y /\ rv y = tot ex L.
Proof.
  intros H HG HB. cut (double y /\ finite y /\ rv y = tot ex L /\ Rabs (tot ex L) <= tot sz L /\ exists z : Z, tot ex L = IZR z); [tauto|].
  revert L y H HG HB.
  apply (tree_cases (fun L y => (forall w, In w L -> double (val w) /\ finite (val w) /\ rv (val w) = ex w /\ Rabs (ex w) <= sz w /\ exists z : Z, ex w = IZR z) ->
    tot sz L <= 9007199254740992 -> double y /\ finite y /\ rv y = tot ex L /\ Rabs (tot ex L) <= tot sz L /\ exists z : Z, tot ex L = IZR z)).
  - intros w H _. cbn [tot fold_right]. rewrite !Rplus_0_r. apply H. now left.
  - intros L L1 L2 a b Hp N1 N2 H1 H2 H HB. destruct (good_sub L L1 L2 _ Hp H) as (G1 & G2).
    rewrite (tot_perm sz _ _ Hp), tot_app in *. rewrite (tot_perm ex _ _ Hp), tot_app.
    assert (P1 : 0 <= tot sz L1) by (apply tot_pos; intros w Hw; destruct (G1 w Hw) as (_ & _ & _ & Q & _); pose proof (Rabs_pos (ex w)); lra).
    assert (P2 : 0 <= tot sz L2) by (apply tot_pos; intros w Hw; destruct (G2 w Hw) as (_ & _ & _ & Q & _); pose proof (Rabs_pos (ex w)); lra).
    destruct (H1 G1 ltac:(lra)) as (D1 & F1 & E1 & S1 & z1 & I1), (H2 G2 ltac:(lra)) as (D2 & F2 & E2 & S2 & z2 & I2).
    assert (B : Rabs (tot ex L1 + tot ex L2) <= tot sz L1 + tot sz L2) by (eapply Rle_trans; [apply Rabs_triang|lra]).
    assert (E : rnd (rv a + rv b) = tot ex L1 + tot ex L2).
    { rewrite E1, E2. rewrite I1, I2, <- plus_IZR in *. apply rnd_format, int_format, le_IZR. rewrite abs_IZR. lra. }
    assert (F : finite (SFadd 53 1024 a b)) by (apply add_in_range; auto; rewrite E; pose proof bpow1024_big; lra).
    destruct (add_finite _ _ D1 D2 F) as (_ & _ & Ev). split; [now apply add_double|]. split; [exact F|]. split; [now rewrite Ev|]. split; [exact B|].
    exists (z1 + z2)%Z. now rewrite I1, I2, plus_IZR.
Qed.
End Tree.

Notation q := (1 + unit_roundoff).

Lemma tot_in {X} (f : X -> R) L w : (forall v, In v L -> 0 <= f v) -> In w L -> f w <= tot f L.
Proof.
  intros H. induction L as [|v L IH]; intros Hw; [contradiction|]. cbn [tot fold_right]. fold (tot f L). pose proof (H v (or_introl eq_refl)).
  assert (H' : forall v, In v L -> 0 <= f v) by (intros; apply H; now right). pose proof (tot_pos f L H'). destruct Hw as [->|Hw]; [lra|]. specialize (IH H' Hw). lra.
Qed.

Lemma world_rounds {X} (val : X -> spec_float) (ex sz : X -> R) (fin int : X -> Prop) n c (red : allreduce (S := SFs)) (L : list X) :
  sums red -> L <> [] -> 0 <= c ->
  (forall w, In w L -> rounded n c (ex w) (sz w) (fin w) (int w) (val w) /\ Rabs (ex w) <= sz w /\ (int w -> exists z : Z, ex w = IZR z)) ->
  forall r, rounded (n + (length L - 1)) (INR (length L) * c) (over_ranks ex L) (over_ranks sz L) (forall w, In w L -> fin w) (forall w, In w L -> int w) (red r (map val L)).
Proof.
  intros Hs N Hc H r. pose proof (Hs r (map val L) (map_nonempty val L N)) as T.
  assert (G : forall w, In w L -> good val ex sz n c w) by (intros w Hw; destruct (H w Hw) as (R1 & R2 & _); split; [apply R1|split; [exact R2|apply R1]]).
  destruct (tree_rounds val ex sz n c L _ Hc T G) as (D & E & F).
  change (over_ranks ex L) with (tot ex L). change (over_ranks sz L) with (tot sz L). pose proof u_pos as U. pose proof eta_pos as Y.
  assert (Z0 : forall w, In w L -> 0 <= sz w) by (intros w Hw; destruct (H w Hw) as (_ & Q & _); pose proof (Rabs_pos (ex w)); lra).
  split; [exact D|exact E| |].
  - intros HF B. apply F; [|exact B]. intros w Hw. destruct (H w Hw) as (R1 & _ & _). apply (ro_finite _ _ _ _ _ _ _ R1); [now apply HF|].
    eapply Rle_lt_trans; [|exact B]. pose proof (tot_in sz L w Z0 Hw) as I1. pose proof (Z0 w Hw) as I0.
    assert (I2 : c <= INR (length L) * c). { destruct L as [|v L']; [congruence|]. cbn [length]. rewrite S_INR. pose proof (pos_INR (length L')). nra. }
    assert (I3 : c * underflow <= INR (length L) * c * underflow) by (apply Rmult_le_compat_r; lra).
    pose proof (pow_ge n) as K. apply Rmult_le_compat; [lra|assert (0 <= c * underflow) by (apply Rmult_le_pos; lra); lra|apply Rle_pow; [lra|lia]|lra].
  - intros HI B. apply (tree_integral val ex sz L _ T); [|exact B]. intros w Hw. destruct (H w Hw) as (R1 & R2 & R3).
    destruct (ro_integer _ _ _ _ _ _ _ R1 (HI w Hw)) as (F1 & F2); [pose proof (tot_in sz L w Z0 Hw); lra|].
    split; [apply R1|]. split; [exact F1|]. split; [exact F2|]. split; [exact R2|]. now apply R3, HI.
Qed.

Lemma computed_rounded m n ex sz fin int y : (m <= n)%nat -> 0 <= sz -> computed m ex sz fin int y -> rounded n (INR n) ex sz fin int y.
Proof.
  intros Hm Hs [C1 C2 C3 C4]. pose proof u_pos as U. pose proof eta_pos as Y. assert (G : q ^ m <= q ^ n) by (apply Rle_pow; [lra|lia]).
  pose proof (le_INR _ _ Hm) as I. pose proof (pos_INR m) as I0. pose proof (pow_ge m) as K. split; [exact C1| | |exact C4].
  - intros F. eapply Rle_trans; [exact (C2 F)|]. unfold bound.
    assert (INR m * q ^ m * underflow <= INR n * q ^ n * underflow) by (apply Rmult_le_compat_r; [lra|apply Rmult_le_compat; lra]). nra.
  - intros HF B. apply C3; [exact HF|]. unfold no_overflow. eapply Rle_lt_trans; [|exact B].
    assert (INR m * underflow <= INR n * underflow) by (apply Rmult_le_compat_r; lra). assert (0 <= INR m * underflow) by (apply Rmult_le_pos; lra).
    apply Rmult_le_compat; lra.
Qed.

Lemma total_rounded m n (x : vect SFs) y : (Z.to_nat m <= n)%nat -> 0 <= sum_range (S := Rs) 0 m (absolutes x) -> accurate_total m x y ->
  rounded (n - 1) 0 (sum_range (S := Rs) 0 m (reals x)) (sum_range (S := Rs) 0 m (absolutes x)) (forall k, (0 <= k < m)%Z -> finite (x k)) (forall k, (0 <= k < m)%Z -> integral (x k)) y.
Proof.
  intros Hm Hs [C1 C2 C3 C4]. pose proof u_pos as U. assert (G : q ^ (Z.to_nat m - 1) <= q ^ (n - 1)) by (apply Rle_pow; [lra|lia]).
  pose proof (pow_ge (Z.to_nat m - 1)) as K. split; [exact C1| | |exact C4].
  - intros F. eapply Rle_trans; [exact (C2 F)|]. rewrite !Rmult_0_l, Rplus_0_r. apply Rmult_le_compat_r; lra.
  - intros HF B. apply C3; [exact HF|]. rewrite Rmult_0_l, Rplus_0_r in B. eapply Rle_lt_trans; [apply Rmult_le_compat_r; [exact Hs|exact G]|exact B].
Qed.

(* ---------------------------------------------------------------- sums of real numbers *)

Lemma range_le (f g : vect Rs) n : (forall k, (0 <= k < n)%Z -> Rabs (f k) <= g k) -> Rabs (sum_range (S := Rs) 0 n f) <= sum_range (S := Rs) 0 n g.
Proof.
  intros H. assert (H' : forall k, In k (zrange 0 n) -> Rabs (f k) <= g k) by (intros k Hk; apply H; now apply In_zrange). clear H.
  unfold sum_range, sum_list. induction (zrange 0 n) as [|i l IH]; cbn; [rewrite Rabs_R0; lra|].
  eapply Rle_trans; [apply Rabs_triang|]. apply Rplus_le_compat; [apply H'; now left|]. apply IH. intros k Hk. apply H'. now right.
Qed.

Lemma range_int (f : vect Rs) n : (forall k, (0 <= k < n)%Z -> exists z : Z, f k = IZR z) -> exists z : Z, sum_range (S := Rs) 0 n f = IZR z.
Proof.
  intros H. assert (H' : forall k, In k (zrange 0 n) -> exists z : Z, f k = IZR z) by (intros k Hk; apply H; now apply In_zrange). clear H.
  unfold sum_range, sum_list. induction (zrange 0 n) as [|i l IH]; [now exists 0%Z|].
  destruct IH as (z & E); [intros k Hk; apply H'; now right|]. destruct (H' i (or_introl eq_refl)) as (z' & E'). exists (z' + z)%Z. cbn. change (car Rs) with R in *. rewrite plus_IZR, <- E', <- E. reflexivity.
Qed.

(* ---------------------------------------------------------------- distributed vectors *)

Lemma par_mult_rounds (red : allreduce (S := SFs)) (ws : list (heap SFs * view * view)) n : sums red -> ws <> [] ->
  (forall h x y, In (h, x, y) ws -> view_ok h x /\ view_ok h y /\ v_len y = v_len x) ->
  (forall w, In w ws -> (v_len (snd (fst w)) <= Z.of_nat n)%Z /\ all_xy double w) ->
  exists ps, par_mult red ws = Ok ps /\ zlen ps = zlen ws /\
    forall r, (0 <= r < zlen ws)%Z ->
    rounded (n + (length ws - 1)) (INR (length ws) * INR n) (over_ranks local_inner ws) (over_ranks local_inner_size ws)
      (forall w, In w ws -> all_xy finite w) (forall w, In w ws -> all_xy integral w) (zn (S754_zero false) ps r).
Proof.
  intros Hs N HL HD. set (val := fun w : heap SFs * view * view => match v_inner (fst (fst w)) (snd (fst w)) (snd w) with Ok p => p | Fail _ => S754_zero false end).
  assert (HV : forall w, In w ws -> v_inner (fst (fst w)) (snd (fst w)) (snd w) = Ok (val w) /\ accurate_sum (v_len (snd (fst w))) (vat (fst (fst w)) (snd (fst w))) (vat (fst (fst w)) (snd w)) (val w)).
  { intros [[h x] y] I. destruct (HL h x y I) as (H1 & H2 & H3). destruct (v_inner_rounds h x y H1 H2 H3 (proj2 (HD _ I))) as (p & E & A). unfold val. cbn [fst snd]. rewrite E. auto. }
  pose proof N as N'. destruct ws as [|w0 ws0] eqn:Ew; [congruence|]. rewrite <- Ew in *. clear N'.
  exists (map (fun r => red r (map val ws)) (zrange 0 (zlen ws))). split; [|split].
  - unfold par_mult. rewrite (ranks_map w0 ws (fun '(h, x, y) => v_inner h x y) val); [reflexivity|]. intros [[h x] y] I. apply (HV _ I).
  - pose proof (zlen_nonneg ws). rewrite zlen_map, zlen_zrange; lia.
  - intros r Hr. rewrite (zn_map 0%Z) by (rewrite zlen_zrange; lia).
    apply (world_rounds val local_inner local_inner_size (all_xy finite) (all_xy integral) n (INR n) red ws Hs N (pos_INR n)).
    intros [[h x] y] Hw. set (w := (h, x, y)) in *. destruct (HV w Hw) as (_ & A). destruct (HD w Hw) as (L & _).
    assert (B : Rabs (local_inner w) <= local_inner_size w).
    { apply range_le. intros k _. unfold reals, absolutes. change (Rabs (rv (vat (fst (fst w)) (snd (fst w)) k) * rv (vat (fst (fst w)) (snd w) k)) <= Rabs (rv (vat (fst (fst w)) (snd (fst w)) k)) * Rabs (rv (vat (fst (fst w)) (snd w) k))). rewrite Rabs_mult. lra. }
    split; [|split; [exact B|]].
    + apply (computed_rounded (Z.to_nat (v_len (snd (fst w))))); [lia|pose proof (Rabs_pos (local_inner w)); lra|exact A].
    + intros I. apply range_int. intros k Hk. destruct (I k Hk) as ((_ & z1 & E1) & (_ & z2 & E2)). exists (z1 * z2)%Z. rewrite mult_IZR, <- E1, <- E2. reflexivity.
Qed.

Lemma par_sum_rounds (red : allreduce (S := SFs)) (ws : list (heap SFs * view)) n : sums red -> ws <> [] ->
  (forall h x, In (h, x) ws -> view_ok h x) ->
  (forall w, In w ws -> (v_len (snd w) <= Z.of_nat n)%Z /\ all_x double w) ->
  exists ps, par_sum red ws = Ok ps /\ zlen ps = zlen ws /\
    forall r, (0 <= r < zlen ws)%Z ->
    rounded (n - 1 + (length ws - 1)) 0 (over_ranks local_total ws) (over_ranks local_total_size ws)
      (forall w, In w ws -> all_x finite w) (forall w, In w ws -> all_x integral w) (zn (S754_zero false) ps r).
Proof.
  intros Hs N HL HD. set (val := fun w : heap SFs * view => match v_sum (fst w) (snd w) with Ok p => p | Fail _ => S754_zero false end).
  assert (HV : forall w, In w ws -> v_sum (fst w) (snd w) = Ok (val w) /\ accurate_total (v_len (snd w)) (vat (fst w) (snd w)) (val w)).
  { intros [h x] I. destruct (v_sum_rounds h x (HL h x I) (proj2 (HD _ I))) as (p & E & A). unfold val. cbn [fst snd]. rewrite E. auto. }
  pose proof N as N'. destruct ws as [|w0 ws0] eqn:Ew; [congruence|]. rewrite <- Ew in *. clear N'.
  exists (map (fun r => red r (map val ws)) (zrange 0 (zlen ws))). split; [|split].
  - unfold par_sum. rewrite (ranks_map w0 ws (fun '(h, x) => v_sum h x) val); [reflexivity|]. intros [h x] I. apply (HV _ I).
  - pose proof (zlen_nonneg ws). rewrite zlen_map, zlen_zrange; lia.
  - intros r Hr. rewrite (zn_map 0%Z) by (rewrite zlen_zrange; lia).
    rewrite <- (Rmult_0_r (INR (length ws))).
    apply (world_rounds val local_total local_total_size (all_x finite) (all_x integral) (n - 1) 0 red ws Hs N (Rle_refl 0)).
    intros [h x] Hw. set (w := (h, x)) in *. destruct (HV w Hw) as (_ & A). destruct (HD w Hw) as (L & _).
    assert (B : Rabs (local_total w) <= local_total_size w) by (apply range_le; intros k _; apply Rle_refl).
    split; [|split; [exact B|]].
    + apply (total_rounded (v_len (snd w)) n); [lia|exact (Rle_trans _ _ _ (Rabs_pos (local_total w)) B)|exact A].
    + intros I. apply range_int. intros k Hk. destruct (I k Hk) as (_ & z & E). exists z. exact E.
Qed.

Lemma par_inner_rounds (red : allreduce (S := SFs)) (ws : list (heap SFs * view * view)) (n : nat) : sums red -> ws <> [] -> same_layout ws ->
  (forall h x y, In (h, x, y) ws -> (v_len x <= Z.of_nat n)%Z /\ all_xy double (h, x, y)) ->
  exists ps, inner_product_of Dist red ws = Ok ps /\ zlen ps = zlen ws /\
    forall r, (0 <= r < zlen ws)%Z ->
    rounded (n + (length ws - 1)) (INR (length ws) * INR n) (over_ranks local_inner ws) (over_ranks local_inner_size ws)
      (forall w, In w ws -> all_xy finite w) (forall w, In w ws -> all_xy integral w) (vec_of (S := SFs) ps r).
Proof. intros Hs N HL HD. apply (par_mult_rounds red ws n Hs N HL). intros [[h x] y] I. exact (HD h x y I). Qed.

Lemma par_total_rounds (red : allreduce (S := SFs)) (ws : list (heap SFs * view)) (n : nat) : sums red -> ws <> [] -> (forall h x, In (h, x) ws -> view_ok h x) ->
  (forall h x, In (h, x) ws -> (v_len x <= Z.of_nat n)%Z /\ all_x double (h, x)) ->
  exists ps, par_sum red ws = Ok ps /\ zlen ps = zlen ws /\
    forall r, (0 <= r < zlen ws)%Z ->
    rounded (n - 1 + (length ws - 1)) 0 (over_ranks local_total ws) (over_ranks local_total_size ws)
      (forall w, In w ws -> all_x finite w) (forall w, In w ws -> all_x integral w) (vec_of (S := SFs) ps r).
Proof. intros Hs N HL HD. apply (par_sum_rounds red ws n Hs N HL). intros [h x] I. exact (HD h x I). Qed.
