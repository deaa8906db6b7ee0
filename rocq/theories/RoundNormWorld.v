(** The rounding error of L2Norm of distributed vectors. *)

From Coq Require Import ZArith Reals List Bool Lia Lra Floats.SpecFloat.
From Flocq Require Import Core.
From Verif Require Import Base Scalar ScalarR Spec Double RoundSpec RoundSumSpec RoundFacts RoundProofs RoundNorm Vec VecSpec VecProofs Par ParSpec ParVec ParVecSpec ParVecProofs RoundWorldSpec RoundWorld RoundNormWorldSpec.
Import ListNotations.
Open Scope R_scope.

Lemma tree_notneg l y : tree_sum (S := SFs) l y -> Forall notneg l -> notneg y.
Proof.
  intros T. induction T as [x|l l1 l2 x y T1 IH1 T2 IH2 P]; intros F; [now inversion F|].
  assert (F' : Forall notneg (l1 ++ l2)) by (exact (Permutation.Permutation_Forall P F)).
  apply Forall_app in F'. destruct F' as (F1 & F2). destruct (IH1 F1) as (D1 & N1), (IH2 F2) as (D2 & N2). split; [exact (add_double _ _ D1 D2)|].
  intros Fy. destruct (add_finite _ _ D1 D2 Fy) as (G1 & G2 & E). change (0 <= rv (SFadd 53 1024 x y)). rewrite E. apply rnd_ge_0. specialize (N1 G1). specialize (N2 G2). lra.
Qed.

Definition twice (w : heap SFs * view) : heap SFs * view * view := let '(h, x) := w in (h, x, x).

Lemma par_mult_notneg (red : allreduce (S := SFs)) (ws : list (heap SFs * view)) ps : sums red -> ws <> [] ->
  (forall h x, In (h, x) ws -> view_ok h x) -> (forall w, In w ws -> all_x double w) -> par_mult red (map twice ws) = Ok ps ->
  forall r, (0 <= r < zlen ws)%Z -> notneg (zn (S754_zero false) ps r).
Proof.
  intros Hs N HL HD E r Hr.
  set (val := fun w : heap SFs * view * view => fold_left (fun (s : car SFs) k => sadd s (smul (s := SFs) (vat (fst (fst w)) (snd (fst w)) k) (vat (fst (fst w)) (snd (fst w)) k))) (zrange 0 (v_len (snd (fst w)))) s0).
  assert (N' : map twice ws <> []) by (destruct ws; [congruence|discriminate]).
  assert (E2 : par_mult red (map twice ws) = Ok (map (fun r => red r (map val (map twice ws))) (zrange 0 (zlen (map twice ws))))).
  { destruct (map twice ws) as [|w0 L] eqn:Ew; [congruence|]. rewrite <- Ew. unfold par_mult. rewrite (ranks_map w0 (map twice ws) (fun '(h, x, y) => v_inner h x y) val); [reflexivity|].
    intros w I. apply in_map_iff in I. destruct I as ([h x] & <- & I). exact (v_inner_ok h x x (HL h x I) (HL h x I) eq_refl). }
  rewrite E in E2. injection E2 as ->. rewrite zlen_map. rewrite (zn_map 0%Z) by (rewrite zlen_zrange; lia).
  refine (tree_notneg _ _ (Hs _ _ _) _); [now destruct (map twice ws)|].
  apply Forall_forall. intros v I. apply in_map_iff in I. destruct I as (w & <- & I). apply in_map_iff in I. destruct I as ([h x] & <- & I).
  apply squares_notneg; [intros k Hk; apply (HD _ I); now apply In_zrange|]. split; [reflexivity|]. intros _. apply Rle_refl.
Qed.

Lemma ranks_squares ws : over_ranks local_inner (map twice ws) = over_ranks local_squares ws /\ over_ranks local_inner_size (map twice ws) = over_ranks local_squares ws.
Proof.
  unfold over_ranks. induction ws as [|[h x] ws (I1 & I2)]; [split; reflexivity|]. cbn [map fold_right twice local_inner local_inner_size local_squares].
  rewrite I1, I2. rewrite squares_abs. split; reflexivity.
Qed.

Lemma l2norm_dist_rounds (red : allreduce (S := SFs)) (ws : list (heap SFs * view)) (n : nat) : sums red -> ws <> [] ->
  (forall h x, In (h, x) ws -> view_ok h x) -> (forall h x, In (h, x) ws -> (v_len x <= Z.of_nat n)%Z /\ all_x double (h, x)) ->
  exists ys, l2norm_of (S := SFs) Dist red (SFsqrt 53 1024) ws = Ok ys /\ zlen ys = zlen ws /\
    forall r, (0 <= r < zlen ws)%Z ->
    rounded_norm (n + (length ws - 1)) (INR (length ws) * INR n) (over_ranks local_squares ws) (forall w, In w ws -> all_x finite w) (vec_of (S := SFs) ys r).
Proof.
  intros Hs N HL HD. assert (N' : map twice ws <> []) by (destruct ws; [congruence|discriminate]).
  destruct (par_mult_rounds red (map twice ws) n Hs N') as (ps & E & L & A).
  - intros h x y I. apply in_map_iff in I. destruct I as ([h' x'] & Q & I). injection Q as <- <- <-. pose proof (HL _ _ I). auto.
  - intros w I. apply in_map_iff in I. destruct I as ([h x] & <- & I). destruct (HD h x I) as (Q1 & Q2). split; [exact Q1|]. intros k Hk. split; now apply Q2.
  - rewrite zlen_map in L. exists (map (SFsqrt 53 1024) ps). split; [|split; [now rewrite zlen_map|]].
    + unfold l2norm_of, mult_of. change (par_mult red (map (fun '(h, x) => (h, x, x)) ws)) with (par_mult red (map twice ws)). now rewrite E.
    + intros r Hr. assert (Z1 : (0 <= r < zlen (map twice ws))%Z) by (now rewrite zlen_map). specialize (A r Z1). rewrite map_length in A. destruct (ranks_squares ws) as (S1 & S2). rewrite S1, S2 in A.
      assert (NN : notneg (zn (S754_zero false) ps r)) by (apply (par_mult_notneg red ws ps Hs N HL); [intros [h x] I; apply (HD _ _ I)|exact E|exact Hr]).
      assert (Lp : (0 <= r < @zlen spec_float ps)%Z) by (change (0 <= r < @zlen (car SFs) ps)%Z; rewrite L; exact Hr).
      assert (Q : vec_of (S := SFs) (map (SFsqrt 53 1024) ps) r = SFsqrt 53 1024 (zn (S754_zero false) ps r)) by (unfold vec_of; exact (zn_map (S754_zero false) _ (SFsqrt 53 1024) ps r Lp)). rewrite Q.
      set (p := zn (S754_zero false) ps r) in *. destruct A as [C1 C2 C3 _]. pose proof u_pos as U.
      set (s := over_ranks local_squares ws) in *. split.
      * now apply sqrt_double.
      * intros F b. destruct (sqrt_value p C1 F) as (Fp & P & E1). specialize (C2 Fp). fold b in C2.
        destruct (rnd_sqrt (rv p) (rv_format p C1) P) as (d & Hd & E2). rewrite E1, E2. apply Rabs_le_inv in C2. apply Rabs_le_inv in Hd.
        assert (U1 : unit_roundoff < 1) by (unfold unit_roundoff; change 1 with (bpow radix2 0); apply bpow_lt; lia).
        pose proof (sqrt_le_1_alt (s - b) (rv p) ltac:(lra)) as L1. pose proof (sqrt_le_1_alt (rv p) (s + b) ltac:(lra)) as L2.
        pose proof (sqrt_pos (rv p)) as S0. pose proof (sqrt_pos (s - b)). split; nra.
      * intros HF HN. assert (Fp : finite p).
        { apply C3; [|exact HN]. intros w I. apply in_map_iff in I. destruct I as ([h x] & <- & I). intros k Hk. split; apply (HF _ I); exact Hk. }
        apply sqrt_in_range; [exact C1|exact Fp|]. now apply NN.
Qed.
