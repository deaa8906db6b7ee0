(** Forward elimination, back substitution and LU factorisation of doubles. *)

From Coq Require Import ZArith Reals List Bool Lia Lra Floats.SpecFloat.
From Flocq Require Import Core.
From Verif Require Import Base Scalar ScalarR Spec SumFacts LoopFacts Dense DenseFacts Double RoundSpec RoundFacts RoundProofs RoundTriFacts RoundTriSpec LuQr LuQrSpec LuProofs.
Import ListNotations.
Open Scope R_scope.

Notation rsum := (@sum_range Rs).
Definition RR : ring_laws Rs := field_ring Rs Rs_field.

Lemma rsum_last lo hi (f : Z -> R) : (lo <= hi)%Z -> rsum lo (hi + 1) f = rsum lo hi f + f hi.
Proof. exact (sum_range_last RR lo hi f). Qed.
Lemma rsum_first lo hi (f : Z -> R) : (lo < hi)%Z -> rsum lo hi f = f lo + rsum (lo + 1)%Z hi f.
Proof. exact (@sum_range_first Rs lo hi f). Qed.
Lemma rsum_split lo mid hi (f : Z -> R) : (lo <= mid <= hi)%Z -> rsum lo hi f = rsum lo mid f + rsum mid hi f.
Proof. exact (sum_range_split RR lo mid hi f). Qed.
Lemma rsum_zero lo hi (f : Z -> R) : (forall i, (lo <= i < hi)%Z -> f i = 0) -> rsum lo hi f = 0.
Proof. exact (sum_range_0 RR lo hi f). Qed.

(** The pairs of a chain, and sums over them *)
Definition pairs (f g : Z -> spec_float) (lo hi : Z) : list (spec_float * spec_float) := map (fun j => (f j, g j)) (zrange lo hi).
Lemma exact_range (f g : Z -> spec_float) lo hi : exact_sum (pairs f g lo hi) = rsum lo hi (fun j => rv (f j) * rv (g j)).
Proof. unfold pairs, exact_sum, sum_range. generalize (zrange lo hi). induction l as [|j l IH]; [reflexivity|]. cbn [map fold_right fst snd]. rewrite IH. reflexivity. Qed.
Lemma abs_range (f g : Z -> spec_float) lo hi : abs_sum (pairs f g lo hi) = rsum lo hi (fun j => Rabs (rv (f j)) * Rabs (rv (g j))).
Proof. unfold pairs, abs_sum, sum_range. generalize (zrange lo hi). induction l as [|j l IH]; [reflexivity|]. cbn [map fold_right fst snd]. rewrite IH. reflexivity. Qed.
Lemma exact_app l m : exact_sum (l ++ m) = exact_sum l + exact_sum m.
Proof. unfold exact_sum. induction l as [|p l IH]; cbn [app fold_right]; [ring|]. rewrite IH. ring. Qed.
Lemma abs_app l m : abs_sum (l ++ m) = abs_sum l + abs_sum m.
Proof. unfold abs_sum. induction l as [|p l IH]; cbn [app fold_right]; [ring|]. rewrite IH. ring. Qed.
Lemma exact_rev l : exact_sum (rev l) = exact_sum l.
Proof. induction l as [|p l IH]; [reflexivity|]. cbn [rev]. rewrite exact_app, IH. unfold exact_sum at 2 3. cbn [fold_right]. fold (exact_sum l). ring. Qed.
Lemma abs_rev l : abs_sum (rev l) = abs_sum l.
Proof. induction l as [|p l IH]; [reflexivity|]. cbn [rev]. rewrite abs_app, IH. unfold abs_sum at 2 3. cbn [fold_right]. fold (abs_sum l). ring. Qed.
Lemma doubles_range (f g : Z -> spec_float) lo hi : (forall j, (lo <= j < hi)%Z -> double (f j) /\ double (g j)) -> doubles (pairs f g lo hi).
Proof. intros H. unfold doubles, pairs. rewrite Forall_forall. intros p I. apply in_map_iff in I. destruct I as (j & <- & I). apply In_zrange in I. exact (H j I). Qed.

(* ---------------------------------------------------------------- one quotient *)

(** x = (a - p1 - p2 - ...) / d *)
Lemma quotient_error l a d : doubles l -> double a -> double d -> finite d -> finite (SFdiv 53 1024 (chain a l) d) ->
  let x := rv (SFdiv 53 1024 (chain a l) d) in
  finite a /\ all_finite l /\
  Rabs (rv a - exact_sum l - rv d * x) <= (q ^ (length l + 1) - 1) * (abs_sum l + Rabs (rv d) * Rabs x) + q ^ length l * ((INR (length l) + Rabs (rv d)) * underflow).
Proof.
  intros Hl Ha Hd Fd F x. destruct (div_finite (chain a l) d (chain_double l Hl a Ha) Hd Fd F) as (Fs & N & Ex). fold x in Ex.
  destruct (chain_error l Hl a Ha Fs) as (Fa & Fl & E). split; [exact Fa|]. split; [exact Fl|].
  set (s := rv (chain a l)) in *. set (dd := rv d) in *. pose proof (rnd_back (s / dd)) as B. rewrite <- Ex in B.
  assert (SD : Rabs (s - dd * x) <= Rabs dd * (unit_roundoff * Rabs x + underflow)).
  { replace (s - dd * x) with (- (dd * (x - s / dd))) by (field; exact N). rewrite Rabs_Ropp, Rabs_mult. apply Rmult_le_compat_l; [apply Rabs_pos|exact B]. }
  assert (SS : Rabs s <= Rabs dd * (q * Rabs x + underflow)).
  { replace s with ((s - dd * x) + dd * x) by ring. eapply Rle_trans; [apply Rabs_triang|]. rewrite (Rabs_mult dd x). lra. }
  replace (rv a - exact_sum l - dd * x) with ((rv a - exact_sum l - s) + (s - dd * x)) by ring. eapply Rle_trans; [apply Rabs_triang|].
  replace (length l + 1)%nat with (S (length l)) in * by lia. rewrite <- !tech_pow_Rmult in *. pose proof (pow_ge (length l)) as G.
  pose proof (Rmult_le_compat_l (q ^ length l - 1) _ _ ltac:(lra) SS) as S2. nra.
Qed.

Lemma gamma_le (m : nat) n : (Z.of_nat m <= n)%Z -> q ^ m <= growth n.
Proof. intros H. unfold growth. apply Rle_pow; [pose proof u_pos; lra|lia]. Qed.

Lemma length_range f g lo hi : length (pairs f g lo hi) = Z.to_nat (hi - lo).
Proof. unfold pairs. rewrite map_length. apply zrange_length. Qed.
Lemma pairs_ext f g f' g' lo hi : (forall j, (lo <= j < hi)%Z -> f j = f' j /\ g j = g' j) -> pairs f g lo hi = pairs f' g' lo hi.
Proof. intros H. apply map_ext_in. intros j I. apply In_zrange in I. destruct (H j I) as (-> & ->). reflexivity. Qed.
Lemma pairs_last f g lo hi : (lo <= hi)%Z -> pairs f g lo (hi + 1) = pairs f g lo hi ++ [(f hi, g hi)].
Proof. intros H. unfold pairs. rewrite zrange_snoc by lia. replace (hi + 1 - 1)%Z with hi by lia. apply map_app. Qed.

(** Bounds with the size of the matrix instead of the number of terms *)
Lemma bound_size (m : nat) n A d e : (Z.of_nat m + 1 <= n)%Z -> 0 <= A -> 0 <= d ->
  e <= (q ^ (m + 1) - 1) * A + q ^ m * ((INR m + d) * underflow) -> e <= gamma n * A + growth n * ((IZR n + d) * underflow).
Proof.
  intros H HA Hd E. eapply Rle_trans; [exact E|]. apply Rplus_le_compat.
  - apply Rmult_le_compat_r; [exact HA|]. unfold gamma. fold (growth n). pose proof (gamma_le (m + 1) n ltac:(lia)). lra.
  - pose proof eta_pos as U. pose proof (pow_ge m) as P. pose proof (pos_INR m) as K. assert (I : INR m <= IZR n) by (rewrite INR_IZR_INZ; apply IZR_le; lia).
    apply Rmult_le_compat; [lra|apply Rmult_le_pos; lra|apply gamma_le; lia|]. apply Rmult_le_compat_r; lra.
Qed.

(* ---------------------------------------------------------------- triangular systems *)

Lemma for_chain (f g : Z -> spec_float) lo hi a (body : Z -> spec_float -> res spec_float) : (forall j s, (lo <= j < hi)%Z -> body j s = Ok (chain_step s (f j, g j))) ->
  for_ lo hi a body = Ok (chain a (pairs f g lo hi)).
Proof.
  intros H. unfold for_, chain, pairs. assert (G : forall j, In j (zrange lo hi) -> (lo <= j < hi)%Z) by (intros j; apply In_zrange). revert a G. generalize (zrange lo hi).
  induction l as [|j l IH]; intros a G; [reflexivity|]. cbn [foldM map fold_left]. rewrite H by (apply G; now left). cbn [bind]. apply IH. intros; apply G; now right.
Qed.
Lemma for_down_chain (f g : Z -> spec_float) lo hi a (body : Z -> spec_float -> res spec_float) : (forall j s, (lo <= j < hi)%Z -> body j s = Ok (chain_step s (f j, g j))) ->
  for_down (hi - 1) (lo - 1) a body = Ok (chain a (rev (pairs f g lo hi))).
Proof.
  intros H. unfold for_down, chain, pairs. replace (lo - 1 + 1)%Z with lo by lia. replace (hi - 1 + 1)%Z with hi by lia. rewrite <- map_rev.
  assert (G : forall j, In j (rev (zrange lo hi)) -> (lo <= j < hi)%Z) by (intros j I; apply in_rev in I; now apply In_zrange). revert a G. generalize (rev (zrange lo hi)).
  induction l as [|j l IH]; intros a G; [reflexivity|]. cbn [foldM map fold_left]. rewrite H by (apply G; now left). cbn [bind]. apply IH. intros; apply G; now right.
Qed.

Notation at_ D i j := (dense_mat (S := SFs) D i j).
Notation vget x i := (vec_of (S := SFs) x i).

Lemma xget (x : list spec_float) i : (0 <= i < zlen x)%Z -> @x_get SFs x i = Ok (vget x i).
Proof. exact (@x_get_ok SFs x i). Qed.
Lemma xset (x : list spec_float) i t : (0 <= i < zlen x)%Z -> @x_set SFs x i t = Ok (upd x (Z.to_nat i) t).
Proof. exact (@x_set_ok SFs x i t). Qed.
Lemma xupd (x : list spec_float) i t k : (0 <= i < zlen x)%Z -> (0 <= k < zlen x)%Z -> vget (upd x (Z.to_nat i) t) k = if (k =? i)%Z then t else vget x k.
Proof. exact (@vec_upd SFs x i t k). Qed.

Section Tri.
Variable n : Z.
Context (M : dense SFs) (b : list spec_float).
Hypothesis HM : is_dense n n M.
Hypothesis Hb : zlen b = n.
Hypothesis DM : Forall double (d_data M).
Hypothesis Db : Forall double b.

Lemma at_double i j : double (at_ M i j).
Proof. apply dense_double, DM. Qed.
Lemma b_double i : double (vget b i).
Proof. exact (Forall_zn double _ _ _ Db double_0). Qed.

Definition fwd_row (x : list spec_float) (i : Z) : spec_float := SFdiv 53 1024 (chain (vget b i) (rev (pairs (fun j => at_ M i j) (fun j => vget x j) 0 i))) (at_ M i i).
Definition bwd_row (x : list spec_float) (i : Z) : spec_float := SFdiv 53 1024 (chain (vget b i) (pairs (fun j => at_ M i j) (fun j => vget x j) (i + 1) n)) (at_ M i i).

Lemma n_pos : (0 <= n)%Z.
Proof. rewrite <- Hb. apply zlen_nonneg. Qed.

Lemma upd_double (x : list spec_float) k t : Forall double x -> double t -> Forall double (upd x k t).
Proof. intros H Ht. revert k. induction H as [|a x Ha H IH]; intros [|k]; cbn; constructor; auto. Qed.

Lemma forward_run : exists x, forward_elim M b = Ok x /\ zlen x = n /\ Forall double x /\ forall i, (0 <= i < n)%Z -> vget x i = fwd_row x i.
Proof.
  pose proof n_pos as Hn. unfold forward_elim. destruct (HM) as (_ & HR & _). rewrite HR. rewrite vec_ok by lia. cbn [bind]. apply returns_exists.
  apply (returns_for (fun i x => zlen x = n /\ Forall double x /\ forall r, (0 <= r < i)%Z -> vget x r = fwd_row x r)).
  - exact Hn.
  - split; [rewrite zlen_repeat; lia|]. split; [|intros; lia]. apply Forall_forall. intros a I. apply repeat_spec in I. subst a. exact double_0.
  - intros i x Hi (Hx & Dx & Hs). rewrite xget by lia. cbn [bind]. change (-1)%Z with (0 - 1)%Z.
    rewrite (for_down_chain (fun j => at_ M i j) (fun j => vget x j)).
    2:{ intros j s Hj. rewrite (is_dense_get _ _ M i j HM) by lia. cbn [bind]. rewrite xget by lia. reflexivity. }
    cbn [bind]. rewrite (is_dense_get _ _ M i i HM) by lia. cbn [bind]. rewrite xset by lia. cbn [returns]. set (t := sdiv _ _).
    assert (Dt : double t).
    { apply div_double; [|apply at_double]. apply chain_double; [|apply b_double]. unfold doubles. apply Forall_rev. apply doubles_range. intros j _. split; [apply at_double|]. exact (Forall_zn double _ _ _ Dx double_0). }
    split; [rewrite zlen_upd; exact Hx|]. split; [now apply upd_double|]. intros r Hr. rewrite xupd by lia. unfold fwd_row.
    assert (P : forall r, (0 <= r <= i)%Z -> pairs (fun j => at_ M r j) (fun j => vget (upd x (Z.to_nat i) t) j) 0 r = pairs (fun j => at_ M r j) (fun j => vget x j) 0 r).
    { intros r' Hr'. apply pairs_ext. intros j Hj. split; [reflexivity|]. rewrite xupd by lia. destruct (Z.eqb_spec j i); [lia|reflexivity]. }
    rewrite P by lia. destruct (Z.eqb_spec r i) as [->|]; [reflexivity|]. apply Hs. lia.
  - intros x (H1 & H2 & H3). tauto.
Qed.

Lemma back_run : exists x, back_solve M b = Ok x /\ zlen x = n /\ Forall double x /\ forall i, (0 <= i < n)%Z -> vget x i = bwd_row x i.
Proof.
  pose proof n_pos as Hn. unfold back_solve. destruct (HM) as (_ & HR & _). rewrite HR. rewrite vec_ok by lia. cbn [bind]. apply returns_exists.
  apply (returns_for_down (fun i x => zlen x = n /\ Forall double x /\ forall r, (i < r < n)%Z -> vget x r = bwd_row x r)).
  - lia.
  - split; [rewrite zlen_repeat; lia|]. split; [|intros; lia]. apply Forall_forall. intros a I. apply repeat_spec in I. subst a. exact double_0.
  - intros i x Hi (Hx & Dx & Hs). rewrite xget by lia. cbn [bind].
    rewrite (for_chain (fun j => at_ M i j) (fun j => vget x j)).
    2:{ intros j s Hj. rewrite (is_dense_get _ _ M i j HM) by lia. cbn [bind]. rewrite xget by lia. reflexivity. }
    cbn [bind]. rewrite (is_dense_get _ _ M i i HM) by lia. cbn [bind]. rewrite xset by lia. cbn [returns]. set (t := sdiv _ _).
    assert (Dt : double t).
    { apply div_double; [|apply at_double]. apply chain_double; [|apply b_double]. apply doubles_range. intros j _. split; [apply at_double|]. exact (Forall_zn double _ _ _ Dx double_0). }
    split; [rewrite zlen_upd; exact Hx|]. split; [now apply upd_double|]. intros r Hr. rewrite xupd by lia. unfold bwd_row.
    assert (P : forall r, (i <= r < n)%Z -> pairs (fun j => at_ M r j) (fun j => vget (upd x (Z.to_nat i) t) j) (r + 1) n = pairs (fun j => at_ M r j) (fun j => vget x j) (r + 1) n).
    { intros r' Hr'. apply pairs_ext. intros j Hj. split; [reflexivity|]. rewrite xupd by lia. destruct (Z.eqb_spec j i); [lia|reflexivity]. }
    rewrite P by lia. destruct (Z.eqb_spec r i) as [->|]; [reflexivity|]. apply Hs. lia.
  - intros x (H1 & H2 & H3). split; [exact H1|]. split; [exact H2|]. intros i Hi. apply H3. lia.
Qed.
End Tri.

(* ---------------------------------------------------------------- the rows, as real numbers *)

Lemma rsum_nonneg lo hi (f : Z -> R) : (forall i, (lo <= i < hi)%Z -> 0 <= f i) -> 0 <= rsum lo hi f.
Proof.
  intros H. unfold sum_range. assert (G : forall i, In i (zrange lo hi) -> 0 <= f i) by (intros i I; apply H, In_zrange, I). clear H.
  induction (zrange lo hi) as [|i l IH]; [apply Rle_refl|]. change (0 <= f i + @sum_list Rs (map f l)). apply Rplus_le_le_0_compat; [apply G; now left|]. apply IH. intros; apply G; now right.
Qed.
Lemma rsum_ext lo hi (f g : Z -> R) : (forall i, (lo <= i < hi)%Z -> f i = g i) -> rsum lo hi f = rsum lo hi g.
Proof. exact (@sum_range_ext Rs lo hi f g). Qed.

Lemma tril_row (M : mat Rs) (x : vect Rs) n i : (0 <= i < n)%Z -> mat_vec (tril M) n x i = rsum 0 i (fun j => M i j * x j) + M i i * x i.
Proof.
  intros Hi. unfold mat_vec. rewrite (rsum_split 0 (i + 1) n) by lia. rewrite (rsum_zero (i + 1)%Z n).
  2:{ intros j Hj. unfold tril. destruct (Z.leb_spec j i); [lia|]. apply Rmult_0_l. }
  rewrite Rplus_0_r, rsum_last by lia. f_equal.
  - apply rsum_ext. intros j Hj. unfold tril. destruct (Z.leb_spec j i); [reflexivity|lia].
  - unfold tril. now rewrite Z.leb_refl.
Qed.
Lemma triu_row (M : mat Rs) (x : vect Rs) n i : (0 <= i < n)%Z -> mat_vec (triu M) n x i = M i i * x i + rsum (i + 1)%Z n (fun j => M i j * x j).
Proof.
  intros Hi. unfold mat_vec. rewrite (rsum_split 0 i n) by lia. rewrite (rsum_zero 0 i).
  2:{ intros j Hj. unfold triu. destruct (Z.leb_spec i j); [lia|]. apply Rmult_0_l. }
  rewrite Rplus_0_l, rsum_first by lia. f_equal.
  - unfold triu. now rewrite Z.leb_refl.
  - apply rsum_ext. intros j Hj. unfold triu. destruct (Z.leb_spec i j); [reflexivity|lia].
Qed.
Lemma abs_tril M i j : abs_of (tril M) i j = tril (abs_of M) i j.
Proof. unfold abs_of, tril. destruct (Z.leb_spec j i); [reflexivity|apply Rabs_R0]. Qed.
Lemma abs_triu M i j : abs_of (triu M) i j = triu (abs_of M) i j.
Proof. unfold abs_of, triu. destruct (Z.leb_spec i j); [reflexivity|apply Rabs_R0]. Qed.
Lemma mat_vec_ext (A B : mat Rs) x n i : (forall j, (0 <= j < n)%Z -> A i j = B i j) -> mat_vec A n x i = mat_vec B n x i.
Proof. intros H. apply rsum_ext. intros j Hj. now rewrite H. Qed.

Section Rows.
Variable n : Z.
Context (M : dense SFs) (b : list spec_float).
Hypothesis HM : is_dense n n M.
Hypothesis Hb : zlen b = n.
Hypothesis DM : Forall double (d_data M).
Hypothesis Db : Forall double b.

Lemma doubles_row (x : list spec_float) i lo hi : Forall double x -> doubles (pairs (fun j => at_ M i j) (fun j => vget x j) lo hi).
Proof. intros Dx. apply doubles_range. intros j _. split; [now apply dense_double|exact (Forall_zn double _ _ _ Dx double_0)]. Qed.

Lemma forward_row x i : (0 <= i < n)%Z -> Forall double x -> vget x i = fwd_row M b x i -> finite (at_ M i i) -> finite (vget x i) ->
  finite (vget b i) /\ (forall j, (0 <= j < i)%Z -> finite (at_ M i j) /\ finite (vget x j)) /\
  nearly_solves_row n (tril (real_dense M)) (real_vec b) (real_vec x) i.
Proof.
  intros Hi Dx E Fd Fx. set (l := pairs (fun j => at_ M i j) (fun j => vget x j) 0 i) in *.
  assert (Dl : doubles (rev l)) by (apply Forall_rev, doubles_row, Dx).
  pose proof (quotient_error (rev l) (vget b i) (at_ M i i) Dl (Forall_zn double _ _ _ Db double_0) (dense_double M DM i i) Fd) as Q. cbv zeta in Q.
  unfold fwd_row in E. fold l in E. rewrite <- E in Q. destruct (Q Fx) as (Fb & Fl & B). split; [exact Fb|]. split.
  { intros j Hj. unfold all_finite in Fl. rewrite Forall_forall in Fl. apply (Fl (at_ M i j, vget x j)). apply in_rev. rewrite rev_involutive. apply in_map_iff. exists j. split; [reflexivity|]. now apply In_zrange. }
  unfold nearly_solves_row. rewrite (mat_vec_ext (abs_of (tril (real_dense M))) (tril (abs_of (real_dense M)))) by (intros; apply abs_tril). rewrite !tril_row by lia.
  rewrite exact_rev, abs_rev in B. unfold l in B. rewrite exact_range, abs_range in B. fold l in B.
  assert (T : tril (real_dense M) i i = rv (at_ M i i)) by (unfold tril; now rewrite Z.leb_refl). rewrite T.
  assert (Len : length (rev l) = Z.to_nat i) by (rewrite rev_length; unfold l; rewrite length_range; f_equal; lia). rewrite Len in B.
  eapply bound_size with (m := Z.to_nat i); [lia| |apply Rabs_pos|].
  { apply Rplus_le_le_0_compat; [apply rsum_nonneg; intros; apply Rmult_le_pos; apply Rabs_pos|apply Rmult_le_pos; apply Rabs_pos]. }
  eapply Rle_trans; [|exact B]. apply Req_le. f_equal. change (real_vec b i) with (rv (vget b i)). unfold real_vec, real_dense. ring.
Qed.

Lemma back_row x i : (0 <= i < n)%Z -> Forall double x -> vget x i = bwd_row n M b x i -> finite (at_ M i i) -> finite (vget x i) ->
  finite (vget b i) /\ (forall j, (i < j < n)%Z -> finite (at_ M i j) /\ finite (vget x j)) /\
  nearly_solves_row n (triu (real_dense M)) (real_vec b) (real_vec x) i.
Proof.
  intros Hi Dx E Fd Fx. set (l := pairs (fun j => at_ M i j) (fun j => vget x j) (i + 1) n) in *.
  assert (Dl : doubles l) by (apply doubles_row, Dx).
  pose proof (quotient_error l (vget b i) (at_ M i i) Dl (Forall_zn double _ _ _ Db double_0) (dense_double M DM i i) Fd) as Q. cbv zeta in Q.
  unfold bwd_row in E. fold l in E. rewrite <- E in Q. destruct (Q Fx) as (Fb & Fl & B). split; [exact Fb|]. split.
  { intros j Hj. unfold all_finite in Fl. rewrite Forall_forall in Fl. apply (Fl (at_ M i j, vget x j)). apply in_map_iff. exists j. split; [reflexivity|]. apply In_zrange. lia. }
  unfold nearly_solves_row. rewrite (mat_vec_ext (abs_of (triu (real_dense M))) (triu (abs_of (real_dense M)))) by (intros; apply abs_triu). rewrite !triu_row by lia.
  unfold l in B. rewrite exact_range, abs_range in B. fold l in B.
  assert (T : triu (real_dense M) i i = rv (at_ M i i)) by (unfold triu; now rewrite Z.leb_refl). rewrite T.
  assert (Len : length l = Z.to_nat (n - (i + 1))) by (unfold l; apply length_range). rewrite Len in B.
  eapply bound_size with (m := Z.to_nat (n - (i + 1))); [lia| |apply Rabs_pos|].
  { apply Rplus_le_le_0_compat; [apply Rmult_le_pos; apply Rabs_pos|apply rsum_nonneg; intros; apply Rmult_le_pos; apply Rabs_pos]. }
  rewrite (Rplus_comm (abs_of (real_dense M) i i * abs_vec (real_vec x) i)).
  eapply Rle_trans; [|exact B]. apply Req_le. f_equal. change (real_vec b i) with (rv (vget b i)). unfold real_vec, real_dense. ring.
Qed.
End Rows.
