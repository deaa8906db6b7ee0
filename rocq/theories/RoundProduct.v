(** Rounding errors of the sparse matrix product. *)

From Coq Require Import ZArith Reals List Bool Lia Lra Floats.SpecFloat.
From Flocq Require Import Core.
From Verif Require Import Base Scalar ScalarR Spec Double RoundSpec RoundFacts RoundProofs SumFacts LoopFacts CsrFacts Rows Accum Sparse SparseProofs ProductProofs.
Import ListNotations.

Section AccValue.
Context {T : Type} (plus : T -> T -> T).
Local Notation acc := (acc plus (fun v => v)).
Local Notation acc_add := (acc_add plus (fun v => v)).

Lemma acc_add_In (m : list (Z * T)) b w c v : NoDup (map fst m) -> In (c, v) (acc_add m b w) ->
  (c <> b /\ In (c, v) m) \/ (c = b /\ ((~ In b (map fst m) /\ v = w) \/ exists v', In (b, v') m /\ v = plus v' w)).
Proof.
  induction m as [|[c' v'] m IH]; intros N I; cbn in I.
  - destruct I as [I|[]]. injection I as -> ->. right. split; [reflexivity|]. left. split; [intros []|reflexivity].
  - inversion_clear N as [|? ? N1 N2]. destruct (Z.eqb_spec c' b) as [->|Hb]; cbn in I.
    + destruct I as [I|I].
      * injection I as -> <-. right. split; [reflexivity|]. right. exists v'. split; [left|]; reflexivity.
      * left. split; [|right; exact I]. intros ->. apply N1. change b with (fst (b, v)). now apply in_map.
    + destruct I as [I|I].
      * injection I as -> ->. left. split; [congruence|left; reflexivity].
      * destruct (IH N2 I) as [(Hc & H)|(Hc & [(H1 & H2)|(v1 & H1 & H2)])].
        -- left. split; [exact Hc|right; exact H].
        -- right. split; [exact Hc|]. left. split; [|exact H2]. cbn. intros [E|E]; [congruence|exact (H1 E)].
        -- right. split; [exact Hc|]. right. exists v1. split; [right; exact H1|exact H2].
Qed.

(** The value stored for a key is the sum, from the left, of the values that came with it. *)
Lemma acc_value (l : list (Z * T)) c v : In (c, v) (acc l) ->
  exists v0 l', map snd (filter (fun p => (fst p =? c)%Z) l) = v0 :: l' /\ v = fold_left plus l' v0.
Proof.
  revert v. induction l as [|[b w] l IH] using rev_ind; intros v I; [destruct I|].
  rewrite acc_snoc in I. apply acc_add_In in I; [|apply acc_NoDup]. rewrite filter_app, map_app. cbn [filter fst].
  destruct I as [(Hc & I)|(-> & [(Hn & ->)|(v' & I & ->)])].
  - destruct (Z.eqb_spec b c) as [->|_]; [congruence|]. cbn [map]. rewrite app_nil_r. now apply IH.
  - rewrite Z.eqb_refl. cbn [map snd]. rewrite acc_In_keys in Hn. exists w, []. split; [|reflexivity].
    assert (E : filter (fun p : Z * T => (fst p =? b)%Z) l = []); [|now rewrite E].
    clear IH. induction l as [|[k u] l IHl]; [reflexivity|]. cbn in *. destruct (Z.eqb_spec k b) as [->|_]; [tauto|]. apply IHl. tauto.
  - rewrite Z.eqb_refl. cbn [map snd]. destruct (IH v' I) as (v0 & l' & E & ->). rewrite E. exists v0, (l' ++ [w]). split; [reflexivity|]. now rewrite fold_left_app.
Qed.
End AccValue.

Lemma list_prod_flat {X Y} (l : list X) (m : list Y) : list_prod l m = flat_map (fun a => map (fun b => (a, b)) m) l.
Proof. induction l as [|a l IH]; [reflexivity|]. cbn. now rewrite IH. Qed.

(** A sum that starts with the first product instead of zero *)
Lemma fold_computed1 p l : doubles (p :: l) ->
  computed (length (p :: l)) (exact_sum (p :: l)) (abs_sum (p :: l)) (all_finite (p :: l)) (all_integral (p :: l)) (fold_left step l (SFmul 53 1024 (fst p) (snd p))).
Proof.
  intros D. apply Forall_cons_iff in D as ((D1 & D2) & D). pose proof (mul_double _ _ D1 D2) as M. set (z := (rv (fst p) * rv (snd p))%R).
  assert (Ez : (Rabs z = Rabs (rv (fst p)) * Rabs (rv (snd p)))%R) by apply Rabs_mult. destruct (rnd_mul z) as (d & h & Hd & Hh & E).
  assert (E1 : exact_sum (p :: l) = (z + exact_sum l)%R) by reflexivity.
  assert (E2 : abs_sum (p :: l) = (Rabs z + abs_sum l)%R) by (rewrite Ez; reflexivity).
  pose proof u_pos as U. pose proof eta_pos as T. pose proof (Rabs_pos z) as Z0. pose proof (abs_sum_pos l) as P0.
  split; rewrite ?E1, ?E2.
  - now apply fold_double.
  - intros F. apply (fold_error l D 1 (SFmul 53 1024 (fst p) (snd p)) z (Rabs z)); [exact M|lra| |discriminate|exact F].
    intros Fm. destruct (mul_finite _ _ D1 D2 Fm) as (_ & _ & R). fold z in R. rewrite R, E. replace (z * (1 + d) + h - z)%R with (z * d + h)%R by ring.
    unfold bound. simpl (INR 1). simpl (_ ^ 1)%R. eapply Rle_trans; [apply Rabs_triang|]. rewrite Rabs_mult. pose proof (Rmult_le_compat_l (Rabs z) _ _ Z0 Hd). pose proof (Rmult_lt_0_compat _ _ U T). lra.
  - intros AF IR. apply Forall_cons_iff in AF as ((F1 & F2) & AF).
    assert (B : (Rabs (rnd z) <= (1 + unit_roundoff) ^ 1 * (Rabs z + INR 1 * underflow))%R).
    { rewrite E. simpl (INR 1). simpl (_ ^ 1)%R. eapply Rle_trans; [apply Rabs_triang|]. rewrite Rabs_mult.
      assert (D3 : (Rabs (1 + d) <= 1 + unit_roundoff)%R) by (eapply Rle_trans; [apply Rabs_triang|]; rewrite Rabs_R1; lra).
      eapply Rle_trans; [apply Rplus_le_compat; [apply Rmult_le_compat_l; [exact Z0|exact D3]|exact Hh]|]. nra. }
    assert (Fm : finite (SFmul 53 1024 (fst p) (snd p))).
    { apply mul_in_range; auto. fold z. eapply Rle_lt_trans; [exact B|]. eapply Rle_lt_trans; [|exact IR]. cbn [length].
      eapply Rle_trans; [apply (grow_range 1 (S (length l))); [lia|lra]|]. apply mono_range. lra. }
    apply (fold_in_range l D AF 1 (SFmul 53 1024 (fst p) (snd p)) (Rabs z)); [exact M|exact Fm|lra| |discriminate|exact IR].
    destruct (mul_finite _ _ D1 D2 Fm) as (_ & _ & R). fold z in R. rewrite R. exact B.
  - intros AI B. apply Forall_cons_iff in AI as (((F1 & z1 & I1) & F2 & z2 & I2) & AI).
    assert (EZ : z = IZR (z1 * z2)) by (unfold z; rewrite I1, I2, <- mult_IZR; reflexivity).
    assert (Em : rnd z = z). { rewrite EZ. apply rnd_format, int_format. apply le_IZR. rewrite abs_IZR, <- EZ. lra. }
    assert (Fm : finite (SFmul 53 1024 (fst p) (snd p))). { apply mul_in_range; auto. fold z. rewrite Em. pose proof bpow1024_big. lra. }
    destruct (mul_finite _ _ D1 D2 Fm) as (_ & _ & R). fold z in R. rewrite Em in R.
    destruct (fold_integral l D AI (SFmul 53 1024 (fst p) (snd p)) (z1 * z2)%Z (Rabs z) M Fm) as (G1 & G2); [now rewrite R|rewrite EZ; lra|lra|].
    split; [exact G1|]. now rewrite G2, EZ.
Qed.

Lemma products_computed1 {X} (f g : X -> spec_float) (e0 : X) (l : list X) :
  (forall e, In e (e0 :: l) -> double (f e) /\ double (g e)) ->
  computed (length (e0 :: l)) (sum_list (S := Rs) (map (fun e => rv (f e) * rv (g e))%R (e0 :: l))) (sum_list (S := Rs) (map (fun e => Rabs (rv (f e)) * Rabs (rv (g e)))%R (e0 :: l)))
    (forall e, In e (e0 :: l) -> finite (f e) /\ finite (g e)) (forall e, In e (e0 :: l) -> integral (f e) /\ integral (g e))
    (fold_left sadd (map (fun e => smul (s := SFs) (f e) (g e)) l) (smul (s := SFs) (f e0) (g e0))).
Proof.
  intros D. pose (ps := fun l => map (fun e : X => (f e, g e)) l).
  assert (Dp : doubles (ps (e0 :: l))) by (apply Forall_forall; intros p Hp; apply in_map_iff in Hp as (e & <- & He); now apply D).
  assert (C : computed (length (ps (e0 :: l))) (exact_sum (ps (e0 :: l))) (abs_sum (ps (e0 :: l))) (all_finite (ps (e0 :: l))) (all_integral (ps (e0 :: l)))
    (fold_left step (ps l) (SFmul 53 1024 (f e0) (g e0)))) by exact (fold_computed1 _ _ Dp).
  assert (E1 : forall l, length (ps l) = length l) by (intros; apply map_length).
  assert (E2 : forall l, exact_sum (ps l) = sum_list (S := Rs) (map (fun e => rv (f e) * rv (g e))%R l)).
  { clear. intros l. unfold ps, exact_sum, sum_list. induction l as [|e l IH]; [reflexivity|]. cbn [map fold_right fst snd]. rewrite IH. reflexivity. }
  assert (E3 : forall l, abs_sum (ps l) = sum_list (S := Rs) (map (fun e => Rabs (rv (f e)) * Rabs (rv (g e)))%R l)).
  { clear. intros l. unfold ps, abs_sum, sum_list. induction l as [|e l IH]; [reflexivity|]. cbn [map fold_right fst snd]. rewrite IH. reflexivity. }
  assert (E4 : forall l v, fold_left step (ps l) v = fold_left (sadd (s := SFs)) (map (fun e => smul (s := SFs) (f e) (g e)) l) v).
  { clear. intros l. unfold ps. induction l as [|e l IH]; intros v; [reflexivity|]. cbn [map fold_left]. rewrite IH. reflexivity. }
  rewrite E1, E2, E3, E4 in C.
  revert C. apply computed_weaken; intros H; apply Forall_forall; intros p Hp; apply in_map_iff in Hp as (e & <- & He); now apply H.
Qed.

(* ---------------------------------------------------------------- the products of row i and column j *)

Notation RR := (field_ring _ Rs_field).

Lemma sum_pairs (h : spec_float -> R) (LA LB : list (entry SFs)) cols i j :
  (forall e, In e LA -> erow e = i -> (0 <= ecol e < cols)%Z) ->
  sum_list (S := Rs) (map (fun p : entry SFs * entry SFs => h (evalue (S := SFs) (fst p)) * h (evalue (S := SFs) (snd p)))%R (filter (meet i j) (list_prod LA LB)))
  = mat_mul (mat_of (S := Rs) (values_of h LA)) (mat_of (S := Rs) (values_of h LB)) cols i j.
Proof.
  intros H. change (mat_mul (mat_of (S := Rs) (values_of h LA)) (mat_of (S := Rs) (values_of h LB)) cols i j) with (mat_vec (mat_of (S := Rs) (values_of h LA)) cols (fun k => mat_of (S := Rs) (values_of h LB) k j) i).
  rewrite <- row_sum by exact H. rewrite !(sum_filter RR). rewrite list_prod_flat, (sum_flat_map RR). apply (sum_map_ext (S := Rs)). intros a _. rewrite map_map. unfold meet. cbn [fst snd].
  destruct (erow a =? i)%Z; cbn [andb]; [|apply (sum_map_0 RR); reflexivity].
  rewrite (mat_of_if RR). unfold values_of. rewrite map_map. change (h (evalue a) * ?u)%R with (smul (s := Rs) (h (evalue (S := SFs) a)) u). rewrite <- (sum_map_scale RR).
  apply (sum_map_ext (S := Rs)). intros b _. unfold at_pos. change (erow (S := Rs) (erow b, ecol b, h (evalue b))) with (erow b). change (ecol (S := Rs) (erow b, ecol b, h (evalue b))) with (ecol b).
  rewrite (Z.eqb_sym (ecol a)). destruct ((erow b =? ecol a)%Z && (ecol b =? j)%Z); [reflexivity|]. symmetry. apply (smul_0_r RR).
Qed.

Lemma flat_map_none {X Y} (p : X -> bool) (h : X -> list Y) l : (forall a, In a l -> p a = false -> h a = []) -> flat_map h l = flat_map h (filter p l).
Proof.
  induction l as [|a l IH]; intros H; [reflexivity|]. cbn [flat_map filter]. rewrite IH by (intros b Hb; apply H; now right).
  destruct (p a) eqn:E; [reflexivity|]. now rewrite (H a (or_introl eq_refl) E).
Qed.

Lemma filter_filter {X} (p r : X -> bool) l : filter p (filter r l) = filter (fun a => r a && p a) l.
Proof. induction l as [|a l IH]; [reflexivity|]. cbn. destruct (r a) eqn:E; cbn; [destruct (p a)|]; now rewrite IH. Qed.

Lemma products_of (A B : csr SFs) i j : csr_valid A -> csr_valid B -> c_rows B = c_cols A -> (0 <= i < c_rows A)%Z ->
  map snd (filter (fun p => (fst p =? j)%Z) (prods A B i))
  = map (fun p : entry SFs * entry SFs => smul (evalue (fst p)) (evalue (snd p))) (filter (meet i j) (list_prod (entries A) (entries B))).
Proof.
  intros VA VB Hs Hi. rewrite list_prod_flat. rewrite !filter_flat_map. unfold prods. rewrite filter_flat_map.
  rewrite (flat_map_none (fun e : entry SFs => (erow e =? i)%Z) _ (entries A)).
  2:{ intros a _ E. apply CsrFacts.filter_none. intros p Hp. apply in_map_iff in Hp as (b & <- & _). unfold meet. cbn [fst]. now rewrite E. }
  rewrite filter_row_entries by assumption. rewrite !map_flat_map. apply flat_map_ext_in. intros e He.
  assert (Hi2 : In e (entries A) /\ erow e = i) by (apply In_row_entries; auto). destruct Hi2 as (He' & Ei).
  assert (Hc : (0 <= ecol e < c_rows B)%Z).
  { pose proof (entries_in_shape A VA) as Sh. unfold in_shape in Sh. rewrite Forall_forall in Sh. apply Sh in He'. lia. }
  rewrite (filter_ext_in (meet i j) (fun p : entry SFs * entry SFs => meet i j p) (map (fun b => (e, b)) (entries B))) by reflexivity.
  rewrite !filter_map, !map_map. cbn [fst snd].
  rewrite (filter_ext (fun b : entry SFs => meet i j (e, b)) (fun b : entry SFs => (erow b =? ecol e)%Z && (ecol b =? j)%Z)).
  2:{ intros b. unfold meet. cbn [fst snd]. now rewrite Ei, Z.eqb_refl, (Z.eqb_sym (ecol e)). }
  rewrite <- filter_filter, filter_row_entries, <- row_of_entries by assumption. unfold row_to_entries. rewrite filter_map, map_map. reflexivity.
Qed.

Lemma sp_spmult_rounds (A B : csr SFs) : csr_valid A -> csr_valid B -> c_rows B = c_cols A -> Forall double (c_val A) -> Forall double (c_val B) ->
  exists C, sp_spmult A B = Ok C /\ csr_valid C /\ c_rows C = c_rows A /\ c_cols C = c_cols B /\ no_dup_coords (entries C) /\
    (forall i j, (exists v, In (i, j, v) (entries C)) <-> filter (meet i j) (list_prod (entries A) (entries B)) <> []) /\
    forall i j v, In (i, j, v) (entries C) -> accurate_product (entries A) (entries B) (c_cols A) i j v.
Proof.
  intros VA VB Hs DA DB. destruct (sp_spmult_safe A B VA VB Hs) as (C & E & VC & Hr & Hc & N & P). exists C. do 5 (split; [assumption|]). split.
  - intros i j. rewrite P. split.
    + intros (k & v & w & HA & HB) H0.
      assert (I : In ((i, k, v), (k, j, w)) (filter (meet i j) (list_prod (entries A) (entries B)))).
      { apply filter_In. split; [apply in_prod; assumption|]. unfold meet. cbn. now rewrite !Z.eqb_refl. }
      rewrite H0 in I. destruct I.
    + intros H. destruct (filter (meet i j) (list_prod (entries A) (entries B))) as [|[[[i1 k1] v] [[k2 j2] w]] l] eqn:F; [now destruct H|].
      assert (I : In ((i1, k1, v), (k2, j2, w)) (filter (meet i j) (list_prod (entries A) (entries B)))) by (rewrite F; now left).
      apply filter_In in I as (I & M). apply in_prod_iff in I as (IA & IB). unfold meet in M. cbn in M. apply andb_prop in M as (M1 & M2). apply andb_prop in M2 as (M2 & M3).
      apply Z.eqb_eq in M1, M2, M3. subst. exists k2, v, w. now split.
  - intros i j v Hv. rewrite sp_spmult_eq in E by assumption. injection E as <-. apply In_csr_of_rows in Hv as (Hi & Hv). unfold prod_row in Hv. apply acc_value in Hv as (v0 & l' & F & ->).
    rewrite products_of in F by assumption. destruct (filter (meet i j) (list_prod (entries A) (entries B))) as [|p0 l] eqn:Fl; [discriminate|]. cbn [map] in F. injection F as <- <-.
    assert (I : forall p, In p (p0 :: l) -> In (fst p) (entries A) /\ In (snd p) (entries B)).
    { intros [a b] Hp. rewrite <- Fl in Hp. apply filter_In in Hp as (Hp & _). now apply in_prod_iff in Hp. }
    unfold accurate_product, real_mat, abs_mat. rewrite <- !sum_pairs.
    2,3: intros e He _; pose proof (entries_in_shape A VA) as Sh; unfold in_shape in Sh; rewrite Forall_forall in Sh; apply Sh in He; tauto.
    rewrite Fl. refine (computed_weaken _ _ _ _ _ _ _ _ _ _ (products_computed1 (fun p : entry SFs * entry SFs => evalue (S := SFs) (fst p)) (fun p : entry SFs * entry SFs => evalue (S := SFs) (snd p)) p0 l _)).
    + intros (F1 & F2) p Hp. apply I in Hp as (H1 & H2). split; [now apply F1|now apply F2].
    + intros (F1 & F2) p Hp. apply I in Hp as (H1 & H2). split; [now apply F1|now apply F2].
    + intros p Hp. apply I in Hp as (H1 & H2). split; [now apply (entries_values A double double_0)|now apply (entries_values B double double_0)].
Qed.
