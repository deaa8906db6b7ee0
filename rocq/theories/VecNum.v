(** Reductions, comparison, normalisation and sub-vectors. *)

From Coq Require Import ZArith List Lia Bool Ring Field.
From Verif Require Import Base Scalar Spec Dense LoopFacts SumFacts DenseFacts DenseProofs Vec VecSpec VecProofs VecState VecMore.
Import ListNotations.
Open Scope Z_scope.

Section VecNum.
Context {S : scalar}.
Notation T := (car S).
Implicit Types (h : heap S) (v w z : view).

(* ---------------------------------------------------------------- sums and inner products *)

Lemma v_sum_fold h v : view_ok h v -> v_sum h v = Ok (fold_left (fun s i => sadd s (vat h v i)) (zrange 0 (v_len v)) s0).
Proof.
  intros Hv. unfold v_sum. rewrite v_list_ok by exact Hv. cbn [bind]. f_equal. unfold vlist. generalize (@s0 S). induction (zrange 0 (v_len v)) as [|i l IH]; intros a; [reflexivity|]. cbn. apply IH.
Qed.

Lemma v_sum_ring (R : ring_laws S) h v : view_ok h v -> v_sum h v = Ok (sum_range 0 (v_len v) (vat h v)).
Proof. intros Hv. rewrite v_sum_fold by exact Hv. f_equal. apply (fold_left_range R (vat h v)). Qed.

Lemma v_inner_ring (R : ring_laws S) h v w : view_ok h v -> view_ok h w -> v_len w = v_len v ->
  v_inner h v w = Ok (inner (v_len v) (vat h v) (vat h w)).
Proof. intros Hv Hw Hl. rewrite v_inner_ok by assumption. f_equal. apply (fold_left_range R (fun i => smul (vat h v i) (vat h w i))). Qed.

Lemma v_inner_size h v w : v_len w <> v_len v -> v_inner h v w = Fail FAssert.
Proof. intros N. unfold v_inner. destruct (Z.eqb_spec (v_len w) (v_len v)); [congruence|reflexivity]. Qed.

Lemma v_inner_sym (R : ring_laws S) h v w : view_ok h v -> view_ok h w -> v_len w = v_len v -> v_inner h v w = v_inner h w v.
Proof.
  intros Hv Hw Hl. rewrite !(v_inner_ring R) by auto. f_equal. unfold inner. rewrite Hl. apply sum_range_ext. intros i _. apply (smul_comm R).
Qed.

Lemma inner_linear (R : ring_laws S) n (a b : T) (x y z : vect S) :
  inner n (fun i => sadd (smul a (x i)) (smul b (y i))) z = sadd (smul a (inner n x z)) (smul b (inner n y z)).
Proof.
  unfold inner. rewrite <- !(sum_range_scale R). rewrite <- (sum_range_add R). apply sum_range_ext. intros i _.
  rewrite (smul_add_l R), !(smul_assoc R). reflexivity.
Qed.

(** The inner product is linear in its first argument. *)
Lemma v_inner_linear (R : ring_laws S) h v x y w (a b : T) : view_ok h v -> view_ok h x -> view_ok h y -> view_ok h w ->
  v_len x = v_len v -> v_len y = v_len v -> v_len w = v_len v ->
  (forall i, 0 <= i < v_len v -> vat h v i = sadd (smul a (vat h x i)) (smul b (vat h y i))) ->
  exists p q, v_inner h x w = Ok p /\ v_inner h y w = Ok q /\ v_inner h v w = Ok (sadd (smul a p) (smul b q)).
Proof.
  intros Hv Hx Hy Hw Lx Ly Lw E. exists (inner (v_len v) (vat h x) (vat h w)), (inner (v_len v) (vat h y) (vat h w)).
  rewrite (v_inner_ring R h x w), (v_inner_ring R h y w), (v_inner_ring R h v w) by (auto; lia). rewrite Lx, Ly.
  split; [reflexivity|]. split; [reflexivity|]. f_equal. rewrite <- (inner_linear R). unfold inner. apply sum_range_ext. intros i Hi. now rewrite E.
Qed.

(* ---------------------------------------------------------------- extrema *)

Lemma In_vlist h v a : In a (vlist h v) <-> exists i, 0 <= i < v_len v /\ a = vat h v i.
Proof.
  unfold vlist. rewrite in_map_iff. split.
  - intros (i & <- & Hi). apply In_zrange in Hi. eauto.
  - intros (i & Hi & ->). exists i. split; [reflexivity|]. now apply In_zrange.
Qed.

Lemma vlist_not_nil h v : 0 < v_len v -> vlist h v <> [].
Proof. intros H E. apply (f_equal zlen) in E. rewrite zlen_vlist, zlen_nil in E by lia. lia. Qed.

Lemma v_max_ok (O : order_laws S) h v : view_ok h v -> 0 < v_len v ->
  exists m, v_max h v = Ok m /\ (exists i, 0 <= i < v_len v /\ m = vat h v i) /\ forall i, 0 <= i < v_len v -> sle (vat h v i) m.
Proof.
  intros Hv Hl. unfold v_max. destruct (Z.ltb_spec 0 (v_len v)); [|lia]. cbn [assert_ bind]. rewrite v_list_ok by exact Hv. cbn [bind].
  destruct (max_element_spec O (vlist h v) (vlist_not_nil h v Hl)) as (m & E & H1 & H2). exists m. split; [exact E|]. split; [now apply In_vlist|].
  intros i Hi. apply H2, In_vlist. eauto.
Qed.

Lemma v_min_ok (O : order_laws S) h v : view_ok h v -> 0 < v_len v ->
  exists m, v_min h v = Ok m /\ (exists i, 0 <= i < v_len v /\ m = vat h v i) /\ forall i, 0 <= i < v_len v -> sle m (vat h v i).
Proof.
  intros Hv Hl. unfold v_min. destruct (Z.ltb_spec 0 (v_len v)); [|lia]. cbn [assert_ bind]. rewrite v_list_ok by exact Hv. cbn [bind].
  destruct (min_element_spec O (vlist h v) (vlist_not_nil h v Hl)) as (m & E & H1 & H2). exists m. split; [exact E|]. split; [now apply In_vlist|].
  intros i Hi. apply H2, In_vlist. eauto.
Qed.

Lemma abs_max_map (l : list T) : (m <- abs_max_element l ;; Ok (sabs m)) = max_element (map sabs l).
Proof.
  destruct l as [|a l]; [reflexivity|]. cbn [abs_max_element map max_element bind]. f_equal. revert a. induction l as [|b l IH]; intros a; [reflexivity|]. cbn. rewrite IH. now destruct (slt (sabs a) (sabs b)).
Qed.

Lemma abs_min_map (l : list T) : (m <- abs_min_element l ;; Ok (sabs m)) = min_element (map sabs l).
Proof.
  destruct l as [|a l]; [reflexivity|]. cbn [abs_min_element map min_element bind]. f_equal. revert a. induction l as [|b l IH]; intros a; [reflexivity|]. cbn. rewrite IH. now destruct (slt (sabs b) (sabs a)).
Qed.

Lemma map_not_nil {A B} (f : A -> B) l : l <> [] -> map f l <> [].
Proof. destruct l; [congruence|discriminate]. Qed.

Lemma v_abs_max_ok (O : order_laws S) h v : view_ok h v -> 0 < v_len v ->
  exists m, v_abs_max h v = Ok m /\ (exists i, 0 <= i < v_len v /\ m = sabs (vat h v i)) /\ forall i, 0 <= i < v_len v -> sle (sabs (vat h v i)) m.
Proof.
  intros Hv Hl. unfold v_abs_max. destruct (Z.ltb_spec 0 (v_len v)); [|lia]. cbn [assert_ bind]. rewrite v_list_ok by exact Hv. cbn [bind]. rewrite abs_max_map.
  destruct (max_element_spec O (map sabs (vlist h v)) (map_not_nil _ _ (vlist_not_nil h v Hl))) as (m & E & H1 & H2). exists m. split; [exact E|]. split.
  - apply in_map_iff in H1. destruct H1 as (a & <- & Ha). apply In_vlist in Ha. destruct Ha as (i & Hi & ->). eauto.
  - intros i Hi. apply H2, in_map, In_vlist. eauto.
Qed.

Lemma v_abs_min_ok (O : order_laws S) h v : view_ok h v -> 0 < v_len v ->
  exists m, v_abs_min h v = Ok m /\ (exists i, 0 <= i < v_len v /\ m = sabs (vat h v i)) /\ forall i, 0 <= i < v_len v -> sle m (sabs (vat h v i)).
Proof.
  intros Hv Hl. unfold v_abs_min. destruct (Z.ltb_spec 0 (v_len v)); [|lia]. cbn [assert_ bind]. rewrite v_list_ok by exact Hv. cbn [bind]. rewrite abs_min_map.
  destruct (min_element_spec O (map sabs (vlist h v)) (map_not_nil _ _ (vlist_not_nil h v Hl))) as (m & E & H1 & H2). exists m. split; [exact E|]. split.
  - apply in_map_iff in H1. destruct H1 as (a & <- & Ha). apply In_vlist in Ha. destruct Ha as (i & Hi & ->). eauto.
  - intros i Hi. apply H2, in_map, In_vlist. eauto.
Qed.

Lemma v_extrema_empty h v : v_len v = 0 ->
  v_max h v = Fail FAssert /\ v_min h v = Fail FAssert /\ v_abs_max h v = Fail FAssert /\ v_abs_min h v = Fail FAssert.
Proof. intros E. unfold v_max, v_min, v_abs_max, v_abs_min. rewrite E. repeat split. Qed.

(* ---------------------------------------------------------------- comparison *)

Lemma close_list_iff tol (f g : Z -> T) (l : list Z) :
  close_list tol (map f l) (map g l) = true <-> forall i, In i l -> sle (sabs (ssub (f i) (g i))) tol.
Proof.
  induction l as [|a l IH]; cbn [map close_list].
  - split; [intros _ i []|reflexivity].
  - unfold sle in *. destruct (slt tol (sabs (ssub (f a) (g a)))) eqn:E.
    + split; [discriminate|]. intros H. rewrite (H a) in E by now left. discriminate.
    + rewrite IH. split; intros H.
      * intros i [<-|Hi]; [exact E|now apply H].
      * intros i Hi. apply H. now right.
Qed.

Lemma v_eq_ok tol h v w : view_ok h v -> view_ok h w ->
  exists b, v_eq tol h v w = Ok b /\
    (b = true <-> v_len v = v_len w /\ forall i, 0 <= i < v_len v -> sle (sabs (ssub (vat h v i) (vat h w i))) tol).
Proof.
  intros Hv Hw. unfold v_eq. destruct (Z.eqb_spec (v_len v) (v_len w)) as [E|N]; cbn [negb].
  - rewrite !v_list_ok by assumption. cbn [bind]. eexists. split; [reflexivity|]. unfold vlist. rewrite <- E, close_list_iff. split.
    + intros H. split; [reflexivity|]. intros i Hi. apply H, In_zrange, Hi.
    + intros (_ & H) i Hi. apply H, In_zrange, Hi.
  - exists false. split; [reflexivity|]. split; [discriminate|]. intros (E & _). congruence.
Qed.

(** A loop that stops testing after the first failure. *)
Lemma for_all lo hi (b : bool) (p : Z -> Prop) (body : Z -> bool -> res bool) : lo <= hi ->
  (forall i, lo <= i < hi -> exists c, body i true = Ok c /\ (c = true <-> p i)) ->
  (forall i, lo <= i < hi -> body i false = Ok false) ->
  exists c, for_ lo hi b body = Ok c /\ (c = true <-> b = true /\ forall i, lo <= i < hi -> p i).
Proof.
  intros Hl Ht Hf. enough (G : returns (for_ lo hi b body) (fun c => c = true <-> b = true /\ forall i, lo <= i < hi -> p i)).
  { destruct (for_ lo hi b body); cbn in G; [eauto|contradiction]. }
  apply returns_for with (I := fun k c => c = true <-> b = true /\ forall i, lo <= i < k -> p i); [exact Hl| | |auto].
  - split; [intros ->; split; [reflexivity|lia]|tauto].
  - intros i c Hi Hc. destruct c.
    + destruct (Ht i Hi) as (c & -> & E). cbn [returns]. rewrite E. destruct Hc as (Hc & _). destruct (Hc eq_refl) as (Hb & Hp). split.
      * intros P. split; [exact Hb|]. intros j Hj. destruct (Z.eq_dec j i) as [->|]; [exact P|apply Hp; lia].
      * intros (_ & P). apply P. lia.
    + rewrite Hf by exact Hi. cbn [returns]. split; [discriminate|]. intros (Hb & P). apply Hc. split; [exact Hb|]. intros j Hj. apply P. lia.
Qed.

Lemma d_eq_ok tol (D E : dense S) : dense_ok D -> dense_ok E ->
  exists b, d_eq tol D E = Ok b /\
    (b = true <-> d_rows D = d_rows E /\ d_cols D = d_cols E /\
       forall i j, 0 <= i < d_rows D -> 0 <= j < d_cols D -> sle (sabs (ssub (dense_mat D i j) (dense_mat E i j))) tol).
Proof.
  intros HD HE. unfold d_eq. destruct (Z.eqb_spec (d_rows E) (d_rows D)) as [Er|]; cbn [andb negb].
  2:{ exists false. split; [reflexivity|]. split; [discriminate|]. intros (K & _). congruence. }
  destruct (Z.eqb_spec (d_cols E) (d_cols D)) as [Ec|]; cbn [andb negb].
  2:{ exists false. split; [reflexivity|]. split; [discriminate|]. intros (_ & K & _). congruence. }
  pose proof HD as (Hr & Hc & _).
  set (inner_ := fun j b => for_ 0 (d_rows D) b (fun i (b : bool) => if b then a <- d_get D i j ;; c <- d_get E i j ;; Ok (negb (slt tol (sabs (ssub a c)))) else Ok false)).
  assert (In_ : forall j b, 0 <= j < d_cols D -> exists c, inner_ j b = Ok c /\ (c = true <-> b = true /\ forall i, 0 <= i < d_rows D -> sle (sabs (ssub (dense_mat D i j) (dense_mat E i j))) tol)).
  { intros j b Hj. apply for_all; [exact Hr| |reflexivity]. intros i Hi. rewrite !d_get_ok by (auto; lia). cbn [bind]. eexists. split; [reflexivity|].
    unfold sle. destruct (slt _ _); split; auto; discriminate. }
  destruct (for_all 0 (d_cols D) true (fun j => forall i, 0 <= i < d_rows D -> sle (sabs (ssub (dense_mat D i j) (dense_mat E i j))) tol) inner_ Hc) as (c & Ef & Hp).
  - intros j Hj. destruct (In_ j true Hj) as (c & -> & K). exists c. split; [reflexivity|]. rewrite K. tauto.
  - intros j Hj. destruct (In_ j false Hj) as (c & -> & K). destruct c; [|reflexivity]. destruct (proj1 K eq_refl). discriminate.
  - exists c. split; [exact Ef|]. rewrite Hp. split.
    + intros (_ & P). split; [auto|]. split; [auto|]. intros i j Hi Hj. now apply P.
    + intros (_ & _ & P). split; [reflexivity|]. intros j Hj i Hi. now apply P.
Qed.

(* ---------------------------------------------------------------- Mean, SubAvg, Normalize *)

Section Fields.
Variable F : field_laws S.
Let R : ring_laws S := field_ring S F.

Lemma of_int_pos n : 0 <= n -> of_int n = sum_range 0 n (fun _ => @s1 S).
Proof.
  intros Hn. destruct n as [|p|p]; [reflexivity| |lia]. cbn [of_int].
  induction p as [|p IH] using Pos.peano_ind.
  - unfold sum_range. rewrite (zrange_cons 0 1), (zrange_empty (0 + 1) 1) by lia. cbn. rewrite (sadd_comm R). reflexivity.
  - rewrite Pos.iter_succ. rewrite IH by lia. rewrite Pos2Z.inj_succ. unfold Z.succ. rewrite (sum_range_last R) by lia. reflexivity.
Qed.

Lemma div_mul (a b : T) : b <> s0 -> smul (sdiv a b) b = a.
Proof.
  intros Hb. pose proof F as F'. destruct F' as [_ _ Hd Hi]. rewrite Hd. rewrite <- (smul_assoc R). cbv beta in Hi. rewrite (Hi b Hb). apply (smul_1_r R).
Qed.

Lemma v_mean_ok h v : view_ok h v -> @of_int S (v_len v) <> s0 ->
  exists m, v_mean h v = Ok m /\ smul m (of_int (v_len v)) = sum_range 0 (v_len v) (vat h v).
Proof.
  intros Hv Hn. unfold v_mean. rewrite (v_sum_ring R) by exact Hv. cbn [bind]. eexists. split; [reflexivity|]. now apply div_mul.
Qed.

Lemma sum_const n (c : T) : 0 <= n -> sum_range 0 n (fun _ => c) = smul c (of_int n).
Proof.
  intros Hn. rewrite of_int_pos by exact Hn. rewrite <- (sum_range_scale R). apply sum_range_ext. intros i _. symmetry. apply (smul_1_r R).
Qed.

Lemma v_sub_avg_ok h v : view_ok h v -> @of_int S (v_len v) <> s0 ->
  exists h' m, v_mean h v = Ok m /\ v_sub_avg h v = Ok h' /\ hw h (v_buf v) (v_off v) (v_len v) (fun i => ssub (vat h v i) m) h' /\
    sum_range 0 (v_len v) (vat h' v) = s0.
Proof.
  intros Hv Hn. destruct (v_mean_ok h v Hv Hn) as (m & E & Hm). unfold v_sub_avg. rewrite E. cbn [bind]. unfold v_sub_scalar.
  destruct (v_map_hw (fun a => ssub a m) h v Hv) as (h' & E' & H). exists h', m. split; [reflexivity|]. split; [exact E'|]. split; [exact H|].
  assert (L : 0 <= v_len v) by apply Hv.
  transitivity (sum_range 0 (v_len v) (fun i => sadd (vat h v i) (smul (sopp s1) m))).
  - apply sum_range_ext. intros i Hi. rewrite (hw_vat _ _ _ _ _ _ v i H). unfold inside. cbn [v_buf v_off v_len]. rewrite Z.eqb_refl.
    destruct (Z.leb_spec (v_off v) (v_off v + i)); [|lia]. destruct (Z.ltb_spec (v_off v + i) (v_off v + v_len v)); [|lia]. cbn [andb].
    replace (v_off v + i - v_off v) with i by lia. apply (ssub_def R).
  - rewrite (sum_range_add R), sum_const by exact L. rewrite <- Hm. rewrite <- (smul_add_l R).
    rewrite <- (ssub_def R), (Rsub_def R), (Ropp_def R). apply (smul_0_l R).
Qed.

Lemma inside_self v i : 0 <= i < v_len v -> inside (View (v_buf v) (v_off v) (v_len v)) v i = true.
Proof.
  intros Hi. unfold inside. cbn [v_buf v_off v_len]. rewrite Z.eqb_refl.
  destruct (Z.leb_spec (v_off v) (v_off v + i)); [|lia]. destruct (Z.ltb_spec (v_off v + i) (v_off v + v_len v)); [|lia]. reflexivity.
Qed.

Lemma v_normalize_ok (sqrt : T -> T) h v p : view_ok h v -> v_inner h v v = Ok p -> smul (sqrt p) (sqrt p) = p -> sqrt p <> s0 -> seqb (sqrt p) s0 = false ->
  exists h', v_normalize sqrt h v = Ok h' /\ hw h (v_buf v) (v_off v) (v_len v) (fun i => sdiv (vat h v i) (sqrt p)) h' /\ v_inner h' v v = Ok s1.
Proof.
  intros Hv Hp Hs Hn Hq. unfold v_normalize, v_l2norm. rewrite Hp. cbn [bind]. unfold v_div_scalar. rewrite Hq. cbn [negb assert_ bind].
  destruct (v_map_hw (fun a => sdiv a (sqrt p)) h v Hv) as (h' & E' & H). exists h'. split; [exact E'|]. split; [exact H|].
  assert (Hv' : view_ok h' v) by (eapply same_view_ok; [apply H|exact Hv]).
  rewrite (v_inner_ring R) in Hp |- * by auto. injection Hp as Hp. f_equal. unfold inner in *.
  pose proof F as F'. destruct F' as [_ _ Hd Hi]. set (q := sdiv s1 (sqrt p)) in *.
  assert (Hqn : smul q (sqrt p) = s1) by exact (Hi (sqrt p) Hn).
  transitivity (sum_range 0 (v_len v) (fun i => smul (smul q q) (smul (vat h v i) (vat h v i)))).
  - apply sum_range_ext. intros i Hi'. rewrite !(hw_vat _ _ _ _ _ _ v i H), !inside_self by exact Hi'.
    replace (v_off v + i - v_off v) with i by lia. set (a := vat h v i). rewrite (Hd a (sqrt p)). fold q.
    rewrite <- (smul_assoc R a q), (smul_assoc R q a q), (smul_comm R q a), <- (smul_assoc R a q q), (smul_assoc R a a). apply (smul_comm R).
  - rewrite (sum_range_scale R). rewrite Hp, <- Hs. rewrite <- (smul_assoc R q q). rewrite (smul_assoc R q (sqrt p)). rewrite Hqn, (smul_1_l R). exact Hqn.
Qed.

End Fields.

(* ---------------------------------------------------------------- GetSubVector *)

(** A loop that only changes memory. *)
Lemma for_heap (vs : list vector) lo hi (body : Z -> heap S -> res (heap S)) (f : Z -> vstate S -> res (vstate S)) h :
  (forall i h, lo <= i < hi -> f i (VState h vs) = (h' <- body i h ;; Ok (VState h' vs))) ->
  for_ lo hi (VState h vs) f = (h' <- for_ lo hi h body ;; Ok (VState h' vs)).
Proof.
  intros E. unfold for_. assert (G : forall i, In i (zrange lo hi) -> lo <= i < hi) by (intros i; apply In_zrange). revert h G.
  induction (zrange lo hi) as [|i l IH]; intros h G; [reflexivity|]. cbn [foldM]. rewrite E by (apply G; now left).
  destruct (body i h); cbn [bind]; [|reflexivity]. apply IH. intros j Hj. apply G. now right.
Qed.

Lemma set_size_vars grow h (vs : list vector) y n (t : T) h1 vs1 : 0 <= y < zlen vs -> st_set_size grow (VState h vs) y n t = Ok (VState h1 vs1) ->
  zlen vs1 = zlen vs /\ forall x, 0 <= x -> x <> y -> zn w_new vs1 x = zn w_new vs x.
Proof.
  intros Hy. unfold st_set_size. cbn [st_heap st_vars]. rewrite (get_ok w_new) by exact Hy. cbn [bind]. destruct (n =? _).
  - intros E. injection E as <- <-. auto.
  - destruct (0 <=? n); cbn [assert_ bind]; [|discriminate]. destruct (d_resize _ _ _ _ _) as [[h2 b2]|]; cbn [bind]; [|discriminate].
    destruct (d_view h2 b2); cbn [bind]; [|discriminate]. unfold st_put. cbn [st_vars]. rewrite set_ok by exact Hy. cbn [bind]. intros E. injection E as <- <-.
    rewrite zlen_upd. split; [reflexivity|]. intros x Hx N. rewrite zn_upd by lia. destruct (Z.eqb_spec x y); [lia|reflexivity].
Qed.

Lemma sub_vector_ok grow (st : vstate S) r (ids : list Z) y x off n : good st -> lref (values st) r = Some (x, off, n) ->
  0 <= y < zlen (values st) -> y <> x -> Forall (fun j => 0 <= j < n) ids ->
  exists st', st_sub_vector grow st r ids y = Ok st' /\ good st' /\
    values st' = lset (values st) y (map (fun j => zn s0 (zn [] (values st) x) (off + j)) ids).
Proof.
  intros I. rewrite (values_vals st I). destruct st as [h vs]. unfold good in I. cbn [st_heap st_vars] in *. intros El Hy N Hids. rewrite zlen_vals in Hy.
  destruct (v_of_ok h vs r x off n I El) as (Hx & Ho & Hn & Hl & Ev).
  unfold st_sub_vector. rewrite Ev. cbn [bind].
  pose proof (zlen_nonneg ids) as Z0.
  destruct (st_set_size_ok grow h vs y (zlen ids) s0 I Hy Z0) as ([h1 vs1] & E1 & I1 & V1). unfold good in I1. cbn [st_heap st_vars] in I1, V1. rewrite E1. cbn [bind].
  destruct (set_size_vars grow h vs y _ s0 h1 vs1 Hy E1) as (Zv & Sv).
  assert (Ex : zn [] (vals h1 vs1) x = zn [] (vals h vs) x) by (rewrite V1; unfold lset; rewrite zn_upd by (rewrite ?zlen_vals; lia); destruct (Z.eqb_spec x y); [lia|reflexivity]).
  assert (El1 : lref (vals h1 vs1) r = Some (x, off, n)).
  { rewrite <- El. assert (ref_var r = x) by (destruct r; cbn in El |- *; destruct (_ && _); try discriminate; now injection El).
    destruct r as [x0|x0 o m]; cbn in H; subst x0; cbn [lref]; rewrite !zlen_vals, Zv, Ex; reflexivity. }
  destruct (v_of_ok h1 vs1 r x off n I1 El1) as (_ & _ & _ & Hl1 & Ev1). rewrite (Sv x) in Hl1, Ev1 by lia.
  set (xv := View (w_data (zn w_new vs x)) off n) in *.
  assert (Hxv : view_ok h1 xv) by now apply cells_view_ok.
  assert (Evr : forall h', (match r with RVar _ => v_of (VState h' vs1) r | RSub _ _ _ => Ok xv end) = Ok xv).
  { intros h'. destruct r as [x0|x0 o m]; [|reflexivity]. exact Ev1. }
  (* the target *)
  assert (Hy1 : 0 <= y < zlen vs1) by lia. pose proof (proj1 I1 y Hy1) as W. pose proof (w_ok_view _ _ W) as Wv.
  assert (Zy : zlen (cells h1 (w_data (zn w_new vs1 y))) = zlen ids).
  { rewrite <- zn_vals by exact Hy1. rewrite V1. unfold lset. rewrite zn_upd by (rewrite ?zlen_vals; lia). rewrite Z.eqb_refl.
    rewrite zlen_app. rewrite zlen_repeat. destruct (Z.le_gt_cases (zlen ids) (zlen (zn [] (vals h vs) y))).
    - rewrite zlen_firstn by lia. lia.
    - rewrite firstn_all2; [lia|]. unfold zlen in *. lia. }
  rewrite Zy in Wv. set (by_ := w_data (zn w_new vs1 y)) in *.
  assert (Hyv : view_ok h1 (View by_ 0 (zlen ids))) by (apply cells_view_ok; lia).
  assert (Nb : w_data (zn w_new vs x) = by_ -> n = 0).
  { intros E. rewrite <- (Sv x) in E by lia. assert (w_data (zn w_new vs1 x) = -1) by (apply (proj2 I1 x y); auto; lia).
    rewrite <- (Sv x) in Hl1 by lia. rewrite H, cells_neg, zlen_nil in Hl1. lia. }
  assert (Bd : forall i, 0 <= i < zlen ids -> 0 <= zn 0 ids i < n).
  { intros i Hi. rewrite Forall_forall in Hids. apply Hids. apply zn_In. exact Hi. }
  destruct (view_loop h1 (View by_ 0 (zlen ids)) (fun i => vat h1 xv (zn 0 ids i))
     (fun i h' => j <- get ids i ;; assert_ (0 <=? j) ;;; assert_ (j <? n) ;;; t <- v_get h' xv j ;; v_set h' (View by_ 0 (zlen ids)) i t) Hyv) as (h2 & E2 & H2).
  { intros i h' Hi H. cbn [v_len v_buf v_off] in Hi, H. rewrite (get_ok 0) by lia. cbn [bind]. specialize (Bd i Hi).
    destruct (Z.leb_spec 0 (zn 0 ids i)); [|lia]. destruct (Z.ltb_spec (zn 0 ids i) n); [|lia]. cbn [assert_ bind].
    unfold v_get. cbn [v_len xv]. destruct (Z.ltb_spec (zn 0 ids i) n); [|lia]. cbn [assert_ bind].
    replace (v_at h' xv (zn 0 ids i)) with (v_at h1 xv (zn 0 ids i)).
    - rewrite (view_read h1 xv) by (auto; cbn; lia). cbn [bind]. unfold v_set. cbn [v_len]. destruct (Z.ltb_spec i (zlen ids)); [|lia]. reflexivity.
    - unfold v_at. destruct H as (_ & B). rewrite B. cbn [xv v_buf v_off]. destruct (Z.eqb_spec (w_data (zn w_new vs x)) by_) as [E|]; [|reflexivity].
      specialize (Nb E). lia. }
  cbn [v_len v_buf v_off] in E2, H2.
  rewrite (for_heap vs1 0 (zlen ids) (fun i h' => j <- get ids i ;; assert_ (0 <=? j) ;;; assert_ (j <? n) ;;; t <- v_get h' xv j ;; v_set h' (View by_ 0 (zlen ids)) i t)).
  2:{ intros i h' Hi. cbn [st_heap st_vars]. rewrite Evr. cbn [bind]. rewrite (get_ok 0) by lia. cbn [bind]. destruct (assert_ (0 <=? zn 0 ids i)); [|reflexivity]. cbn [bind].
      cbn [v_len xv]. destruct (assert_ (zn 0 ids i <? n)); [|reflexivity]. cbn [bind]. destruct (v_get h' xv (zn 0 ids i)); [|reflexivity]. cbn [bind].
      rewrite (get_ok w_new) by exact Hy1. cbn [bind]. rewrite Wv. reflexivity. }
  rewrite E2. cbn [bind]. destruct (write_inv h1 vs1 y 0 (zlen ids) _ h2 I1 Hy1 H2) as (I2 & V2).
  eexists. split; [reflexivity|]. assert (G : good (VState h2 vs1)) by exact I2. split; [exact G|]. rewrite (values_vals _ G). cbn [st_heap st_vars]. rewrite V2.
  unfold lput. rewrite (zn_vals h1 vs1 y Hy1). fold by_. rewrite Zy. rewrite V1. unfold lset.
  apply (list_ext ([] : list T)); [now rewrite !zlen_upd|]. rewrite !zlen_upd, zlen_vals. intros k Hk. rewrite !zn_upd by (rewrite ?zlen_upd, ?zlen_vals; lia).
  destruct (Z.eqb_spec k y); [|reflexivity]. apply (list_ext (@s0 S)); [rewrite !zlen_map, zlen_zrange by lia; lia|]. rewrite zlen_map, zlen_zrange by lia. intros i Hi.
  rewrite (zn_map 0 s0) by (rewrite zlen_zrange by lia; lia). rewrite zn_zrange by lia. rewrite (zn_map 0 s0) by lia.
  destruct (Z.leb_spec 0 (0 + i)); [|lia]. destruct (Z.ltb_spec (0 + i) (0 + zlen ids)); [|lia]. cbn [andb]. replace (0 + i - 0) with i by lia.
  specialize (Bd i ltac:(lia)). unfold xv. rewrite vat_cells by lia. f_equal. rewrite <- (Sv x) by lia. rewrite <- zn_vals by lia. exact Ex.
Qed.

End VecNum.
