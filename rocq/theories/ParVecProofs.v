(** Proofs about the reductions of distributed vectors and the in place operations of ParMatrix. *)

From Coq Require Import ZArith List Bool Lia Permutation Ring.
From Verif Require Import Base Scalar Spec Dense Sparse SumFacts LoopFacts CsrFacts Rows SparseProofs SparseMore SortProofs HistoryProofs
  Coo CooSpec CooProofs CooMore Vec VecSpec VecProofs VecNum VecLinks Par ParSpec ParProofs ParAddProofs ParSplitProofs.
Import ListNotations.
Open Scope Z_scope.

Section ParVec.
Context {S : scalar}.
Notation T := (car S).
Hypothesis R : ring_laws S.
Let Rth : ring_theory (@s0 S) s1 sadd smul ssub sopp (@eq (car S)) := R.
Add Ring ParVecRing : Rth.

Lemma tree_sum_list (l : list T) a : tree_sum l a -> a = sum_list l.
Proof.
  induction 1 as [x|l l1 l2 a b _ IH1 _ IH2 P].
  - cbn. ring.
  - rewrite (sum_list_perm R _ _ P), (sum_list_app R). now rewrite IH1, IH2.
Qed.

Lemma sums_list (red : allreduce (S := S)) r (l : list T) : sums red -> l <> [] -> red r l = sum_list l.
Proof. intros H N. apply tree_sum_list, H, N. Qed.

Lemma map_const {A B} (b : B) (l : list A) n : zlen l = n -> map (fun _ => b) (zrange 0 n) = map (fun _ => b) l.
Proof.
  intros <-. assert (L : length (zrange 0 (zlen l)) = length l) by (rewrite zrange_length; unfold zlen; lia).
  revert L. generalize (zrange 0 (zlen l)). induction l as [|a l IH]; intros [|z zs] L; cbn in *; try discriminate; [reflexivity|]. f_equal. apply IH. congruence.
Qed.

Lemma ranks_map {A B} (d : A) (l : list A) (f : A -> res B) (g : A -> B) : (forall a, In a l -> f a = Ok (g a)) ->
  ranks (zlen l) (fun r => a <- get l r ;; f a) = Ok (map g l).
Proof.
  intros H. rewrite (ranks_ok _ _ (fun r => g (zn d l r))).
  - f_equal. transitivity (map g (map (zn d l) (zrange 0 (zlen l)))); [now rewrite map_map|now rewrite map_zn_zrange].
  - intros r Hr. rewrite (get_ok d) by lia. cbn [bind]. apply H, zn_In, Hr.
Qed.

Lemma map_nonempty {A B} (f : A -> B) l : l <> [] -> map f l <> [].
Proof. destruct l; cbn; congruence. Qed.

Lemma allreduced {A} (red : allreduce (S := S)) (l : list A) (g : A -> T) : sums red -> l <> [] ->
  map (fun r => red r (map g l)) (zrange 0 (zlen l)) = map (fun _ => sum_list (map g l)) l.
Proof.
  intros Hs N. rewrite <- (map_const (sum_list (map g l)) l (zlen l) eq_refl). apply map_ext. intros r. apply sums_list; [exact Hs|now apply map_nonempty].
Qed.

Lemma combine_app {A B} (a1 a2 : list A) (b1 b2 : list B) : length a1 = length b1 -> combine (a1 ++ a2) (b1 ++ b2) = combine a1 b1 ++ combine a2 b2.
Proof. revert b1. induction a1 as [|x a1 IH]; intros [|y b1] L; cbn in *; try discriminate; [reflexivity|]. f_equal. apply IH. congruence. Qed.

Lemma combine_same {A B C} (f : A -> B) (g : A -> C) l : combine (map f l) (map g l) = map (fun x => (f x, g x)) l.
Proof. induction l as [|a l IH]; cbn; [reflexivity|]. now rewrite IH. Qed.

Definition wx (w : heap S * view * view) : heap S * view := (fst (fst w), snd (fst w)).
Definition wy (w : heap S * view * view) : heap S * view := (fst (fst w), snd w).

Lemma dot_dist (ws : list (heap S * view * view)) : (forall h x y, In (h, x, y) ws -> v_len y = v_len x) ->
  dot (dist_list (map wx ws)) (dist_list (map wy ws)) = sum_list (map (fun w => inner (v_len (snd (fst w))) (vat (fst (fst w)) (snd (fst w))) (vat (fst (fst w)) (snd w))) ws).
Proof.
  unfold dot, dist_list. induction ws as [|[[h x] y] ws IH]; intros H; [reflexivity|]. cbn [map flat_map wx wy fst snd].
  rewrite combine_app by (rewrite !map_length; now rewrite (H h x y) by now left). rewrite map_app, (sum_list_app R). cbn [wx wy fst snd].
  unfold sum_list at 3. cbn [fold_right]. fold (@sum_list S). f_equal.
  - rewrite (H h x y) by now left. rewrite combine_same, map_map. reflexivity.
  - apply IH. intros h' x' y' I. apply (H h'). now right.
Qed.

Lemma par_mult_ok (red : allreduce (S := S)) (ws : list (heap S * view * view)) : sums red -> ws <> [] ->
  (forall h x y, In (h, x, y) ws -> view_ok h x /\ view_ok h y /\ v_len y = v_len x) ->
  par_mult red ws = Ok (map (fun _ => dot (dist_list (map wx ws)) (dist_list (map wy ws))) ws).
Proof.
  intros Hs N H. unfold par_mult. destruct ws as [|w0 ws0] eqn:Ew; [congruence|]. rewrite <- Ew in *. clear N.
  rewrite (ranks_map w0 ws (fun '(h, x, y) => v_inner h x y) (fun w => inner (v_len (snd (fst w))) (vat (fst (fst w)) (snd (fst w))) (vat (fst (fst w)) (snd w)))).
  - cbn [bind]. rewrite (allreduced red ws); [|exact Hs|subst; discriminate]. now rewrite dot_dist by (intros h x y I; apply (H h x y I)).
  - intros [[h x] y] I. destruct (H h x y I) as (H1 & H2 & H3). now apply (v_inner_ring R).
Qed.

Lemma par_l2norm_ok (red : allreduce (S := S)) sqrt (ws : list (heap S * view)) : sums red -> ws <> [] -> (forall h x, In (h, x) ws -> view_ok h x) ->
  par_l2norm red sqrt ws = Ok (map (fun _ => sqrt (dot (dist_list ws) (dist_list ws))) ws).
Proof.
  intros Hs N H. unfold par_l2norm. rewrite par_mult_ok.
  - cbn [bind]. rewrite !map_map.
    assert (E1 : map (fun w : heap S * view => wx (let '(h, x) := w in (h, x, x))) ws = ws) by (rewrite <- (map_id ws) at 2; apply map_ext; intros [h x]; reflexivity).
    assert (E2 : map (fun w : heap S * view => wy (let '(h, x) := w in (h, x, x))) ws = ws) by (rewrite <- (map_id ws) at 2; apply map_ext; intros [h x]; reflexivity).
    rewrite E1, E2. reflexivity.
  - exact Hs.
  - now apply map_nonempty.
  - intros h x y I. apply in_map_iff in I. destruct I as ([h' x'] & Q & I). injection Q as <- <- <-. split; [now apply H|]. split; [now apply H|reflexivity].
Qed.

Lemma par_sum_ok (red : allreduce (S := S)) (ws : list (heap S * view)) : sums red -> ws <> [] -> (forall h x, In (h, x) ws -> view_ok h x) ->
  par_sum red ws = Ok (map (fun _ => sum_list (dist_list ws)) ws).
Proof.
  intros Hs N H. unfold par_sum. destruct ws as [|w0 ws0] eqn:Ew; [congruence|]. rewrite <- Ew in *. clear N.
  rewrite (ranks_map w0 ws (fun '(h, x) => v_sum h x) (fun w => sum_range 0 (v_len (snd w)) (vat (fst w) (snd w)))).
  - cbn [bind]. rewrite (allreduced red ws); [|exact Hs|subst; discriminate]. f_equal. apply map_ext. intros _. unfold dist_list. rewrite <- (map_id (flat_map _ _)), (sum_flat_map R).
    f_equal. apply map_ext. intros w. now rewrite map_id.
  - intros [h x] I. now apply (v_sum_ring R), H.
Qed.

Lemma par_sub_avg_ok (red : allreduce (S := S)) n (ws : list (heap S * view)) : sums red -> ws <> [] -> (forall h x, In (h, x) ws -> view_ok h x) ->
  exists hs, par_sub_avg red n ws = Ok hs /\ zlen hs = zlen ws /\
    forall r h x, get ws r = Ok (h, x) -> exists h', get hs r = Ok h' /\
      writes h x (fun i => ssub (vat h x i) (sdiv (sum_list (dist_list ws)) (of_int n))) h'.
Proof.
  intros Hs N H. unfold par_sub_avg. rewrite par_sum_ok by assumption. cbn [bind]. set (m := sum_list (dist_list ws)).
  destruct ws as [|w0 ws0] eqn:Ew; [congruence|]. rewrite <- Ew in *. clear N.
  match goal with |- context [ranks _ ?f] => destruct (ranks_ex (fst w0) (fun r h' => forall h x, get ws r = Ok (h, x) -> writes h x (fun i => ssub (vat h x i) (sdiv m (of_int n))) h') (zlen ws) f) as (hs & E & L & P) end.
  - apply zlen_nonneg.
  - intros r Hr. rewrite (get_ok w0) by exact Hr. rewrite (get_ok s0) by (rewrite zlen_map; exact Hr). cbn [bind]. rewrite zn_map_const by exact Hr.
    destruct (zn w0 ws r) as [h x] eqn:Ez. assert (V : view_ok h x) by (apply H; rewrite <- Ez; now apply zn_In).
    destruct (scalar_ops_write h x (sdiv m (of_int n)) V) as (_ & _ & (h' & E' & W) & _). exists h'. split; [exact E'|]. intros h2 x2 Q. injection Q as <- <-. exact W.
  - exists hs. split; [exact E|]. split; [exact L|]. intros r h x G.
    assert (Hr : 0 <= r < zlen ws) by (destruct (get_Ok_inv w0 _ _ _ G); auto). exists (zn (fst w0) hs r). split; [apply get_ok; lia|]. now apply P.
Qed.

(** On some rank the vectors differ in length: the call stops. *)
Lemma par_mult_size (red : allreduce (S := S)) (ws : list (heap S * view * view)) r h x y : get ws r = Ok (h, x, y) -> v_len y <> v_len x ->
  (forall q h x y, 0 <= q < r -> get ws q = Ok (h, x, y) -> view_ok h x /\ view_ok h y /\ v_len y = v_len x) ->
  par_mult red ws = Fail FAssert.
Proof.
  intros G N H. destruct ws as [|w0 ws0] eqn:Ew; [unfold get in G; destruct (r <? 0); [discriminate|]; destruct (Z.to_nat r); discriminate|]. rewrite <- Ew in *.
  assert (Hr : 0 <= r < zlen ws) by (destruct (get_Ok_inv w0 _ _ _ G); auto).
  unfold par_mult, ranks. rewrite (zrange_app 0 r (zlen ws)) by lia. rewrite (zrange_cons r) by lia. rewrite foldM_app.
  rewrite (foldM_snoc_map _ (fun q => inner (v_len (snd (fst (zn w0 ws q)))) (vat (fst (fst (zn w0 ws q))) (snd (fst (zn w0 ws q)))) (vat (fst (fst (zn w0 ws q))) (snd (zn w0 ws q))))).
  - cbn [bind foldM]. rewrite G. cbn [bind]. now rewrite v_inner_size by exact N.
  - intros q Hq. apply In_zrange in Hq. rewrite (get_ok w0) by lia. cbn [bind]. destruct (zn w0 ws q) as [[h' x'] y'] eqn:Ez. cbn [fst snd].
    destruct (H q h' x' y' Hq) as (H1 & H2 & H3); [rewrite (get_ok w0), Ez by lia; reflexivity|]. now apply (v_inner_ring R).
Qed.

End ParVec.
