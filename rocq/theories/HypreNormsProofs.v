(** The l1 norms of the rows of a distributed matrix. *)

From Coq Require Import ZArith List Bool Lia.
From Verif Require Import Base Scalar Spec Dense DenseFacts Sparse SumFacts LoopFacts CsrFacts Rows Accum ProductProofs Par ParSpec ParProofs ParAddProofs HypreRows HypreProofs HypreValue HypreNorms HypreNormsSpec.
Import ListNotations.
Open Scope Z_scope.

Section Norms.
Context {S : scalar}.
Notation T := (car S).

Lemma for_rows n (l : list T) body (h : Z -> T -> T) : 0 <= n -> zlen l = n ->
  (forall i l', 0 <= i < n -> zlen l' = n -> body i l' = Ok (upd l' (Z.to_nat i) (h i (zn s0 l' i)))) ->
  for_ 0 n l body = Ok (map (fun i => h i (zn s0 l i)) (zrange 0 n)).
Proof.
  intros Hn Hl H. apply res_of_returns. apply (returns_for (fun i l' => zlen l' = n /\ (forall k, 0 <= k < i -> zn s0 l' k = h k (zn s0 l k)) /\ forall k, i <= k < n -> zn s0 l' k = zn s0 l k)).
  - exact Hn.
  - split; [exact Hl|]. split; [intros; lia|]. auto.
  - intros i l' Hi (L & Va & Vb). rewrite H by assumption. cbn [returns]. rewrite zlen_upd. split; [exact L|]. split; intros k Hk; rewrite zn_upd by lia; destruct (Z.eqb_spec k i) as [->|]; try lia.
    + now rewrite Vb by lia.
    + apply Va. lia.
    + apply Vb. lia.
  - intros l' (L & Va & _). apply (list_ext s0); [rewrite zlen_map_zrange; lia|]. intros k Hk. rewrite zn_map_zrange by lia. apply Va. lia.
Qed.

Lemma upd_upd (l : list T) i a b : upd (upd l i a) i b = upd l i b.
Proof. revert i. induction l as [|x l IH]; intros [|i]; cbn; try reflexivity. now rewrite IH. Qed.

Lemma add_values_ok (f : T -> T -> T) (M : csr S) i (l : list T) : csr_valid M -> 0 <= i < c_rows M -> i < zlen l ->
  add_values f M i l = Ok (upd l (Z.to_nat i) (fold_left f (map evalue (row_entries M i)) (zn s0 l i))).
Proof.
  intros V Hi Hl. unfold add_values. rewrite !get_ptr by (auto; lia). cbn [bind].
  rewrite (row_loop M i l _ (fun l e => x <- get l i ;; set l i (f x (evalue e)))); [|exact V|exact Hi|].
  - revert l Hl. induction (row_entries M i) as [|e es IH]; intros l Hl; cbn [foldM map fold_left]; [f_equal; symmetry; apply upd_zn_same|].
    rewrite (get_ok s0) by lia. cbn [bind]. rewrite set_ok by lia. cbn [bind]. rewrite IH by (rewrite zlen_upd; exact Hl). rewrite upd_upd. do 2 f_equal. f_equal. rewrite zn_upd by lia. now rewrite Z.eqb_refl.
  - intros k s Hk. apply In_positions in Hk. pose proof (ptr_bounds M i V ltac:(lia)). pose proof (ptr_bounds M (i + 1) V ltac:(lia)). rewrite get_val by lia. reflexivity.
Qed.

Lemma add_offd_ok (f : T -> T -> T) (A : parmat S) i (l : list T) : pm_valid A -> 0 <= i < pm_rows A -> i < zlen l ->
  add_offd f A i l = Ok (upd l (Z.to_nat i) (fold_left f (offd_values A i) (zn s0 l i))).
Proof.
  intros V Hi Hl. unfold pm_rows in Hi. assert (Hi' : 0 <= i < c_rows (pm_offd A)) by (rewrite (pv_orows A V), <- (pv_drows A V); exact Hi). unfold add_offd. destruct (Z.eqb_spec (c_cols (pm_offd A)) 0) as [E|_]; [|now apply add_values_ok; [exact (pv_offd A V)| |]].
  unfold offd_values. replace (row_entries (pm_offd A) i) with (@nil (entry S)); [cbn [map fold_left]; f_equal; symmetry; apply upd_zn_same|].
  unfold row_entries. pose proof (ptr_mono (pm_offd A) i (i + 1) (pv_offd A V) ltac:(lia) ltac:(lia) ltac:(lia)) as Hm. destruct (Z.eq_dec (ptr (pm_offd A) i) (ptr (pm_offd A) (i + 1))) as [Ep|Np]; [rewrite zrange_empty by lia; reflexivity|].
  pose proof (ptr_bounds (pm_offd A) i (pv_offd A V) ltac:(lia)). pose proof (ptr_bounds (pm_offd A) (i + 1) (pv_offd A V) ltac:(lia)). pose proof (idx_bounds (pm_offd A) (ptr (pm_offd A) i) (pv_offd A V) ltac:(lia)). lia.
Qed.

Lemma first_value_ok (A : parmat S) i : pm_valid A -> 0 <= i < pm_rows A -> row_entries (pm_diag A) i <> [] -> first_value A i = Ok (leading A i).
Proof.
  intros V Hi Hne. unfold pm_rows in Hi. unfold first_value. rewrite get_ptr by (auto using (pv_diag A V); lia). cbn [bind]. unfold leading, diag_values, row_entries in *.
  destruct (Z_lt_ge_dec (ptr (pm_diag A) i) (ptr (pm_diag A) (i + 1))) as [L|G]; [|exfalso; apply Hne; rewrite zrange_empty by lia; reflexivity].
  pose proof (ptr_bounds (pm_diag A) i (pv_diag A V) ltac:(lia)). pose proof (ptr_bounds (pm_diag A) (i + 1) (pv_diag A V) ltac:(lia)). rewrite zrange_cons by exact L. cbn [map hd evalue snd]. apply get_val. lia.
Qed.

(** Without entries from row i on in the diag block the read is outside the array. *)
Lemma first_value_none (A : parmat S) i : pm_valid A -> 0 <= i < pm_rows A -> (forall q, i <= q < pm_rows A -> row_entries (pm_diag A) q = []) -> first_value A i = Fail FUB.
Proof.
  intros V Hi He. unfold pm_rows in *. unfold first_value. rewrite get_ptr by (auto using (pv_diag A V); lia). cbn [bind]. set (D := pm_diag A) in *.
  assert (G : forall m, i <= m -> m <= c_rows D -> ptr D i = ptr D m).
  { intros m Hm. replace m with (i + (m - i)) by lia. assert (Hd : 0 <= m - i) by lia. remember (m - i) as d eqn:Ed. clear Ed Hm. revert d Hd. apply (natlike_ind (fun d => i + d <= c_rows D -> ptr D i = ptr D (i + d))).
    - intros _. now rewrite Z.add_0_r.
    - intros d Hd IH Hdk. unfold Z.succ in *. rewrite IH by lia. specialize (He (i + d) ltac:(lia)). unfold row_entries in He. rewrite Z.add_assoc. apply map_eq_nil in He.
      pose proof (ptr_mono D (i + d) (i + d + 1) (pv_diag A V) ltac:(lia) ltac:(lia) ltac:(lia)). destruct (Z.eq_dec (ptr D (i + d)) (ptr D (i + d + 1))) as [|N]; [assumption|]. rewrite zrange_cons in He by lia. discriminate. }
  rewrite (G (c_rows D)) by lia. pose proof (cv_last (pv_diag A V)) as E. fold D in E. rewrite E. apply get_out. pose proof (cv_len (pv_diag A V)) as E'. fold D in E'. unfold nnz in *. lia.
Qed.

Lemma l1_norms_ok half ratio option (A : parmat S) old : pm_valid A -> (forall i, 0 <= i < pm_rows A -> row_entries (pm_diag A) i <> []) ->
  l1_norms half ratio option A old = Ok (map (signed_norm half ratio option A old) (zrange 0 (pm_rows A)),
    existsb (fun x => seqb (sabs x) s0) (map (signed_norm half ratio option A old) (zrange 0 (pm_rows A)))).
Proof.
  intros V Hne. unfold l1_norms. set (n := pm_rows A) in *. assert (Hn : 0 <= n) by exact (cv_rows (pv_diag A V)). assert (Lr : zlen (resize old n s0) = n) by (now apply zlen_resize).
  assert (HD : forall i, 0 <= i < n -> 0 <= i < c_rows (pm_diag A)) by (intros i Hi; exact Hi).
  set (first := if option =? 1 then _ else _). assert (E1 : first = Ok (map (row_norm half ratio option A old) (zrange 0 n))).
  { unfold first, row_norm. destruct (option =? 1); [|destruct (option =? 2); [|destruct (option =? 3); [|destruct (option =? 4)]]].
    - rewrite (for_rows n _ _ (fun i _ => plus_all sabs s0 (diag_values A i ++ offd_values A i))); [reflexivity|exact Hn|exact Lr|].
      intros i l Hi Hl. rewrite set_ok by lia. cbn [bind]. rewrite add_values_ok by (rewrite ?zlen_upd; auto using (pv_diag A V); lia). cbn [bind]. rewrite add_offd_ok by (rewrite ?zlen_upd; auto; lia). rewrite !upd_upd. do 2 f_equal.
      rewrite !zn_upd by (rewrite ?zlen_upd; lia). rewrite !Z.eqb_refl. unfold plus_all. now rewrite fold_left_app.
    - rewrite (for_rows n _ _ (fun i _ => plus_all sabs (sabs (leading A i)) (offd_values A i))); [reflexivity|exact Hn|exact Lr|].
      intros i l Hi Hl. rewrite first_value_ok by auto. cbn [bind]. rewrite set_ok by lia. cbn [bind]. rewrite add_offd_ok by (rewrite ?zlen_upd; auto; lia). rewrite !upd_upd. do 2 f_equal.
      rewrite !zn_upd by (rewrite ?zlen_upd; lia). rewrite !Z.eqb_refl. reflexivity.
    - rewrite (for_rows n _ _ (fun i _ => plus_all (fun v => smul v v) s0 (diag_values A i ++ offd_values A i))); [reflexivity|exact Hn|exact Lr|].
      intros i l Hi Hl. rewrite set_ok by lia. cbn [bind]. rewrite add_values_ok by (rewrite ?zlen_upd; auto using (pv_diag A V); lia). cbn [bind]. rewrite add_offd_ok by (rewrite ?zlen_upd; auto; lia). rewrite !upd_upd. do 2 f_equal.
      rewrite !zn_upd by (rewrite ?zlen_upd; lia). rewrite !Z.eqb_refl. unfold plus_all. now rewrite fold_left_app.
    - rewrite (for_rows n _ _ (fun i _ => let d := sabs (leading A i) in let x := plus_all (fun v => smul half (sabs v)) d (offd_values A i) in if le x (smul ratio d) then d else x)); [reflexivity|exact Hn|exact Lr|].
      intros i l Hi Hl. rewrite first_value_ok by auto. cbn [bind]. rewrite set_ok by lia. cbn [bind]. rewrite add_offd_ok by (rewrite ?zlen_upd; auto; lia). cbn [bind]. rewrite (get_ok s0) by (rewrite !zlen_upd; lia). cbn [bind]. rewrite !upd_upd.
      rewrite !zn_upd by (rewrite ?zlen_upd; lia). rewrite !Z.eqb_refl. cbv zeta. unfold plus_all. destruct (le _ _); [|reflexivity]. rewrite set_ok by (rewrite zlen_upd; lia). now rewrite upd_upd.
    - f_equal. apply (list_ext s0); [rewrite zlen_map_zrange; lia|]. intros i Hi. rewrite zn_map_zrange by lia. unfold resize.
      destruct (Z.ltb_spec i (zlen old)) as [L|G].
      + rewrite zn_app_l by (unfold zlen in *; rewrite firstn_length; lia). unfold zn. rewrite <- (firstn_skipn (Z.to_nat n) old) at 2. rewrite app_nth1; [reflexivity|]. rewrite firstn_length. unfold zlen in *. lia.
      + rewrite zn_app_r by (unfold zlen in *; rewrite firstn_length; lia). unfold zn. apply nth_repeat. }
  rewrite E1. cbn [bind].
  rewrite (for_rows n _ _ (fun i x => if slt (leading A i) s0 then sopp x else x)); [|exact Hn|rewrite zlen_map_zrange; lia|].
  - cbn [bind]. assert (E2 : map (fun i => if slt (leading A i) s0 then sopp (zn s0 (map (row_norm half ratio option A old) (zrange 0 n)) i) else zn s0 (map (row_norm half ratio option A old) (zrange 0 n)) i) (zrange 0 n) = map (signed_norm half ratio option A old) (zrange 0 n)).
    { apply map_ext_in. intros i Hi. apply In_zrange in Hi. rewrite zn_map_zrange by exact Hi. reflexivity. }
    rewrite E2. reflexivity.
  - intros i l Hi Hl. rewrite first_value_ok by auto. cbn [bind]. destruct (slt (leading A i) s0); [|f_equal; symmetry; apply upd_zn_same]. rewrite (get_ok s0) by lia. cbn [bind]. now rewrite set_ok by lia.
Qed.

(** Checked reads and writes fail in one way only. *)
Definition only_ub {X} (m : res X) : Prop := forall f, m = Fail f -> f = FUB.

Lemma only_ub_bind {X Y} (m : res X) (k : X -> res Y) : only_ub m -> (forall x, only_ub (k x)) -> only_ub (bind m k).
Proof. intros Hm Hk f. destruct m as [x|g]; cbn; [apply Hk|]. intros E. apply Hm. congruence. Qed.

Lemma only_ub_ok {X} (x : X) : only_ub (Ok x).
Proof. discriminate. Qed.

Lemma only_ub_get {X} (l : list X) i : only_ub (get l i).
Proof. intros f. unfold get. destruct (i <? 0); [congruence|]. destruct (nth_error _ _); congruence. Qed.

Lemma only_ub_set {X} (l : list X) i x : only_ub (set l i x).
Proof. intros f. unfold set. destruct (_ && _); congruence. Qed.

Lemma only_ub_for {X} lo hi (a : X) body : (forall i x, only_ub (body i x)) -> only_ub (for_ lo hi a body).
Proof.
  intros H. unfold for_. revert a. induction (zrange lo hi) as [|i l IH]; intros a; cbn [foldM]; [apply only_ub_ok|]. apply only_ub_bind; [apply H|exact IH].
Qed.

Ltac ub := repeat first [apply only_ub_ok | apply only_ub_get | apply only_ub_set | apply only_ub_for; intros | apply only_ub_bind; [|intros] | match goal with |- only_ub (if ?b then _ else _) => destruct b end].

Lemma l1_norms_only_ub half ratio option (A : parmat S) old : only_ub (l1_norms half ratio option A old).
Proof. unfold l1_norms, add_offd, add_values, first_value. ub. Qed.

(** Whatever the option, a last row without entries in the diag block is undefined. *)
Lemma l1_norms_last half ratio option (A : parmat S) old : pm_valid A -> 0 < pm_rows A -> row_entries (pm_diag A) (pm_rows A - 1) = [] ->
  l1_norms half ratio option A old = Fail FUB.
Proof.
  intros V Hr He. assert (E : exists f, l1_norms half ratio option A old = Fail f); [|destruct E as (f & E); rewrite E; f_equal; exact (l1_norms_only_ub half ratio option A old f E)].
  set (n := pm_rows A) in *. assert (F : first_value A (n - 1) = Fail FUB).
  { apply first_value_none; [exact V|lia|]. intros q Hq. fold n in Hq. replace q with (n - 1) by lia. exact He. }
  unfold l1_norms. fold n. destruct (if option =? 1 then _ else _) as [l|f]; [|exists f; reflexivity]. cbn [bind].
  rewrite (for_split 0 (n - 1) n) by lia. destruct (for_ 0 (n - 1) l _) as [l'|f]; [|exists f; reflexivity]. cbn [bind]. unfold for_ at 1. rewrite zrange_cons, zrange_empty by lia. cbn [foldM]. rewrite F. exists FUB. reflexivity.
Qed.

End Norms.

(* ---------------------------------------------------------------- in terms of the matrix *)

Lemma NoDup_map_inj {X Y} (f : X -> Y) (l : list X) : (forall a b, In a l -> In b l -> f a = f b -> a = b) -> NoDup l -> NoDup (map f l).
Proof.
  induction l as [|a l IH]; intros H N; cbn [map]; [constructor|]. inversion_clear N as [|? ? Na Nl]. constructor.
  - intros I. apply in_map_iff in I. destruct I as (b & E & Ib). apply Na. rewrite (H a b); [exact Ib|now left|now right|congruence].
  - apply IH; [|exact Nl]. intros x y Ix Iy. apply H; now right.
Qed.

Lemma NoDup_app_disjoint {X} (l1 l2 : list X) : NoDup l1 -> NoDup l2 -> (forall x, In x l1 -> In x l2 -> False) -> NoDup (l1 ++ l2).
Proof.
  intros N1 N2 D. induction l1 as [|a l1 IH]; cbn [app]; [exact N2|]. inversion_clear N1 as [|? ? Na Nl]. constructor.
  - intros I. apply in_app_iff in I. destruct I as [I|I]; [now apply Na|]. apply (D a); [now left|exact I].
  - apply IH; [exact Nl|]. intros x Hx. apply D. now right.
Qed.

Section NormValue.
Context {S : scalar}.
Notation T := (car S).
Hypothesis R : ring_laws S.

Lemma plus_all_sum (f : T -> T) a vs : plus_all f a vs = sadd a (sum_list (map f vs)).
Proof. unfold plus_all. exact (fold_left_sum_map R f vs a). Qed.

Lemma key_sum_absent (l : list (Z * T)) c : ~ In c (map fst l) -> key_sum l c = s0.
Proof.
  intros H. unfold key_sum. apply (sum_map_0 R). intros x Hx. destruct (Z.eqb_spec (fst x) c) as [E|]; [|reflexivity]. exfalso. apply H. rewrite <- E. now apply in_map.
Qed.

Lemma sum_of_columns (f : T -> T) n (l : list (Z * T)) : f s0 = s0 -> NoDup (map fst l) -> (forall x, In x l -> 0 <= fst x < n) ->
  sum_list (map (fun x => f (snd x)) l) = sum_range 0 n (fun k => f (key_sum l k)).
Proof.
  intros F0. induction l as [|[c v] l IH]; intros Nd Hc.
  - symmetry. apply (sum_range_0 R). intros k _. exact F0.
  - cbn [map fst snd] in *. inversion_clear Nd as [|? ? Nc Nl]. rewrite sum_cons, IH by (auto; intros x Hx; apply Hc; now right).
    rewrite <- (sum_range_delta R 0 n c (fun _ => f v)) by (apply (Hc (c, v)); now left). rewrite <- (sum_range_add R). apply sum_range_ext. intros k _.
    change (key_sum ((c, v) :: l) k) with (sadd (if c =? k then v else s0) (key_sum l k)). destruct (Z.eqb_spec k c) as [->|N].
    + rewrite Z.eqb_refl, (key_sum_absent l c Nc), F0. now rewrite !(sadd_0_r R).
    + destruct (Z.eqb_spec c k) as [->|_]; [congruence|]. now rewrite !(sadd_0_l R).
Qed.

Lemma l1_norms_value half ratio (A : parmat S) old : sabs (@s0 S) = s0 -> pm_valid A -> diagonal_first A ->
  exists l e, l1_norms half ratio 1 A old = Ok (l, e) /\ zlen l = pm_rows A /\
    (forall i, 0 <= i < pm_rows A -> zn s0 l i =
       let x := sum_range 0 (pm_gcols A) (fun j => sabs (pm_mat A (row0 A + i) j)) in
       if slt (pm_mat A (row0 A + i) (col0 A + i)) s0 then sopp x else x) /\
    (e = true <-> exists i, 0 <= i < pm_rows A /\ seqb (sabs (zn s0 l i)) s0 = true).
Proof.
  intros A0 V HF. assert (Hn : 0 <= pm_rows A) by exact (cv_rows (pv_diag A V)).
  assert (Hne : forall i, 0 <= i < pm_rows A -> row_entries (pm_diag A) i <> []) by (intros i Hi E; destruct (HF i Hi) as (H & _); rewrite E in H; cbn in H; lia).
  rewrite (l1_norms_ok half ratio 1 A old V Hne). eexists. eexists. split; [reflexivity|]. split; [rewrite zlen_map_zrange; lia|]. split.
  - intros i Hi. rewrite zn_map_zrange by exact Hi. destruct (HF i Hi) as (Hc & N1 & N2). unfold pm_rows in Hi.
    assert (Hi' : 0 <= i < c_rows (pm_offd A)) by (rewrite (pv_orows A V), <- (pv_drows A V); exact Hi).
    assert (C1 : forall x, In x (row_of (pm_diag A) i) -> 0 <= fst x < c_cols (pm_diag A)) by (intros x Hx; exact (row_of_cols _ i x (pv_diag A V) Hi Hx)).
    assert (C2 : forall x, In x (row_of (pm_offd A) i) -> 0 <= fst x < zlen (pm_map A)) by (intros x Hx; rewrite <- (pv_ocols A V); exact (row_of_cols _ i x (pv_offd A V) Hi' Hx)).
    pose proof (pv_crange A V) as Hcr. pose proof (pv_dcols A V) as Hdc.
    assert (E1 : row_norm half ratio 1 A old i = sum_range 0 (pm_gcols A) (fun j => sabs (pm_mat A (row0 A + i) j))).
    { unfold row_norm. cbn [Z.eqb Pos.eqb]. rewrite plus_all_sum, (sadd_0_l R).
      transitivity (sum_range 0 (pm_gcols A) (fun j => sabs (key_sum (global_row A i) j))).
      2:{ apply sum_range_ext. intros j _. unfold row0. now rewrite (pm_mat_row R). }
      rewrite <- (sum_of_columns sabs); [|exact A0| |].
      - unfold global_row, renamed, diag_values, offd_values. rewrite !map_app, !map_map. cbn [snd]. rewrite <- !row_of_entries. unfold row_to_entries. rewrite !map_map. reflexivity.
      - unfold global_row, renamed. rewrite map_app, !map_map. cbn [fst]. rewrite <- row_of_entries in N1, N2. unfold row_to_entries in N1, N2. rewrite map_map in N1, N2. cbn [ecol fst snd] in N1, N2.
        rewrite <- (map_map fst (fun c => zn 0 (pm_cs A) 0 + c)), <- (map_map fst (zn 0 (pm_map A))). apply NoDup_app_disjoint.
        + apply NoDup_map_inj; [intros a b _ _ E; lia|exact N1].
        + apply NoDup_map_inj; [|exact N2]. intros a b Ia Ib E. apply in_map_iff in Ia, Ib. destruct Ia as (x & <- & Ix). destruct Ib as (y & <- & Iy). apply C2 in Ix, Iy.
          destruct (Z.lt_trichotomy (fst x) (fst y)) as [L|[Eq|L]]; [pose proof (pv_sorted A V _ _ (conj (proj1 Ix) L) (proj2 Iy)); lia|exact Eq|pose proof (pv_sorted A V _ _ (conj (proj1 Iy) L) (proj2 Ix)); lia].
        + intros g I1 I2. apply in_map_iff in I1, I2. destruct I1 as (a & <- & Ia). destruct I2 as (b & E & Ib). apply in_map_iff in Ia, Ib. destruct Ia as (x & <- & Ix). destruct Ib as (y & <- & Iy). apply C1 in Ix. apply C2 in Iy. destruct (pv_map A V _ Iy). lia.
      - intros x Hx. unfold global_row, renamed in Hx. apply in_app_iff in Hx. unfold pm_gcols. destruct Hx as [Hx|Hx]; apply in_map_iff in Hx; destruct Hx as (y & <- & Iy); cbn [fst]; [apply C1 in Iy; lia|]. apply C2 in Iy. now apply (pv_map A V). }
    assert (E2 : leading A i = pm_mat A (row0 A + i) (col0 A + i)).
    { unfold row0, col0. rewrite (pm_mat_row R) by auto. rewrite <- row_of_entries in Hc, N1. unfold leading, diag_values. rewrite <- row_of_entries. unfold row_to_entries in *. rewrite map_map in *. cbn [ecol evalue fst snd] in *.
      unfold global_row. rewrite (key_sum_app R), <- key_sum_shift. replace (zn 0 (pm_cs A) 0 + i - zn 0 (pm_cs A) 0) with i by lia.
      rewrite (key_sum_absent (renamed _ (row_of (pm_offd A) i))).
      - destruct (row_of (pm_diag A) i) as [|[c v] l] eqn:El; cbn [map hd ecol fst snd] in *; [lia|]. subst c. inversion_clear N1 as [|? ? Nc Nl]. change (key_sum ((i, v) :: l) i) with (sadd (if i =? i then v else s0) (key_sum l i)).
        rewrite Z.eqb_refl, (key_sum_absent l i Nc). now rewrite !(sadd_0_r R).
      - intros I. unfold renamed in I. rewrite map_map in I. apply in_map_iff in I. destruct I as (y & E & Iy). cbn [fst] in E. apply C2 in Iy. destruct (pv_map A V _ Iy) as (_ & Nm). apply Nm. rewrite E.
        assert (Hic : 0 <= i < c_cols (pm_diag A)); [|lia]. destruct (row_of (pm_diag A) i) as [|[c v] l] eqn:El; cbn [map hd ecol fst snd] in *; [lia|]. subst c. apply (C1 (i, v)). now left. }
    unfold signed_norm. rewrite E1, E2. reflexivity.
  - rewrite existsb_exists. split.
    + intros (x & I & Ex). destruct (In_zn s0 _ _ I) as (i & Hi & E). rewrite zlen_map_zrange in Hi by lia. exists i. split; [lia|]. now rewrite E.
    + intros (i & Hi & E). eexists. split; [apply (zn_In s0 _ i); rewrite zlen_map_zrange; lia|exact E].
Qed.

End NormValue.
