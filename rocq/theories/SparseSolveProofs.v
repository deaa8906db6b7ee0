(** Proofs about SparseSolve.v *)

From Coq Require Import ZArith List Bool Lia Permutation.
From Verif Require Import Base Scalar Spec SumFacts Sparse LoopFacts CsrFacts Rows SparseProofs SortProofs HistoryProofs SparseSolve SparseSolveSpec.
Import ListNotations.
Open Scope Z_scope.

Section Proofs.
Context {S : scalar}.
Notation T := (car S).
Variable srt : sorter.
Hypothesis Hsrt : sorts srt.
Variable U : umfpack (S := S).

(* ---------------------------------------------------------------- live pointers *)

Definition id_of (o : option (solver (S := S))) : list Z :=
  match o with Some s => match ss_num s with Live id => [id] | _ => [] end | None => [] end.
Definition ids (os : list (option (solver (S := S)))) : list Z := flat_map id_of os.

Definition is_some {A} (o : option A) : bool := match o with Some _ => true | None => false end.
Definition live_ids (h : heap (S := S)) : list Z := filter (fun id => is_some (zn None h id)) (zrange 0 (zlen h)).

Lemma NoDup_live h : NoDup (live_ids h).
Proof. apply NoDup_filter, NoDup_zrange. Qed.

Lemma live_snoc h A : live_ids (h ++ [Some A]) = live_ids h ++ [zlen h].
Proof.
  unfold live_ids. rewrite zlen_app. change (zlen [Some A]) with 1. pose proof (zlen_nonneg h).
  rewrite (zrange_snoc 0 (zlen h + 1)) by lia. replace (zlen h + 1 - 1) with (zlen h) by lia. rewrite filter_app. f_equal.
  - apply filter_ext_in. intros id Hid. apply In_zrange in Hid. now rewrite zn_app_l by lia.
  - cbn [filter]. rewrite zn_app_r by lia. rewrite Z.sub_diag. reflexivity.
Qed.

Lemma live_free h id : 0 <= id < zlen h -> live_ids (upd h (Z.to_nat id) None) = filter (fun x => negb (x =? id)) (live_ids h).
Proof.
  intros H. unfold live_ids. rewrite zlen_upd.
  assert (G : forall l, (forall x, In x l -> 0 <= x < zlen h) ->
     filter (fun x => is_some (zn None (upd h (Z.to_nat id) None) x)) l = filter (fun x => negb (x =? id)) (filter (fun x => is_some (zn None h x)) l)).
  { induction l as [|x l IH]; intros Hl; [reflexivity|]. cbn [filter]. rewrite zn_upd by (auto; apply Hl; now left).
    rewrite IH by (intros; apply Hl; now right). destruct (Z.eqb_spec x id) as [->|Hne].
    - cbn [is_some]. destruct (is_some (zn None h id)); cbn [filter]; [rewrite Z.eqb_refl|]; reflexivity.
    - destruct (is_some (zn None h x)); cbn [filter]; [|reflexivity]. destruct (Z.eqb_spec x id); [contradiction|reflexivity]. }
  apply G. intros x Hx. now apply In_zrange in Hx.
Qed.

Lemma ids_upd : forall os i o, (i < length os)%nat -> Permutation (ids (upd os i o)) (id_of o ++ ids (upd os i None)).
Proof.
  unfold ids. induction os as [|a os IH]; intros i o Hi; cbn [length] in Hi; [lia|].
  destruct i as [|i]; cbn [upd flat_map]; [cbn [id_of app]; reflexivity|].
  rewrite (IH i o) by lia. rewrite !app_assoc. apply Permutation_app_tail, Permutation_app_comm.
Qed.

Lemma ids_get os i s : get os i = Ok (Some s) -> Permutation (ids os) (id_of (Some s) ++ ids (upd os (Z.to_nat i) None)).
Proof.
  intros H. apply (get_Ok_inv None) in H. destruct H as (Hi & E).
  rewrite <- (upd_zn_same None os i) at 1. rewrite <- E. apply ids_upd. unfold zlen in Hi. lia.
Qed.

(* ---------------------------------------------------------------- the invariant *)

Record sinv (st : sstate (S := S)) : Prop := {
  si_own : forall i s, get (fst st) i = Ok (Some s) -> exists id, ss_num s = Live id /\ get (snd st) id = Ok (Some (ss_A s));
  si_factor : forall i s, get (fst st) i = Ok (Some s) -> 0 < nnz (ss_A s) /\ umf_factor U (ss_A s) = true;
  si_ids : Permutation (ids (fst st)) (live_ids (snd st))
}.

Lemma sinv_init : sinv ([], []).
Proof.
  split; cbn [fst snd].
  - intros i s H. apply (get_Ok_inv None) in H. destruct H as (H & _). change (zlen (@nil (option (solver (S := S))))) with 0 in H. lia.
  - intros i s H. apply (get_Ok_inv None) in H. destruct H as (H & _). change (zlen (@nil (option (solver (S := S))))) with 0 in H. lia.
  - reflexivity.
Qed.

Lemma obj_Ok os i (s : solver (S := S)) : obj os i = Ok s <-> get os i = Ok (Some s).
Proof.
  unfold obj. destruct (get os i) as [[x|]|]; cbn [bind]; split; intros H; try congruence.
Qed.

Lemma get_snoc {A} (l : list A) a i x : get (l ++ [a]) i = Ok x -> get l i = Ok x \/ (i = zlen l /\ x = a).
Proof.
  intros H. apply (get_Ok_inv a) in H. destruct H as (Hi & E). rewrite zlen_app in Hi. change (zlen [a]) with 1 in Hi.
  destruct (Z_lt_dec i (zlen l)).
  - left. rewrite (get_ok a) by lia. rewrite zn_app_l in E by lia. now rewrite E.
  - right. assert (i = zlen l) by lia. subst. split; [reflexivity|]. rewrite zn_app_r by lia. now rewrite Z.sub_diag.
Qed.

Lemma get_snoc_l {A} (l : list A) a i x : get l i = Ok x -> get (l ++ [a]) i = Ok x.
Proof.
  intros H. apply (get_Ok_inv a) in H. destruct H as (Hi & E). rewrite (get_ok a) by (rewrite zlen_app; change (zlen [a]) with 1; lia).
  rewrite zn_app_l by lia. now rewrite E.
Qed.

Lemma get_upd {A} (l : list A) i j a x : 0 <= i < zlen l -> get (upd l (Z.to_nat i) a) j = Ok x -> (j = i /\ x = a) \/ (j <> i /\ get l j = Ok x).
Proof.
  intros Hi H. apply (get_Ok_inv a) in H. destruct H as (Hj & E). rewrite zlen_upd in Hj. rewrite zn_upd in E by lia.
  destruct (Z.eqb_spec j i); [left; auto|right]. split; [assumption|]. rewrite (get_ok a) by lia. now rewrite E.
Qed.

Lemma get_upd_ne {A} (l : list A) i j a x : 0 <= i < zlen l -> j <> i -> get l j = Ok x -> get (upd l (Z.to_nat i) a) j = Ok x.
Proof.
  intros Hi Hne H. apply (get_Ok_inv a) in H. destruct H as (Hj & E). rewrite (get_ok a) by (rewrite zlen_upd; lia).
  rewrite zn_upd by lia. destruct (Z.eqb_spec j i); [contradiction|]. now rewrite E.
Qed.

(** A new object with its own factorisation. *)
Lemma sinv_add os h (A : csr S) : sinv (os, h) -> 0 < nnz A -> umf_factor U A = true ->
  sinv (os ++ [Some (Solver A (Live (zlen h)))], h ++ [Some A]).
Proof.
  intros [I1 I2 I3] Hn Hf. cbn [fst snd] in *. split; cbn [fst snd].
  - intros i s H. apply get_snoc in H. destruct H as [H|(-> & [= ->])].
    + destruct (I1 i s H) as (id & E1 & E2). exists id. split; [exact E1|]. now apply get_snoc_l.
    + exists (zlen h). split; [reflexivity|]. cbn [ss_A]. rewrite (get_ok None).
      * rewrite zn_app_r by lia. now rewrite Z.sub_diag.
      * rewrite zlen_app. change (zlen [Some A]) with 1. pose proof (zlen_nonneg h). lia.
  - intros i s H. apply get_snoc in H. destruct H as [H|(-> & [= ->])]; [eauto|]. cbn. auto.
  - unfold ids. rewrite flat_map_app. cbn [flat_map id_of ss_num app]. rewrite live_snoc. now apply Permutation_app_tail.
Qed.

(** Replacing the objects of two disjoint slots... the end of an object. *)
Lemma sinv_destroy os h i s : sinv (os, h) -> get os i = Ok (Some s) ->
  exists h', ss_destroy s h = Ok h' /\ sinv (upd os (Z.to_nat i) None, h').
Proof.
  intros [I1 I2 I3] H. cbn [fst snd] in *. pose proof H as H'. apply (get_Ok_inv None) in H'. destruct H' as (Hi & _).
  destruct (I1 i s H) as (id & E1 & E2). pose proof E2 as E2'. apply (get_Ok_inv None) in E2'. destruct E2' as (Hid & _).
  unfold ss_destroy. rewrite E1, E2. cbn [bind]. rewrite set_ok by exact Hid. eexists. split; [reflexivity|].
  pose proof (ids_get os i s H) as P. cbn [id_of] in P. rewrite E1 in P. cbn [app] in P.
  assert (P' : Permutation (id :: ids (upd os (Z.to_nat i) None)) (live_ids h)) by (rewrite <- P; exact I3).
  assert (ND : NoDup (id :: ids (upd os (Z.to_nat i) None))) by (eapply Permutation_NoDup; [symmetry; exact P'|apply NoDup_live]).
  inversion ND as [|? ? Hnotin ND']; subst.
  split; cbn [fst snd].
  - intros j t Ht. apply get_upd in Ht; [|exact Hi]. destruct Ht as [(_ & [=])|(Hne & Ht)].
    destruct (I1 j t Ht) as (id' & F1 & F2). exists id'. split; [exact F1|]. apply get_upd_ne; [exact Hid| |exact F2].
    intros ->. apply Hnotin. unfold ids. apply in_flat_map. exists (Some t). split; [|cbn [id_of]; rewrite F1; now left].
    pose proof (get_upd_ne os i j None (Some t) Hi Hne Ht) as G. apply (get_Ok_inv None) in G. destruct G as (Gr & ->). now apply zn_In.
  - intros j t Ht. apply get_upd in Ht; [|exact Hi]. destruct Ht as [(_ & [=])|(Hne & Ht)]. eauto.
  - rewrite live_free by exact Hid. transitivity (filter (fun x => negb (x =? id)) (id :: ids (upd os (Z.to_nat i) None))).
    + cbn [filter]. rewrite Z.eqb_refl. cbn [negb]. rewrite filter_all; [reflexivity|]. intros x Hx. apply negb_true_iff, Z.eqb_neq. intros ->. contradiction.
    + clear -P'. induction P' as [|x l l' HP IH|x y l|l l' l'' HP1 IH1 HP2 IH2]; cbn [filter].
      * reflexivity.
      * destruct (negb (x =? id)); auto.
      * destruct (negb (x =? id)), (negb (y =? id)); try reflexivity. apply perm_swap.
      * etransitivity; eauto.
Qed.

Lemma upd_comm {A} (l : list A) : forall i j a b, i <> j -> upd (upd l i a) j b = upd (upd l j b) i a.
Proof.
  induction l as [|x l IH]; intros i j a b H; [reflexivity|]. destruct i, j; try reflexivity; [lia|]. cbn [upd]. f_equal. apply IH. lia.
Qed.

Lemma upd_upd {A} (l : list A) : forall i a b, upd (upd l i a) i b = upd l i b.
Proof. induction l as [|x l IH]; intros i a b; [reflexivity|]. destruct i; [reflexivity|]. cbn [upd]. f_equal. apply IH. Qed.

Lemma sinv_swap os h i j a b : sinv (os, h) -> get os i = Ok (Some a) -> get os j = Ok (Some b) ->
  sinv (upd (upd os (Z.to_nat i) (Some b)) (Z.to_nat j) (Some a), h).
Proof.
  intros [I1 I2 I3] Ha Hb. cbn [fst snd] in *.
  pose proof Ha as Ga. apply (get_Ok_inv None) in Ga. destruct Ga as (Hi & Ea).
  pose proof Hb as Gb. apply (get_Ok_inv None) in Gb. destruct Gb as (Hj & Eb).
  assert (In1 : forall k t, get (upd (upd os (Z.to_nat i) (Some b)) (Z.to_nat j) (Some a)) k = Ok (Some t) -> exists k', get os k' = Ok (Some t)).
  { intros k t H. apply get_upd in H; [|rewrite zlen_upd; exact Hj]. destruct H as [(_ & [= ->])|(_ & H)]; [eauto|].
    apply get_upd in H; [|exact Hi]. destruct H as [(_ & [= ->])|(_ & H)]; eauto. }
  split; cbn [fst snd].
  - intros k t H. destruct (In1 k t H) as (k' & H'). eauto.
  - intros k t H. destruct (In1 k t H) as (k' & H'). eauto.
  - rewrite <- I3. destruct (Z.eq_dec i j) as [->|Hne].
    + assert (a = b) by congruence. subst b. rewrite Ea. rewrite (upd_zn_same None). rewrite (upd_zn_same None). reflexivity.
    + unfold zlen in Hi, Hj.
      rewrite (ids_upd (upd os (Z.to_nat i) (Some b)) (Z.to_nat j) (Some a)) by (rewrite upd_length; lia). rewrite (upd_comm os) by lia.
      assert (Hx : Permutation (ids (upd (upd os (Z.to_nat j) None) (Z.to_nat i) (Some b))) (id_of (Some b) ++ ids (upd (upd os (Z.to_nat j) None) (Z.to_nat i) None)))
        by (apply ids_upd; rewrite upd_length; lia).
      rewrite Hx. rewrite (ids_get os j b Hb).
      assert (Ha' : get (upd os (Z.to_nat j) None) i = Ok (Some a)) by (apply get_upd_ne; auto; unfold zlen; lia).
      rewrite (ids_get _ i a Ha'). rewrite !app_assoc. apply Permutation_app_tail, Permutation_app_comm.
Qed.

Lemma sinv_copy os h s i : sinv (os, h) -> get os i = Ok (Some s) ->
  ss_copy U s h = Ok (Solver (ss_A s) (Live (zlen h)), h ++ [Some (ss_A s)]).
Proof.
  intros [I1 I2 I3] H. destruct (I2 i s H) as (Hn & Hf). unfold ss_copy, ss_init. change (sp_nnz (ss_A s)) with (nnz (ss_A s)).
  destruct (Z.ltb_spec 0 (nnz (ss_A s))); [|lia]. destruct (Z.eqb_spec (nnz (ss_A s)) 0); [lia|]. rewrite Hf. reflexivity.
Qed.

Lemma upd_snoc {A} (l : list A) a b i : (i < length l)%nat -> upd (l ++ [b]) i a = upd l i a ++ [b].
Proof.
  revert i. induction l as [|x l IH]; intros i Hi; cbn [length] in Hi; [lia|]. destruct i; [reflexivity|]. cbn [app upd]. f_equal. apply IH. lia.
Qed.

Lemma upd_snoc_last {A} (l : list A) a b : upd (l ++ [b]) (length l) a = l ++ [a].
Proof. induction l as [|x l IH]; [reflexivity|]. cbn [app length upd]. f_equal. exact IH. Qed.

(** An empty slot at the end makes no difference. *)
Lemma sinv_shrink os h : sinv (os ++ [None], h) -> sinv (os, h).
Proof.
  intros [I1 I2 I3]. cbn [fst snd] in *. split; cbn [fst snd].
  - intros i s H. apply (I1 i), get_snoc_l, H.
  - intros i s H. apply (I2 i), get_snoc_l, H.
  - unfold ids in *. rewrite flat_map_app in I3. cbn [flat_map id_of app] in I3. now rewrite app_nil_r in I3.
Qed.

Lemma sstep_inv st op : sinv st -> no_move op -> proper op -> scoped (fst st) op ->
  (exists st', sstep srt U st op = Ok st' /\ sinv st') \/ (exists A, op = SNew A /\ sstep srt U st op = Fail FAssert).
Proof.
  destruct st as (os & h). intros I Hm He Hs. cbn [fst] in Hs. destruct op as [A| |i|i|i j|i j|i j|i]; cbn [sstep no_move proper scoped] in *; try contradiction.
  - destruct He as (V & Hn & _). unfold ss_make. change (sp_nnz A) with (nnz A).
    destruct (Z.eqb_spec (c_rows A) (c_cols A)); [|right; exists A; split; reflexivity]. cbn [assert_ bind].
    destruct (Z.ltb_spec 0 (nnz A)); [|lia].
    destruct (sp_sort_spec srt Hsrt A V) as (B & EB & VB & _ & Hr & Hc & Hp & Hent). rewrite EB. cbn [bind]. unfold ss_init. change (sp_nnz B) with (nnz B).
    assert (HnB : nnz B = nnz A).
    { rewrite <- !entries_length by assumption. unfold zlen. f_equal. symmetry. apply Permutation_length, same_entries_perm.
      split; [exact Hr|]. split; [exact Hc|]. split; [exact Hp|exact Hent]. }
    rewrite HnB. destruct (Z.eqb_spec (nnz A) 0); [lia|]. cbn [negb assert_ bind].
    destruct (umf_factor U B) eqn:Ef; [|right; exists A; split; reflexivity]. cbn [assert_ bind].
    left. eexists. split; [reflexivity|]. apply sinv_add; auto. lia.
  - destruct Hs as (s & Es). rewrite Es. cbn [bind]. apply obj_Ok in Es. rewrite (sinv_copy os h s i I Es). cbn [bind].
    left. eexists. split; [reflexivity|]. destruct (si_factor _ I i s Es). apply sinv_add; auto.
  - destruct Hs as ((t & Et) & (s & Es)). rewrite Et, Es. cbn [bind]. apply obj_Ok in Es, Et. rewrite (sinv_copy os h s j I Es). cbn [bind].
    pose proof Et as Et'. apply (get_Ok_inv None) in Et'. destruct Et' as (Hi & _).
    rewrite set_ok by exact Hi. cbn [bind].
    destruct (si_factor _ I j s Es) as (Hn & Hf).
    pose proof (sinv_add os h (ss_A s) I Hn Hf) as I1. set (c := Solver (ss_A s) (Live (zlen h))) in *.
    assert (Hc : get (os ++ [Some c]) (zlen os) = Ok (Some c)).
    { rewrite (get_ok None); [rewrite zn_app_r by lia; now rewrite Z.sub_diag|]. rewrite zlen_app. change (zlen [Some c]) with 1. pose proof (zlen_nonneg os). lia. }
    assert (Ht : get (os ++ [Some c]) i = Ok (Some t)) by now apply get_snoc_l.
    pose proof (sinv_swap _ _ i (zlen os) t c I1 Ht Hc) as I2.
    rewrite upd_snoc in I2 by (unfold zlen in Hi; lia).
    replace (Z.to_nat (zlen os)) with (length (upd os (Z.to_nat i) (Some c))) in I2 by (rewrite upd_length; unfold zlen; lia).
    rewrite upd_snoc_last in I2.
    assert (Hlast : get (upd os (Z.to_nat i) (Some c) ++ [Some t]) (zlen os) = Ok (Some t)).
    { rewrite (get_ok None); [rewrite zn_app_r by (rewrite zlen_upd; lia); now rewrite zlen_upd, Z.sub_diag|]. rewrite zlen_app, zlen_upd. change (zlen [Some t]) with 1. pose proof (zlen_nonneg os). lia. }
    destruct (sinv_destroy _ _ _ t I2 Hlast) as (h' & -> & I3). cbn [bind]. left. eexists. split; [reflexivity|].
    replace (Z.to_nat (zlen os)) with (length (upd os (Z.to_nat i) (Some c))) in I3 by (rewrite upd_length; unfold zlen; lia).
    rewrite upd_snoc_last in I3. now apply sinv_shrink.
  - destruct Hs as ((a & Ea) & (b & Eb)). rewrite Ea, Eb. cbn [bind]. apply obj_Ok in Ea, Eb.
    pose proof Ea as Ga. apply (get_Ok_inv None) in Ga. destruct Ga as (Hi & _).
    pose proof Eb as Gb. apply (get_Ok_inv None) in Gb. destruct Gb as (Hj & _).
    rewrite set_ok by exact Hi. cbn [bind]. rewrite set_ok by (rewrite zlen_upd; exact Hj). cbn [bind].
    left. eexists. split; [reflexivity|]. now apply sinv_swap.
  - destruct Hs as (s & Es). rewrite Es. cbn [bind]. apply obj_Ok in Es.
    pose proof Es as Gs. apply (get_Ok_inv None) in Gs. destruct Gs as (Hi & _).
    destruct (sinv_destroy os h i s I Es) as (h' & -> & I'). cbn [bind]. rewrite set_ok by exact Hi. cbn [bind].
    left. eexists. split; [reflexivity|exact I'].
Qed.

Lemma srun_inv ops : forall st0 st, sinv st0 -> Forall no_move ops -> Forall proper ops -> foldM (sstep srt U) ops st0 = Ok st -> sinv st.
Proof.
  induction ops as [|op ops IH]; intros st0 st I F1 F2 E; cbn [foldM] in E; [injection E as <-; exact I|].
  apply bind_Ok in E. destruct E as (st1 & E1 & E2). inversion F1; inversion F2; subst.
  eapply IH; [|eassumption|eassumption|exact E2].
  destruct (sstep_inv st0 op I) as [(st' & E' & I')|(A & _ & E')]; auto; [|congruence|congruence].
  destruct st0 as (os & h). destruct op; cbn [sstep scoped fst] in *; auto.
  - apply bind_Ok in E1. destruct E1 as (s & Es & _). eauto.
  - apply bind_Ok in E1. destruct E1 as (s & Es & _). eauto.
  - apply bind_Ok in E1. destruct E1 as (s & Es & E1). apply bind_Ok in E1. destruct E1 as (t & Et & _). split; eauto.
  - contradiction.
  - apply bind_Ok in E1. destruct E1 as (s & Es & E1). apply bind_Ok in E1. destruct E1 as (t & Et & _). split; eauto.
  - apply bind_Ok in E1. destruct E1 as (s & Es & _). eauto.
Qed.

(* ---------------------------------------------------------------- the matrices the objects stand for *)

Definition stands_for (o : option (solver (S := S))) (v : option (csr S)) : Prop :=
  match o, v with
  | None, None => True
  | Some s, Some A => csr_valid A /\ csr_valid (ss_A s) /\ c_rows (ss_A s) = c_cols (ss_A s) /\ rows_sorted (ss_A s) /\
                      no_dup_coords (entries A) /\ same_entries A (ss_A s)
  | _, _ => False
  end.

Lemma Forall2_upd {X Y} (P : X -> Y -> Prop) l1 l2 i x y : Forall2 P l1 l2 -> P x y -> Forall2 P (upd l1 i x) (upd l2 i y).
Proof.
  intros F Hp. revert i. induction F; intros i; cbn [upd]; [constructor|]. destruct i; constructor; auto.
Qed.

Lemma Forall2_get {X Y} (P : X -> Y -> Prop) l1 l2 i x dy : Forall2 P l1 l2 -> get l1 i = Ok x -> P x (zn dy l2 i).
Proof.
  intros F. unfold get, zn. destruct (i <? 0); [discriminate|]. generalize (Z.to_nat i). clear i.
  induction F; intros n Hg; destruct n; cbn in *; try discriminate; [injection Hg as <-; assumption|]. now apply IHF.
Qed.

Lemma Forall2_zlen {X Y} (P : X -> Y -> Prop) l1 l2 : Forall2 P l1 l2 -> zlen l1 = zlen l2.
Proof. induction 1; [reflexivity|]. rewrite !zlen_cons. lia. Qed.

Lemma sstep_tracks os h vs op os' h' : Forall2 stands_for os vs -> no_move op -> proper op ->
  sstep srt U (os, h) op = Ok (os', h') -> Forall2 stands_for os' (vstep vs op).
Proof.
  intros F Hm Hp E. destruct op as [A| |i|i|i j|i j|i j|i]; cbn [sstep no_move proper vstep] in *; try contradiction.
  - apply bind_Ok in E. destruct E as ((s & h1) & E1 & [= <- <-]). apply Forall2_app; [exact F|]. constructor; [|constructor].
    destruct Hp as (V & Hn & Hd). unfold ss_make in E1. apply bind_Ok in E1. destruct E1 as ([] & Ea & E1). apply assert_Ok in Ea. apply Z.eqb_eq in Ea.
    change (sp_nnz A) with (nnz A) in E1. destruct (Z.ltb_spec 0 (nnz A)); [|lia].
    destruct (sp_sort_spec srt Hsrt A V) as (B & EB & VB & SB & HB). rewrite EB in E1. cbn [bind] in E1.
    apply bind_Ok in E1. destruct E1 as ((n & h2) & _ & [= <- <-]). cbn [stands_for ss_A].
    split; [exact V|]. split; [exact VB|]. split; [destruct HB as (-> & -> & _); exact Ea|]. auto.
  - apply bind_Ok in E. destruct E as (s & Es & E). apply bind_Ok in E. destruct E as ((c & h1) & Ec & [= <- <-]).
    apply Forall2_app; [exact F|]. constructor; [|constructor]. apply obj_Ok in Es. pose proof (Forall2_get _ _ _ i _ None F Es) as H.
    unfold ss_copy in Ec. destruct (0 <? sp_nnz (ss_A s)).
    + apply bind_Ok in Ec. destruct Ec as ((n & h2) & _ & [= <- <-]). exact H.
    + injection Ec as <- <-. exact H.
  - apply bind_Ok in E. destruct E as (t & Et & E). apply bind_Ok in E. destruct E as (s & Es & E).
    apply bind_Ok in E. destruct E as ((c & h1) & Ec & E). apply bind_Ok in E. destruct E as (os1 & Eo & E). apply bind_Ok in E. destruct E as (h2 & _ & [= <- <-]).
    unfold set in Eo. destruct ((0 <=? i) && (i <? zlen os)); [|discriminate]. injection Eo as <-. apply Forall2_upd; [exact F|].
    apply obj_Ok in Es. pose proof (Forall2_get _ _ _ j _ None F Es) as H.
    unfold ss_copy in Ec. destruct (0 <? sp_nnz (ss_A s)).
    + apply bind_Ok in Ec. destruct Ec as ((n & h3) & _ & [= <- <-]). exact H.
    + injection Ec as <- <-. exact H.
  - apply bind_Ok in E. destruct E as (a & Ea & E). apply bind_Ok in E. destruct E as (b & Eb & E).
    apply bind_Ok in E. destruct E as (os1 & Eo & E). apply bind_Ok in E. destruct E as (os2 & Eo2 & [= <- <-]).
    unfold set in Eo, Eo2. destruct ((0 <=? i) && (i <? zlen os)); [|discriminate]. injection Eo as <-.
    destruct ((0 <=? j) && (j <? _)); [|discriminate]. injection Eo2 as <-.
    apply obj_Ok in Ea, Eb. repeat apply Forall2_upd; [exact F| |].
    + exact (Forall2_get _ _ _ j _ None F Eb).
    + exact (Forall2_get _ _ _ i _ None F Ea).
  - apply bind_Ok in E. destruct E as (s & Es & E). apply bind_Ok in E. destruct E as (h1 & _ & E). apply bind_Ok in E. destruct E as (os1 & Eo & [= <- <-]).
    unfold set in Eo. destruct ((0 <=? i) && (i <? zlen os)); [|discriminate]. injection Eo as <-. apply Forall2_upd; [exact F|exact I].
Qed.

Lemma srun_tracks ops : forall os h vs st, Forall2 stands_for os vs -> Forall no_move ops -> Forall proper ops ->
  foldM (sstep srt U) ops (os, h) = Ok st -> Forall2 stands_for (fst st) (fold_left vstep ops vs).
Proof.
  induction ops as [|op ops IH]; intros os h vs st F F1 F2 E; cbn [foldM] in E; [injection E as <-; exact F|].
  apply bind_Ok in E. destruct E as ((os1 & h1) & E1 & E2). inversion F1; inversion F2; subst. cbn [fold_left].
  eapply IH; [eapply sstep_tracks; eassumption|assumption|assumption|exact E2].
Qed.

(* ---------------------------------------------------------------- alive factorisations *)

Definition fval (h : heap (S := S)) (id : Z) : csr S := match zn None h id with Some F => F | None => sp_empty end.

Lemma alive_ids h : alive h = map (fval h) (live_ids h).
Proof.
  unfold alive. rewrite <- (map_zn_zrange None h) at 1. unfold live_ids. generalize (zrange 0 (zlen h)) as l.
  induction l as [|x l IH]; [reflexivity|]. cbn [map flat_map filter]. rewrite IH.
  destruct (zn None h x) eqn:E; cbn [is_some map app]; [|reflexivity]. unfold fval at 2. now rewrite E.
Qed.

Lemma objects_ids os h : sinv (os, h) -> objects os = map (fval h) (ids os).
Proof.
  intros [I1 _ _]. cbn [fst snd] in I1. unfold objects, ids.
  assert (G : forall l, (forall x, In x l -> 0 <= x < zlen os) ->
     flat_map (fun o => match o with Some s => [ss_A s] | None => [] end) (map (zn None os) l) = map (fval h) (flat_map id_of (map (zn None os) l))).
  { induction l as [|x l IH]; intros Hl; [reflexivity|]. cbn [map flat_map]. rewrite map_app, IH by (intros; apply Hl; now right). f_equal.
    destruct (zn None os x) as [s|] eqn:E; [|reflexivity].
    destruct (I1 x s) as (id & E1 & E2); [rewrite (get_ok None) by (apply Hl; now left); now rewrite E|].
    cbn [id_of]. rewrite E1. cbn [map]. unfold fval. apply (get_Ok_inv None) in E2. destruct E2 as (_ & <-). reflexivity. }
  pose proof (G (zrange 0 (zlen os)) (fun x Hx => proj1 (In_zrange _ _ _) Hx)) as G1. now rewrite map_zn_zrange in G1.
Qed.

Lemma owned ops os h : Forall no_move ops -> Forall proper ops -> srun srt U ops = Ok (os, h) -> Permutation (objects os) (alive h).
Proof.
  intros F1 F2 E. pose proof (srun_inv ops _ _ sinv_init F1 F2 E) as I.
  rewrite (objects_ids os h I), alive_ids. apply Permutation_map. exact (si_ids _ I).
Qed.

(** From a state that can be reached, an operation on living objects goes through; only a new
    matrix can be rejected (by an assertion). *)
Lemma history_safe ops st op : Forall no_move ops -> Forall proper ops -> srun srt U ops = Ok st ->
  no_move op -> proper op -> scoped (fst st) op ->
  (exists st', sstep srt U st op = Ok st') \/ (exists A, op = SNew A /\ sstep srt U st op = Fail FAssert).
Proof.
  intros F1 F2 E H1 H2 H3. pose proof (srun_inv ops _ _ sinv_init F1 F2 E) as I.
  destruct (sstep_inv st op I H1 H2 H3) as [(st' & E' & _)|H]; [left; eauto|right; exact H].
Qed.

(* ---------------------------------------------------------------- solving *)

Lemma apply_solves ops os h i A : ring_laws S -> umfpack_ok U -> Forall no_move ops -> Forall proper ops -> srun srt U ops = Ok (os, h) ->
  zn None (vrun ops) i = Some A -> 0 <= i < zlen (vrun ops) ->
  exists s, obj os i = Ok s /\
  forall b out, zlen b = c_rows A -> zlen out = c_rows A ->
    (exists x, ss_mult U s h b out = Ok x /\ solves (c_rows A) (csr_mat A) x b) /\
    (exists x, ss_multAT U s h b out = Ok x /\ solves (c_rows A) (mat_T (csr_mat A)) x b).
Proof.
  intros R HU F1 F2 E Ev Hi. pose proof (srun_inv ops _ _ sinv_init F1 F2 E) as I.
  pose proof (srun_tracks ops [] [] [] _ (Forall2_nil _) F1 F2 E) as Tr. cbn [fst] in Tr. change (fold_left vstep ops []) with (vrun ops) in Tr.
  pose proof (Forall2_zlen _ _ _ Tr) as Hlen.
  assert (Hg : get os i = Ok (zn None os i)) by (apply get_ok; lia).
  pose proof (Forall2_get _ _ _ i _ None Tr Hg) as Hs. rewrite Ev in Hs. destruct (zn None os i) as [s|] eqn:Eo; [|contradiction].
  destruct Hs as (VA & VB & Hsq & Hsort & Hd & Hsame). exists s. split; [apply obj_Ok; exact Hg|].
  destruct (si_own _ I i s Hg) as (id & E1 & E2). cbn [snd] in E2. destruct (si_factor _ I i s Hg) as (Hn & Hf).
  destruct Hsame as (Hr & Hc & Hrest).
  assert (Hsame : same_entries A (ss_A s)) by (split; [exact Hr|]; split; [exact Hc|exact Hrest]).
  assert (HdB : no_dup_coords (entries (ss_A s))).
  { unfold no_dup_coords in *. eapply Permutation_NoDup; [|exact Hd]. apply Permutation_map, same_entries_perm, Hsame. }
  assert (Hm : forall a b, csr_mat (ss_A s) a b = csr_mat A a b) by (intros; now apply same_entries_mat).
  intros b out Hb Hout. destruct (HU (ss_A s) VB Hsq Hsort HdB Hf b ltac:(lia)) as ((x & Ex & Sx) & (y & Ey & Sy)).
  unfold ss_mult, ss_multAT, ss_apply.
  assert (Hrc : c_cols (ss_A s) = c_rows A) by lia. rewrite Hrc, Hr, Hb, Hout, !Z.eqb_refl. cbn [assert_ bind].
  rewrite E1, E2. cbn [bind]. rewrite Ex, Ey. rewrite Hr in Sx, Sy. split.
  - exists y. split; [reflexivity|]. destruct Sy as (Ly & Sy). split; [exact Ly|]. intros k Hk. rewrite <- Sy by exact Hk.
    unfold mat_vec, mat_T, csc_mat. apply sum_range_ext. intros j Hj. now rewrite Hm.
  - exists x. split; [reflexivity|]. destruct Sx as (Lx & Sx). split; [exact Lx|]. intros k Hk. rewrite <- Sx by exact Hk.
    unfold mat_vec, mat_T, csc_mat. apply sum_range_ext. intros j Hj. now rewrite Hm.
Qed.

(* ---------------------------------------------------------------- what goes wrong *)

(** Whatever comes before, an object that was moved from cannot be destroyed. *)
Lemma moved_from_destroyed st st1 i : sstep srt U st (SMove i) = Ok st1 -> sstep srt U st1 (SDestroy i) = Fail FUB.
Proof.
  destruct st as (os & h). cbn [sstep ss_move]. intros E. apply bind_Ok in E. destruct E as (s & Es & E).
  apply bind_Ok in E. destruct E as (os1 & Eo & [= <-]). apply obj_Ok in Es. apply (get_Ok_inv None) in Es. destruct Es as (Hi & _).
  rewrite set_ok in Eo by exact Hi. injection Eo as <-. cbn [sstep].
  assert (G : obj (upd os (Z.to_nat i) (Some (Solver sp_empty Garbage)) ++ [Some s]) i = Ok (Solver sp_empty Garbage)).
  { apply obj_Ok. rewrite (get_ok None) by (rewrite zlen_app, zlen_upd; change (zlen [Some s]) with 1; lia).
    rewrite zn_app_l by (rewrite zlen_upd; lia). rewrite zn_upd by lia. now rewrite Z.eqb_refl. }
  rewrite G. reflexivity.
Qed.

(** The move constructor and move assignment hand the solver over; what they leave behind cannot be
    destroyed, and neither can an object assigned to itself by a move. *)
Lemma moved st st1 i : sstep srt U st (SMove i) = Ok st1 ->
  obj (fst st1) (zlen (fst st)) = obj (fst st) i /\ snd st1 = snd st.
Proof.
  destruct st as (os & h). cbn [sstep ss_move]. intros E. apply bind_Ok in E. destruct E as (s & Es & E).
  apply bind_Ok in E. destruct E as (os1 & Eo & [= <-]). cbn [fst snd]. split; [|reflexivity].
  rewrite Es. apply obj_Ok in Es. apply (get_Ok_inv None) in Es. destruct Es as (Hi & _).
  rewrite set_ok in Eo by exact Hi. injection Eo as <-. apply obj_Ok.
  rewrite (get_ok None) by (rewrite zlen_app, zlen_upd; change (zlen [Some s]) with 1; pose proof (zlen_nonneg os); lia).
  f_equal. unfold zn, zlen. rewrite app_nth2; rewrite upd_length; [|lia]. rewrite Nat2Z.id, Nat.sub_diag. reflexivity.
Qed.

Lemma move_assigned st st1 i j : sstep srt U st (SMoveAssign i j) = Ok st1 ->
  i <> j /\ obj (fst st1) i = obj (fst st) j /\ sstep srt U st1 (SDestroy j) = Fail FUB /\
  exists t, obj (fst st) i = Ok t /\ ss_destroy t (snd st) = Ok (snd st1).
Proof.
  destruct st as (os & h). cbn [sstep ss_move]. intros E. apply bind_Ok in E. destruct E as (s & Es & E).
  pose proof Es as Ks. apply obj_Ok in Ks. apply (get_Ok_inv None) in Ks. destruct Ks as (Hj & _).
  apply bind_Ok in E. destruct E as (os1 & Eo & E). rewrite set_ok in Eo by exact Hj. injection Eo as <-.
  apply bind_Ok in E. destruct E as (t & Et & E). pose proof Et as Kt. apply obj_Ok in Kt. apply (get_Ok_inv None) in Kt.
  destruct Kt as (Hi & Kt). rewrite zlen_upd in Hi. rewrite zn_upd in Kt by lia.
  apply bind_Ok in E. destruct E as (os2 & Eo & E). rewrite set_ok in Eo by (rewrite zlen_upd; exact Hi). injection Eo as <-.
  apply bind_Ok in E. destruct E as (h2 & Eh & [= <-]). cbn [fst snd].
  destruct (Z.eqb_spec i j) as [->|N]; [injection Kt as Kt; subst t; cbn in Eh; discriminate Eh|].
  assert (L : zlen (upd (upd os (Z.to_nat j) (Some (Solver sp_empty Garbage))) (Z.to_nat i) (Some s)) = zlen os) by now rewrite !zlen_upd.
  split; [exact N|]. split; [|split].
  - rewrite Es. apply obj_Ok. rewrite (get_ok None) by (rewrite L; lia). rewrite zn_upd by (rewrite ?zlen_upd; lia).
    now rewrite Z.eqb_refl.
  - cbn [sstep]. assert (G : obj (upd (upd os (Z.to_nat j) (Some (Solver sp_empty Garbage))) (Z.to_nat i) (Some s)) j = Ok (Solver sp_empty Garbage)).
    { apply obj_Ok. rewrite (get_ok None) by (rewrite L; lia). rewrite zn_upd by (rewrite ?zlen_upd; lia).
      destruct (Z.eqb_spec j i); [congruence|]. rewrite zn_upd by lia. now rewrite Z.eqb_refl. }
    rewrite G. reflexivity.
  - exists t. split; [|exact Eh]. apply obj_Ok. rewrite (get_ok None) by lia. now rewrite <- Kt.
Qed.

Lemma self_moved st i s : obj (fst st) i = Ok s -> sstep srt U st (SMoveAssign i i) = Fail FUB.
Proof.
  destruct st as (os & h). cbn [fst sstep ss_move]. intros Es. rewrite Es. cbn [bind].
  apply obj_Ok in Es. apply (get_Ok_inv None) in Es. destruct Es as (Hi & _). rewrite set_ok by exact Hi. cbn [bind].
  assert (G : obj (upd os (Z.to_nat i) (Some (Solver sp_empty Garbage))) i = Ok (Solver sp_empty Garbage)).
  { apply obj_Ok. rewrite (get_ok None) by (rewrite zlen_upd; lia). rewrite zn_upd by lia. now rewrite Z.eqb_refl. }
  rewrite G. cbn [bind]. rewrite set_ok by (rewrite zlen_upd; exact Hi). reflexivity.
Qed.

(** A copy of a solver without stored entries can be neither applied nor destroyed. *)
Lemma copy_of_empty s h s' h' : nnz (ss_A s) = 0 -> ss_copy U s h = Ok (s', h') ->
  ss_destroy s' h' = Fail FUB /\ forall b out, zlen b = c_cols (ss_A s) -> zlen out = c_rows (ss_A s) -> ss_mult U s' h' b out = Fail FUB.
Proof.
  intros Hn E. unfold ss_copy in E. change (sp_nnz (ss_A s)) with (nnz (ss_A s)) in E. rewrite Hn in E. cbn in E. injection E as <- <-.
  split; [reflexivity|]. intros b out Hb Ho. unfold ss_mult, ss_apply. cbn [ss_A ss_num]. rewrite Hb, Ho, !Z.eqb_refl. reflexivity.
Qed.

(** A matrix without stored entries is accepted and every system is "solved" by zeros. *)
Lemma empty_accepted A h : c_rows A = c_cols A -> nnz A = 0 ->
  ss_make srt U A h = Ok (Solver A Null, h) /\
  forall b out, zlen b = c_rows A -> zlen out = c_rows A -> ss_mult U (Solver A Null) h b out = Ok (map (fun _ => s0) out).
Proof.
  intros Hsq Hn. unfold ss_make. change (sp_nnz A) with (nnz A). rewrite Hn, Hsq, Z.eqb_refl. split; [reflexivity|].
  intros b out Hb Ho. unfold ss_mult, ss_apply. cbn [ss_A ss_num]. rewrite Hsq in *. rewrite Hb, Ho, Z.eqb_refl. reflexivity.
Qed.

End Proofs.
