(** The statements of PropVec.v, from the exact effects proved in VecProofs.v. *)

From Coq Require Import ZArith List Lia Bool PrimFloat.
From Verif Require Import Base Scalar Spec Dense LoopFacts SumFacts DenseProofs Vec VecSpec VecProofs VecState VecMore VecNum.
Import ListNotations.
Open Scope Z_scope.

Section VecLinks.
Context {S : scalar}.
Notation T := (car S).
Implicit Types (h : heap S) (v w x y z : view).

Ltac by_hw L := let h' := fresh in let E := fresh in let W := fresh in destruct L as (h' & E & W); [auto..|]; exists h'; split; [exact E|now apply hw_writes].

Lemma set_writes h v i (t : T) : view_ok h v -> 0 <= i < v_len v ->
  exists h', v_set h v i t = Ok h' /\ writes h (View (v_buf v) (v_off v + i) 1) (fun _ => t) h'.
Proof. intros Hv Hi. destruct (v_set_hw h v i t Hv Hi) as (h' & E & H). exists h'. split; [exact E|]. now apply hw_writes. Qed.

Lemma fill_writes h v (t : T) : view_ok h v -> exists h', v_fill h v t = Ok h' /\ writes h v (fun _ => t) h'.
Proof. intros Hv. by_hw (v_fill_hw h v t Hv). Qed.

Lemma randomize_writes gen h v : view_ok h v -> exists h', v_randomize gen h v = Ok h' /\ writes h v gen h'.
Proof. intros Hv. by_hw (v_randomize_hw gen h v Hv). Qed.

Lemma assign_writes h z x : view_ok h z -> view_ok h x -> v_len x = v_len z -> ~ reads_behind z x ->
  exists h', v_assign h z x = Ok h' /\ writes h z (vat h x) h'.
Proof. intros. by_hw (v_assign_hw h z x). Qed.

Lemma assign_behind h z x : v_len x = v_len z -> reads_behind z x -> v_assign h z x = Fail FUB.
Proof.
  intros Hl (E & H). unfold v_assign. rewrite Hl, Z.eqb_refl. cbn [assert_ bind]. unfold v_copy. rewrite E, Z.eqb_refl.
  destruct (Z.ltb_spec (v_off x) (v_off z)); [|lia]. destruct (Z.ltb_spec (v_off z) (v_off x + v_len x)); [|lia]. reflexivity.
Qed.

Lemma size_checks h z x (alpha : T) op : v_len x <> v_len z ->
  v_assign h z x = Fail FAssert /\ v_add_scaled h z alpha x = Fail FAssert /\ v_sub_scaled h z alpha x = Fail FAssert /\
  v_set_scaled h z alpha x = Fail FAssert /\ v_zip op h z x = Fail FAssert.
Proof.
  intros N. unfold v_assign, v_add_scaled, v_sub_scaled, v_set_scaled, v_zip. destruct (Z.eqb_spec (v_len x) (v_len z)); [lia|]. destruct (Z.eqb_spec (v_len z) (v_len x)); [lia|]. auto.
Qed.

Lemma add_scaled_writes h z alpha x : view_ok h z -> view_ok h x -> v_len x = v_len z -> ~ reads_behind z x ->
  exists h', v_add_scaled h z alpha x = Ok h' /\ writes h z (fun i => sadd (vat h z i) (smul alpha (vat h x i))) h'.
Proof. intros. by_hw (v_add_scaled_hw h z alpha x). Qed.
Lemma sub_scaled_writes h z alpha x : view_ok h z -> view_ok h x -> v_len x = v_len z -> ~ reads_behind z x ->
  exists h', v_sub_scaled h z alpha x = Ok h' /\ writes h z (fun i => ssub (vat h z i) (smul alpha (vat h x i))) h'.
Proof. intros. by_hw (v_sub_scaled_hw h z alpha x). Qed.
Lemma set_scaled_writes h z alpha x : view_ok h z -> view_ok h x -> v_len x = v_len z -> ~ reads_behind z x ->
  exists h', v_set_scaled h z alpha x = Ok h' /\ writes h z (fun i => smul alpha (vat h x i)) h'.
Proof. intros. by_hw (v_set_scaled_hw h z alpha x). Qed.

Lemma view_ops_write h z x : view_ok h z -> view_ok h x -> v_len x = v_len z -> ~ reads_behind z x ->
  (exists h', v_add_view h z x = Ok h' /\ writes h z (fun i => sadd (vat h z i) (vat h x i)) h') /\
  (exists h', v_sub_view h z x = Ok h' /\ writes h z (fun i => ssub (vat h z i) (vat h x i)) h') /\
  (exists h', v_mul_view h z x = Ok h' /\ writes h z (fun i => smul (vat h z i) (vat h x i)) h').
Proof.
  intros. split; [|split]; [unfold v_add_view|unfold v_sub_view|unfold v_mul_view].
  - by_hw (v_zip_hw sadd h z x).
  - by_hw (v_zip_hw ssub h z x).
  - by_hw (v_zip_hw smul h z x).
Qed.

Lemma div_view_writes h z x : view_ok h z -> view_ok h x -> v_len x = v_len z -> ~ reads_behind z x ->
  (forall i, 0 <= i < v_len x -> seqb (vat h x i) s0 = false) ->
  exists h', v_div_view h z x = Ok h' /\ writes h z (fun i => sdiv (vat h z i) (vat h x i)) h'.
Proof. intros. by_hw (v_div_view_hw h z x). Qed.

Lemma scalar_ops_write h z (t : T) : view_ok h z ->
  (exists h', v_mul_scalar h z t = Ok h' /\ writes h z (fun i => smul (vat h z i) t) h') /\
  (exists h', v_add_scalar h z t = Ok h' /\ writes h z (fun i => sadd (vat h z i) t) h') /\
  (exists h', v_sub_scalar h z t = Ok h' /\ writes h z (fun i => ssub (vat h z i) t) h') /\
  (exists h', v_rdiv_scalar h t z = Ok h' /\ writes h z (fun i => sdiv t (vat h z i)) h') /\
  (seqb t s0 = false -> exists h', v_div_scalar h z t = Ok h' /\ writes h z (fun i => sdiv (vat h z i) t) h') /\
  (seqb t s0 = true -> v_div_scalar h z t = Fail FAssert).
Proof.
  intros Hz. split; [|split; [|split; [|split; [|split]]]].
  - by_hw (v_map_hw (fun a => smul a t) h z Hz).
  - by_hw (v_map_hw (fun a => sadd a t) h z Hz).
  - by_hw (v_map_hw (fun a => ssub a t) h z Hz).
  - by_hw (v_map_hw (fun a => sdiv t a) h z Hz).
  - intros N. unfold v_div_scalar. rewrite N. cbn [negb assert_ bind]. by_hw (v_map_hw (fun a => sdiv a t) h z Hz).
  - intros N. unfold v_div_scalar. rewrite N. reflexivity.
Qed.

Lemma axpby_writes h alpha x beta y gamma z : view_ok h z -> view_ok h x -> view_ok h y -> v_len x = v_len z -> v_len y = v_len z ->
  ~ reads_behind z x -> ~ reads_behind z y ->
  exists h', v_axpby h alpha x beta y gamma z = Ok h' /\
    writes h z (fun i => sadd (sadd (smul alpha (vat h x i)) (smul beta (vat h y i))) (smul gamma (vat h z i))) h'.
Proof. intros. by_hw (v_axpby_hw h alpha x beta y gamma z). Qed.

Lemma writes_ext h z g1 g2 h' : (forall i, 0 <= i < v_len z -> g1 i = g2 i) -> writes h z g1 h' -> writes h z g2 h'.
Proof.
  intros E H w Hw. destruct (H w Hw) as (A & B). split; [exact A|]. intros j Hj. rewrite (B j Hj). destruct (inside z w j) eqn:Ei; [|reflexivity].
  apply E. unfold inside in Ei. apply andb_prop in Ei. destruct Ei as (Ei & E2). apply andb_prop in Ei. destruct Ei as (_ & E1).
  apply Z.leb_le in E1. apply Z.ltb_lt in E2. lia.
Qed.

Lemma add3_writes (R : ring_laws S) h x y z : view_ok h z -> view_ok h x -> view_ok h y -> v_len x = v_len z -> v_len y = v_len z ->
  ~ reads_behind z x -> ~ reads_behind z y ->
  (exists h', v_add3 h x y z = Ok h' /\ writes h z (fun i => sadd (vat h x i) (vat h y i)) h') /\
  (exists h', v_sub3 h x y z = Ok h' /\ writes h z (fun i => ssub (vat h x i) (vat h y i)) h').
Proof.
  intros. split.
  - destruct (axpby_writes h s1 x s1 y s0 z) as (h' & E & W); auto. exists h'. split; [exact E|]. eapply writes_ext; [|exact W]. intros i _.
    cbv beta. rewrite !(smul_1_l R), (smul_0_l R). apply (sadd_0_r R).
  - destruct (axpby_writes h s1 x (sopp s1) y s0 z) as (h' & E & W); auto. exists h'. split; [exact E|]. eapply writes_ext; [|exact W]. intros i _.
    cbv beta. rewrite (smul_1_l R), (smul_0_l R), (sadd_0_r R). symmetry. apply (ssub_def R).
Qed.

(** Two disjoint views, or a view and itself, are in the domain. *)
Lemma disjoint_or_same z x : v_len x = v_len z -> (x = z \/ v_buf x <> v_buf z \/ v_off z <= v_off x \/ v_off x + v_len x <= v_off z) -> ~ reads_behind z x.
Proof. intros Hl [->|[N|[N|N]]] (E & K); [lia|congruence|lia|lia]. Qed.

(* ---------------------------------------------------------------- element access *)

Lemma get_in h v i : view_ok h v -> 0 <= i < v_len v -> v_get h v i = Ok (vat h v i).
Proof. apply view_get. Qed.
Lemma get_above h v i (t : T) : v_len v <= i -> v_get h v i = Fail FAssert /\ v_set h v i t = Fail FAssert.
Proof. intros H. unfold v_get, v_set. destruct (Z.ltb_spec i (v_len v)); [lia|]. auto. Qed.

(* ---------------------------------------------------------------- comparison *)

Lemma eq_refl_ok tol h v : view_ok h v -> (forall a : T, sle (sabs (ssub a a)) tol) -> v_eq tol h v v = Ok true.
Proof.
  intros Hv Ht. destruct (v_eq_ok tol h v v Hv Hv) as (b & E & Hb). rewrite E. f_equal. apply Hb. split; [reflexivity|]. intros; apply Ht.
Qed.

Lemma eq_sym_ok tol h v w : view_ok h v -> view_ok h w -> (forall a b : T, sabs (ssub a b) = sabs (ssub b a)) -> v_eq tol h v w = v_eq tol h w v.
Proof.
  intros Hv Hw Ha. destruct (v_eq_ok tol h v w Hv Hw) as (b & E & Hb), (v_eq_ok tol h w v Hw Hv) as (c & E' & Hc). rewrite E, E'. f_equal.
  apply eq_true_iff_eq. rewrite Hb, Hc. split; intros (L & P); (split; [auto|]); intros i Hi; rewrite Ha; apply P; lia.
Qed.

Lemma eq_exact tol h v w : view_ok h v -> view_ok h w -> (forall a b : T, sle (sabs (ssub a b)) tol <-> a = b) ->
  exists b, v_eq tol h v w = Ok b /\ (b = true <-> v_len v = v_len w /\ forall i, 0 <= i < v_len v -> vat h v i = vat h w i).
Proof.
  intros Hv Hw Ha. destruct (v_eq_ok tol h v w Hv Hw) as (b & E & Hb). exists b. split; [exact E|]. rewrite Hb.
  split; intros (L & P); (split; [exact L|]); intros i Hi; apply Ha; auto.
Qed.

(* ---------------------------------------------------------------- C63 *)

Lemma vector_copy grow (st : vstate S) (y : Z) : reached grow st -> 0 <= y < zlen (values st) ->
  exists st', run_vops grow st [PCopy y] = Ok st' /\ reached grow st' /\ values st' = values st ++ [zn [] (values st) y].
Proof.
  intros R Hy. apply reached_step; [exact R|]. cbn. unfold lvar. destruct (Z.leb_spec 0 y), (Z.ltb_spec y (zlen (values st))); try lia. reflexivity.
Qed.

Lemma lset_same (vs : list (list T)) (x : Z) : 0 <= x < zlen vs -> lset vs x (zn [] vs x) = vs.
Proof. intros H. unfold lset. now apply upd_same. Qed.

Lemma vector_self_assign grow (st : vstate S) (x : Z) : reached grow st -> 0 <= x < zlen (values st) ->
  (exists st', run_vops grow st [PAssign x x] = Ok st' /\ reached grow st' /\ values st' = values st) /\
  (exists st', run_vops grow st [PMoveAssign x x] = Ok st' /\ reached grow st' /\ values st' = values st) /\
  (exists st', run_vops grow st [PSwap x x] = Ok st' /\ reached grow st' /\ values st' = values st).
Proof.
  intros R Hx.
  assert (L : lvar (values st) x = Some (zn [] (values st) x)) by (unfold lvar; destruct (Z.leb_spec 0 x), (Z.ltb_spec x (zlen (values st))); try lia; reflexivity).
  assert (Z1 : zlen (lset (values st) x (zn [] (values st) x)) = zlen (values st)) by apply zlen_upd.
  assert (L2 : lset (lset (values st) x (zn [] (values st) x)) x (zn [] (values st) x) = values st) by now rewrite !lset_same.
  split; [|split]; apply reached_step; auto; cbn [spec_vops spec_vop]; rewrite L; [now rewrite lset_same|now rewrite L2|now rewrite L2].
Qed.

Lemma vector_move grow (st : vstate S) (y : Z) : reached grow st -> 0 <= y < zlen (values st) ->
  exists st', run_vops grow st [PMove y] = Ok st' /\ reached grow st' /\ values st' = upd (values st) (Z.to_nat y) [] ++ [zn [] (values st) y].
Proof.
  intros R Hy. apply reached_step; [exact R|]. cbn. unfold lvar. destruct (Z.leb_spec 0 y), (Z.ltb_spec y (zlen (values st))); try lia. reflexivity.
Qed.

Lemma vector_assign grow (st : vstate S) (x y : Z) : reached grow st -> 0 <= x < zlen (values st) -> 0 <= y < zlen (values st) ->
  exists st', run_vops grow st [PAssign x y] = Ok st' /\ reached grow st' /\ values st' = upd (values st) (Z.to_nat x) (zn [] (values st) y).
Proof.
  intros R Hx Hy. apply reached_step; [exact R|]. cbn. unfold lvar. destruct (Z.leb_spec 0 y), (Z.ltb_spec y (zlen (values st))); try lia.
  destruct (Z.leb_spec 0 x), (Z.ltb_spec x (zlen (values st))); try lia. reflexivity.
Qed.

Lemma vector_swap grow (st : vstate S) (x y : Z) : reached grow st -> 0 <= x < zlen (values st) -> 0 <= y < zlen (values st) ->
  exists st', run_vops grow st [PSwap x y] = Ok st' /\ reached grow st' /\
    zlen (values st') = zlen (values st) /\ zn [] (values st') x = zn [] (values st) y /\ zn [] (values st') y = zn [] (values st) x /\
    forall k, 0 <= k -> k <> x -> k <> y -> zn [] (values st') k = zn [] (values st) k.
Proof.
  intros R Hx Hy. destruct (reached_step grow st [PSwap x y] (lset (lset (values st) x (zn [] (values st) y)) y (zn [] (values st) x)) R) as (st' & A & B & C).
  - cbn. unfold lvar. destruct (Z.leb_spec 0 y), (Z.ltb_spec y (zlen (values st))); try lia. destruct (Z.leb_spec 0 x), (Z.ltb_spec x (zlen (values st))); try lia. reflexivity.
  - exists st'. split; [exact A|]. split; [exact B|]. rewrite C. unfold lset. rewrite !zlen_upd. split; [reflexivity|]. split; [|split].
    + rewrite !zn_upd by (rewrite ?zlen_upd; lia). rewrite Z.eqb_refl. destruct (Z.eqb_spec x y) as [->|]; reflexivity.
    + rewrite !zn_upd by (rewrite ?zlen_upd; lia). now rewrite Z.eqb_refl.
    + intros k Hk N1 N2. rewrite !zn_upd by (rewrite ?zlen_upd; lia). destruct (Z.eqb_spec k y); [lia|]. destruct (Z.eqb_spec k x); [lia|reflexivity].
Qed.

(** Independence, from any reached state. *)
Lemma frame_reached grow (st : vstate S) ops (vs' : list (list T)) (y : Z) : reached grow st -> spec_vops (values st) ops = Some vs' ->
  0 <= y < zlen (values st) -> Forall (fun o => ~ changes o y) ops ->
  exists st', run_vops grow st ops = Ok st' /\ zn [] (values st') y = zn [] (values st) y.
Proof. intros R. apply vops_frame. now apply reached_good in R. Qed.

Lemma sub_vector_reached grow (st : vstate S) r ids (y x off n : Z) : reached grow st -> lref (values st) r = Some (x, off, n) ->
  0 <= y < zlen (values st) -> y <> x -> Forall (fun j => 0 <= j < n) ids ->
  exists st', st_sub_vector grow st r ids y = Ok st' /\
    values st' = upd (values st) (Z.to_nat y) (map (fun j => zn s0 (zn [] (values st) x) (off + j)) ids).
Proof.
  intros R E Hy N Hi. apply reached_good in R. destruct (sub_vector_ok grow st r ids y x off n R E Hy N Hi) as (st' & A & _ & B). eauto.
Qed.

Lemma sub_avg_sum (F : field_laws S) h v : view_ok h v -> sum_range 0 (v_len v) (fun _ => @s1 S) <> s0 ->
  exists h' m, v_sub_avg h v = Ok h' /\ writes h v (fun i => ssub (vat h v i) m) h' /\ v_sum h' v = Ok s0.
Proof.
  intros Hv Hn. assert (L : 0 <= v_len v) by apply Hv. rewrite <- (of_int_pos F) in Hn by exact L.
  destruct (v_sub_avg_ok F h v Hv Hn) as (h' & m & _ & E & H & Hs). exists h', m. split; [exact E|]. split; [now apply hw_writes|].
  rewrite (v_sum_ring (field_ring S F)); [now rewrite Hs|]. eapply same_view_ok; [apply H|exact Hv].
Qed.

Lemma mean_spec (F : field_laws S) h v : view_ok h v -> sum_range 0 (v_len v) (fun _ => @s1 S) <> s0 ->
  exists m, v_mean h v = Ok m /\ smul m (sum_range 0 (v_len v) (fun _ => s1)) = sum_range 0 (v_len v) (vat h v).
Proof.
  intros Hv Hn. assert (L : 0 <= v_len v) by apply Hv. rewrite <- (of_int_pos F) in Hn |- * by exact L. now apply v_mean_ok.
Qed.

Lemma normalize_spec (F : field_laws S) (EQ : eqb_laws S) (sqrt : T -> T) h v p : view_ok h v -> v_inner h v v = Ok p -> smul (sqrt p) (sqrt p) = p -> p <> s0 ->
  exists h', v_normalize sqrt h v = Ok h' /\ writes h v (fun i => sdiv (vat h v i) (sqrt p)) h' /\ v_inner h' v v = Ok s1.
Proof.
  intros Hv Hp Hs Hn. assert (Hq : sqrt p <> s0) by (intros K; rewrite K in Hs; apply Hn; rewrite <- Hs; apply (smul_0_l (field_ring S F))).
  destruct (v_normalize_ok F sqrt h v p Hv Hp Hs Hq) as (h' & A & B & C).
  - destruct (seqb (sqrt p) s0) eqn:E; [|reflexivity]. now apply EQ in E.
  - exists h'. split; [exact A|]. split; [now apply hw_writes|exact C].
Qed.

End VecLinks.
