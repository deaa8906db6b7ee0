(** Calls that are apart give what they give alone, under every schedule. *)

From Coq Require Import ZArith List Bool Lia.
From Verif Require Import Base Scalar Spec Sparse LoopFacts HistoryProofs LifeProofs Threads ThreadProofs Concurrent ConcurrentSpec.
Import ListNotations.
Open Scope Z_scope.

Section ConcurrentProofs.
Context {S : scalar}.
Notation T := (car S).
Notation cell := (cell S).
Implicit Types (m : mem cell) (A : csr S).

(* A loop of the program follows a loop of the model. *)
Lemma wp_follow {St B X} W R (g : St -> B) (mm : St -> mem cell) (f : B -> X -> prog cell B) (body : St -> X -> res St) (l : list X) :
  (forall x s s', In x l -> body s x = Ok s' -> wp W R (f (g s) x) (mm s) (fun b m => b = g s' /\ m = mm s')) ->
  forall s s', foldM body l s = Ok s' -> wp W R (pfold f l (g s)) (mm s) (fun b m => b = g s' /\ m = mm s').
Proof.
  induction l as [|x l IH]; intros H s s' E; cbn in *.
  - injection E as <-. auto.
  - apply bind_Ok in E. destruct E as (s1 & E1 & E2). apply wp_bind. eapply wp_mono; [|apply (H x s s1); [now left|exact E1]].
    intros b m (-> & ->). apply IH; [intros; apply H; auto|exact E2].
Qed.

Lemma wp_for {St B} W R (g : St -> B) (mm : St -> mem cell) lo hi (f : Z -> B -> prog cell B) (body : Z -> St -> res St) s s' :
  for_ lo hi s body = Ok s' ->
  (forall i s s', lo <= i < hi -> body i s = Ok s' -> wp W R (f i (g s)) (mm s) (fun b m => b = g s' /\ m = mm s')) ->
  wp W R (pfor lo hi (g s) f) (mm s) (fun b m => b = g s' /\ m = mm s').
Proof.
  intros E H. unfold pfor. apply (wp_follow W R g mm (fun a i => f i a) (fun s i => body i s)); [|exact E].
  intros i s1 s2 Hi. apply H. now apply In_zrange.
Qed.

Lemma wp_rd_int (W R : Z -> Z -> Prop) m x i z (Q : Z -> mem cell -> Prop) : R x i \/ W x i -> m_get m x i = Ok (CI z) -> Q z m -> wp W R (rd_int x i) m Q.
Proof. intros H1 H2 H3. split; [exact H1|]. exists (CI z). now split. Qed.
Lemma wp_rd_val (W R : Z -> Z -> Prop) m x i z (Q : T -> mem cell -> Prop) : R x i \/ W x i -> m_get m x i = Ok (CV z) -> Q z m -> wp W R (rd_val x i) m Q.
Proof. intros H1 H2 H3. split; [exact H1|]. exists (CV z). now split. Qed.
Lemma wp_wr (W R : Z -> Z -> Prop) m x i (c : cell) m' (Q : unit -> mem cell -> Prop) : W x i -> m_set m x i c = Ok m' -> Q tt m' -> wp W R (wr x i c) m Q.
Proof. intros H1 H2 H3. split; [exact H1|]. exists m'. now split. Qed.

Lemma m_get_map {X} (h : X -> cell) m a (l : list X) i v : get m a = Ok (map h l) -> get l i = Ok v -> m_get m a i = Ok (h v).
Proof. intros H1 H2. unfold m_get. rewrite H1. cbn [bind]. now rewrite get_map, H2. Qed.

Lemma for_map_self (f : T -> T) (l0 : list T) : for_ 0 (zlen l0) l0 (fun j l => a <- get l j ;; set l j (f a)) = Ok (map f l0).
Proof.
  apply res_of_returns.
  apply (returns_for (fun k l => zlen l = zlen l0 /\ forall i, 0 <= i < zlen l0 -> zn s0 l i = if i <? k then f (zn s0 l0 i) else zn s0 l0 i)).
  - apply zlen_nonneg.
  - split; [reflexivity|]. intros i Hi. destruct (Z.ltb_spec i 0); [lia|reflexivity].
  - intros k l Hk (L & H). rewrite (get_ok s0) by lia. cbn [bind]. rewrite set_ok by lia. cbn. split; [now rewrite zlen_upd|].
    intros i Hi. rewrite zn_upd by lia. destruct (Z.eqb_spec i k) as [->|N].
    + destruct (Z.ltb_spec k (k + 1)); [|lia]. f_equal. rewrite H by lia. destruct (Z.ltb_spec k k); [lia|reflexivity].
    + rewrite H by lia. destruct (Z.ltb_spec i k), (Z.ltb_spec i (k + 1)); try lia; reflexivity.
  - intros l (L & H). apply (list_ext s0).
    + now rewrite zlen_map.
    + intros i Hi. rewrite H by lia. destruct (Z.ltb_spec i (zlen l0)); [|lia]. now rewrite (zn_map s0 s0) by lia.
Qed.

(** Memory in which the vector o stands in array Y *)
Section Out.
Variables (m0 : mem cell) (Y : Z).
Hypothesis HY : 0 <= Y < zlen m0.
Definition mm (o : list T) : mem cell := upd m0 (Z.to_nat Y) (map CV o).

Lemma mm_other o a : a <> Y -> get (mm o) a = get m0 a.
Proof. intros H. unfold mm. rewrite get_upd_eq by exact HY. apply Z.eqb_neq in H. now rewrite H. Qed.
Lemma mm_out o : get (mm o) Y = Ok (map CV o).
Proof. unfold mm. rewrite get_upd_eq by exact HY. now rewrite Z.eqb_refl. Qed.
Lemma mm_set o i v o' : set o i v = Ok o' -> m_set (mm o) Y i (CV v) = Ok (mm o').
Proof.
  intros H. unfold m_set. rewrite mm_out. cbn [bind]. rewrite set_map, H. cbn [bind]. unfold mm. rewrite set_ok by (rewrite zlen_upd; exact HY).
  now rewrite upd_upd.
Qed.
Lemma mm_start o : get m0 Y = Ok (map CV o) -> mm o = m0.
Proof.
  intros H. apply (get_Ok_inv []) in H. destruct H as (H & E). unfold mm. rewrite E. now apply upd_self.
Qed.

Lemma mm_init o : get m0 Y = Ok (map CV o) -> m0 = mm o. Proof. intros H. symmetry. now apply mm_start. Qed.

Section Product.
Variables (M : smat) (A : csr S) (X : Z) (x : list T) (W R : Z -> Z -> Prop).
Hypothesis HM : is_matrix_at m0 M A.
Hypothesis HX : is_vector_at m0 X x.
Hypothesis HA : ~ In Y (X :: arrays M).
Hypothesis HW : forall i, W Y i.
Hypothesis HR : forall a i, In a (X :: arrays M) -> R a i.

Let other a : In a (X :: arrays M) -> a <> Y. Proof. intros H ->. contradiction. Qed.

Lemma read_ptr o i z (Q : Z -> mem cell -> Prop) : get (c_ptr A) i = Ok z -> Q z (mm o) -> wp W R (rd_int (s_ptr M) i) (mm o) Q.
Proof.
  intros H. destruct HM as (_ & _ & _ & _ & _ & P & _). assert (I : In (s_ptr M) (X :: arrays M)) by (cbn; auto).
  apply wp_rd_int; [left; now apply HR|]. apply (m_get_map CI _ _ (c_ptr A)); [|exact H]. rewrite mm_other by now apply other. exact P.
Qed.
Lemma read_idx o i z (Q : Z -> mem cell -> Prop) : get (c_idx A) i = Ok z -> Q z (mm o) -> wp W R (rd_int (s_idx M) i) (mm o) Q.
Proof.
  intros H. destruct HM as (_ & _ & _ & _ & _ & _ & P & _). assert (I : In (s_idx M) (X :: arrays M)) by (cbn; auto).
  apply wp_rd_int; [left; now apply HR|]. apply (m_get_map CI _ _ (c_idx A)); [|exact H]. rewrite mm_other by now apply other. exact P.
Qed.
Lemma read_data o i z (Q : T -> mem cell -> Prop) : get (c_val A) i = Ok z -> Q z (mm o) -> wp W R (rd_val (s_val M) i) (mm o) Q.
Proof.
  intros H. destruct HM as (_ & _ & _ & _ & _ & _ & _ & P). assert (I : In (s_val M) (X :: arrays M)) by (cbn; auto).
  apply wp_rd_val; [left; now apply HR|]. apply (m_get_map CV _ _ (c_val A)); [|exact H]. rewrite mm_other by now apply other. exact P.
Qed.
Lemma read_x o i z (Q : T -> mem cell -> Prop) : get x i = Ok z -> Q z (mm o) -> wp W R (rd_val X i) (mm o) Q.
Proof.
  intros H. assert (I : In X (X :: arrays M)) by (cbn; auto).
  apply wp_rd_val; [left; now apply HR|]. apply (m_get_map CV _ _ x); [|exact H]. rewrite mm_other by now apply other. exact HX.
Qed.
Lemma read_y o i z (Q : T -> mem cell -> Prop) : get o i = Ok z -> Q z (mm o) -> wp W R (rd_val Y i) (mm o) Q.
Proof. intros H. apply wp_rd_val; [right; apply HW|]. apply (m_get_map CV _ _ o); [apply mm_out|exact H]. Qed.
Lemma write_y o i z o' (Q : unit -> mem cell -> Prop) : set o i z = Ok o' -> Q tt (mm o') -> wp W R (wr Y i (CV z)) (mm o) Q.
Proof. intros H. apply wp_wr; [apply HW|]. now apply mm_set. Qed.

Lemma wp_mult y0 y : sp_mult A x y0 = Ok y -> wp W R (t_mult M X (zlen x) Y (zlen y0)) (mm y0) (fun _ m => m = mm y).
Proof.
  intros E. unfold sp_mult in E. apply bind_Ok in E. destruct E as ([] & E1 & E). apply bind_Ok in E. destruct E as ([] & E2 & E).
  pose proof HM as (RW & CL & _). unfold t_mult. rewrite <- RW, <- CL. rewrite E1, E2. cbn [lift pbind].
  eapply wp_mono; [|apply (wp_for W R (fun _ : list T => tt) mm 0 (c_rows A) _ _ y0 y E)].
  { intros b m (_ & H). exact H. }
  clear E E1 E2. intros i s s' Hi E. apply bind_Ok in E. destruct E as (lo & E1 & E). apply bind_Ok in E. destruct E as (hi & E2 & E).
  apply bind_Ok in E. destruct E as (v & E3 & E).
  apply wp_bind, (read_ptr s i lo); [exact E1|]. apply wp_bind, (read_ptr s (i + 1) hi); [exact E2|]. apply wp_bind.
  eapply wp_mono; [|apply (wp_for W R (fun v : T => v) (fun _ => mm s) lo hi _ _ s0 v E3)].
  - intros b m (-> & ->). eapply write_y; [exact E|]. auto.
  - intros j a a' Hj B. apply bind_Ok in B. destruct B as (d & B1 & B). apply bind_Ok in B. destruct B as (c & B2 & B). apply bind_Ok in B. destruct B as (xc & B3 & B).
    injection B as <-. apply wp_bind, (read_data s j d); [exact B1|]. apply wp_bind, (read_idx s j c); [exact B2|]. apply wp_bind, (read_x s c xc); [exact B3|].
    cbn [wp]. auto.
Qed.

Lemma fill_loop (o : list T) : for_ 0 (zlen o) o (fun i o => set o i s0) = Ok (map (fun _ => s0) o).
Proof.
  pose proof (for_fill s0 (fun _ => s0) (fun _ _ => Ok s0) (zlen o) o eq_refl ltac:(auto)) as H. cbn [bind] in H. rewrite H. f_equal.
  apply (list_ext s0).
  - rewrite zlen_map_zrange by apply zlen_nonneg. now rewrite zlen_map.
  - rewrite zlen_map_zrange by apply zlen_nonneg. intros j Hj. rewrite zn_map_zrange by exact Hj. symmetry. now rewrite (zn_map s0 s0) by exact Hj.
Qed.

Lemma wp_multAT y0 y : sp_multAT A x y0 = Ok y -> wp W R (t_multAT M X (zlen x) Y (zlen y0)) (mm y0) (fun _ m => m = mm y).
Proof.
  intros E. unfold sp_multAT in E. apply bind_Ok in E. destruct E as ([] & E1 & E). apply bind_Ok in E. destruct E as ([] & E2 & E).
  pose proof HM as (RW & CL & _). unfold t_multAT. rewrite <- RW, <- CL. rewrite E1, E2. cbn [lift pbind].
  apply wp_bind. eapply wp_mono; [|apply (wp_for W R (fun _ : list T => tt) mm 0 (zlen y0) _ _ y0 _ (fill_loop y0))].
  2:{ intros i s s' _ B. eapply write_y; [exact B|]. auto. }
  intros [] m (_ & ->).
  eapply wp_mono; [|apply (wp_for W R (fun _ : list T => tt) mm 0 (c_rows A) _ _ (map (fun _ => s0) y0) y E)].
  { intros b m (_ & H). exact H. }
  clear E E1 E2. intros i s s' Hi E. apply bind_Ok in E. destruct E as (lo & E1 & E). apply bind_Ok in E. destruct E as (hi & E2 & E).
  apply wp_bind, (read_ptr s i lo); [exact E1|]. apply wp_bind, (read_ptr s (i + 1) hi); [exact E2|].
  apply (wp_for W R (fun _ : list T => tt) mm lo hi _ _ s s' E).
  intros j o o' Hj B. apply bind_Ok in B. destruct B as (c & B1 & B). apply bind_Ok in B. destruct B as (a & B2 & B). apply bind_Ok in B. destruct B as (xi & B3 & B).
  apply bind_Ok in B. destruct B as (oc & B4 & B).
  apply wp_bind, (read_idx o j c); [exact B1|]. apply wp_bind, (read_data o j a); [exact B2|]. apply wp_bind, (read_x o i xi); [exact B3|].
  apply wp_bind, (read_y o c oc); [exact B4|]. eapply write_y; [exact B|]. auto.
Qed.
End Product.

Lemma wp_scale (W R : Z -> Z -> Prop) M A v : is_matrix_at m0 M A -> s_val M = Y -> (forall i, W Y i) ->
  wp W R (t_scale M v) (mm (c_val A)) (fun _ m => m = mm (map (fun a => smul a v) (c_val A))).
Proof.
  intros HM EY HW. destruct HM as (_ & _ & _ & _ & ZV & _). unfold t_scale. rewrite <- ZV, EY.
  assert (L : for_ 0 (zlen (c_val A)) (c_val A) (fun j l => a <- get l j ;; set l j (smul a v)) = Ok (map (fun a => smul a v) (c_val A))).
  { apply for_map_self. }
  eapply wp_mono; [|apply (wp_for W R (fun _ : list T => tt) mm 0 (zlen (c_val A)) _ _ (c_val A) _ L)].
  { intros b m (_ & H). exact H. }
  intros j s s' Hj B. apply bind_Ok in B. destruct B as (a & B1 & B).
  apply wp_bind, (read_y W R HW s j a); [exact B1|]. eapply write_y; [exact HW|exact B|]. auto.
Qed.
End Out.

Lemma for_collect {X} (l : list X) : for_ 0 (zlen l) [] (fun i acc => a <- get l i ;; Ok (acc ++ [a])) = Ok l.
Proof.
  unfold for_. assert (G : forall (pre suf : list X), l = pre ++ suf ->
    foldM (fun acc i => a <- get l i ;; Ok (acc ++ [a])) (zrange (zlen pre) (zlen l)) pre = Ok l).
  { intros pre suf. revert pre. induction suf as [|a suf IH]; intros pre E.
    - rewrite app_nil_r in E. subst pre. rewrite zrange_empty by lia. reflexivity.
    - assert (L : zlen pre < zlen l) by (rewrite E, zlen_app, zlen_cons; pose proof (zlen_nonneg suf); lia).
      rewrite zrange_cons by exact L. cbn [foldM]. pose proof (zlen_nonneg pre).
      rewrite (get_ok a) by lia. cbn [bind].
      assert (Q : zn a l (zlen pre) = a) by (rewrite E, zn_app_r by lia; rewrite Z.sub_diag; reflexivity). rewrite Q.
      specialize (IH (pre ++ [a])). rewrite zlen_app, zlen_cons, zlen_nil in IH. apply IH. now rewrite <- app_assoc. }
  exact (G [] l eq_refl).
Qed.

Section New.
Variables (m : mem cell) (W R : Z -> Z -> Prop).

Lemma wp_rd_ints x n l : get m x = Ok (map CI l) -> zlen l = n -> (forall i, R x i) -> wp W R (rd_ints x n) m (fun b m' => b = l /\ m' = m).
Proof.
  intros H <- HR. unfold rd_ints.
  apply (wp_for W R (fun l : list Z => l) (fun _ => m) 0 (zlen l) _ _ [] l (for_collect l)).
  intros i s s' Hi B. apply bind_Ok in B. destruct B as (z & B1 & B). injection B as <-.
  apply wp_bind. apply (wp_rd_int W R m x i z); [left; apply HR| |cbn; auto]. eapply m_get_map; eauto.
Qed.
Lemma wp_rd_vals x n (l : list T) : get m x = Ok (map CV l) -> zlen l = n -> (forall i, R x i) -> wp W R (rd_vals x n) m (fun b m' => b = l /\ m' = m).
Proof.
  intros H <- HR. unfold rd_vals.
  apply (wp_for W R (fun l : list T => l) (fun _ => m) 0 (zlen l) _ _ [] l (for_collect l)).
  intros i s s' Hi B. apply bind_Ok in B. destruct B as (z & B1 & B). injection B as <-.
  apply wp_bind. apply (wp_rd_val W R m x i z); [left; apply HR| |cbn; auto]. eapply m_get_map; eauto.
Qed.

Lemma wp_load M A : is_matrix_at m M A -> (forall a i, In a (arrays M) -> R a i) -> wp W R (t_load M) m (fun b m' => b = A /\ m' = m).
Proof.
  intros (RW & CL & ZP & ZI & ZV & HP & HI & HV) HR. unfold t_load.
  apply wp_bind. eapply wp_mono; [|apply (wp_rd_ints _ _ _ HP ZP); intros i; apply HR; cbn; auto]. intros b m' (-> & ->).
  apply wp_bind. eapply wp_mono; [|apply (wp_rd_ints _ _ _ HI ZI); intros i; apply HR; cbn; auto]. intros b m' (-> & ->).
  apply wp_bind. eapply wp_mono; [|apply (wp_rd_vals _ _ _ HV ZV); intros i; apply HR; cbn; auto]. intros b m' (-> & ->).
  cbn [wp]. split; [|reflexivity]. rewrite <- RW, <- CL. now destruct A.
Qed.

Lemma wp_loads Ms As : Forall2 (is_matrix_at m) Ms As -> (forall a i, In a (flat_map arrays Ms) -> R a i) ->
  forall acc, wp W R (pfold (fun l M => pbind (t_load M) (fun A => Ret (l ++ [A]))) Ms acc) m (fun b m' => b = acc ++ As /\ m' = m).
Proof.
  intros H. induction H as [|M A Ms As HM H IH]; intros HR acc; cbn [pfold].
  - cbn [wp]. now rewrite app_nil_r.
  - apply wp_bind, wp_bind. eapply wp_mono; [|apply (wp_load M A HM); intros a i Ha; apply HR; cbn [flat_map]; apply in_or_app; now left].
    intros b m' (-> & ->). cbn [wp]. eapply wp_mono; [|apply IH; intros a i Ha; apply HR; cbn [flat_map]; apply in_or_app; now right].
    intros b m' (-> & ->). now rewrite <- app_assoc.
Qed.
End New.

Section Calls.
Context {Rt : Type}.
Implicit Types (c : call S Rt).

Let Wc c : Z -> Z -> Prop := fun a _ => In a (changes c).
Let Rc c : Z -> Z -> Prop := fun a _ => In a (looks_at c).

Lemma wp_call m c r w : gives m c r w -> wp (Wc c) (Rc c) (t_call c) m (fun b m' => b = r /\ map (get m') (changes c) = map (fun l => Ok l) w).
Proof.
  intros G. destruct G as [M A X x Y y0 y HM HX HY HN E|M A X x Y y0 y HM HX HY HN E|M A v HM|Ms As f r HM E]; cbn [t_call].
  - apply wp_bind. assert (B : 0 <= Y < zlen m) by (apply (get_Ok_inv []) in HY; tauto).
    pose proof (wp_mult m Y B M A X x (Wc (CMult M X (zlen x) Y (zlen y0))) (Rc (CMult M X (zlen x) Y (zlen y0))) HM HX HN ltac:(intros i; now left) ltac:(intros a i Ha; exact Ha) y0 y E) as H.
    rewrite (mm_start m Y y0 HY) in H. eapply wp_mono; [|exact H]. intros _ m' ->. cbn [wp]. split; [reflexivity|]. cbn. now rewrite mm_out.
  - apply wp_bind. assert (B : 0 <= Y < zlen m) by (apply (get_Ok_inv []) in HY; tauto).
    pose proof (wp_multAT m Y B M A X x (Wc (CMultAT M X (zlen x) Y (zlen y0))) (Rc (CMultAT M X (zlen x) Y (zlen y0))) HM HX HN ltac:(intros i; now left) ltac:(intros a i Ha; exact Ha) y0 y E) as H.
    rewrite (mm_start m Y y0 HY) in H. eapply wp_mono; [|exact H]. intros _ m' ->. cbn [wp]. split; [reflexivity|]. cbn. now rewrite mm_out.
  - apply wp_bind. pose proof HM as (_ & _ & _ & _ & _ & _ & _ & HV). assert (B : 0 <= s_val M < zlen m) by (apply (get_Ok_inv []) in HV; tauto).
    pose proof (wp_scale m (s_val M) B (Wc (CScale M v)) (Rc (CScale M v)) M A v HM eq_refl ltac:(intros i; now left)) as H.
    rewrite (mm_start m (s_val M) (c_val A) HV) in H. eapply wp_mono; [|exact H]. intros _ m' ->. cbn [wp]. split; [reflexivity|]. cbn. now rewrite mm_out.
  - apply wp_bind. unfold t_new. apply wp_bind. eapply wp_mono; [|apply (wp_loads m (Wc (CNew Ms f)) (Rc (CNew Ms f)) Ms As HM ltac:(intros a i Ha; exact Ha) [])].
    intros b m' (-> & ->). cbn [app]. rewrite E. cbn. auto.
Qed.

Lemma same_array (m1 m2 : mem cell) a : shape m1 = shape m2 -> (forall i, m_get m1 a i = m_get m2 a i) -> get m1 a = get m2 a.
Proof.
  intros HS H. assert (L : zlen m1 = zlen m2) by (rewrite <- (zlen_map zlen m1), <- (zlen_map zlen m2); unfold shape in HS; now rewrite HS).
  destruct (Z_lt_ge_dec a 0) as [N|N]; [|destruct (Z_lt_ge_dec a (zlen m1)) as [K|K]].
  - rewrite !get_out by lia. reflexivity.
  - rewrite !(get_ok []) by lia. f_equal.
    assert (LA : zlen (zn [] m1 a) = zlen (zn [] m2 a)).
    { rewrite <- !(zn_map [] 0 zlen) by lia. unfold shape in HS. now rewrite HS. }
    apply (list_ext (CI 0)); [exact LA|]. intros i Hi. specialize (H i). unfold m_get in H. rewrite !(get_ok []) in H by lia. cbn [bind] in H.
    rewrite !(get_ok (CI 0)) in H by lia. now injection H.
  - rewrite !get_out by lia. reflexivity.
Qed.

Lemma calls_ok sched (calls : list (call S Rt)) (outs : list (option Rt * list (list cell))) m :
  apart calls -> Forall2 (fun c o => gives m c (fst o) (snd o)) calls outs ->
  exists m', par_phase sched (map t_call calls) m = Ok (map fst outs, m') /\
    Forall2 (fun c o => map (get m') (changes c) = map (fun l => Ok l) (snd o)) calls outs /\
    forall a, ~ In a (flat_map changes calls) -> get m' a = get m a.
Proof.
  intros HA HG. set (d0 := CNew (S := S) (R := Rt) [] (fun _ => Fail FUB)). set (o0 := (@None Rt, @nil (list cell))).
  assert (LO : zlen calls = zlen outs) by (clear HA; unfold zlen; f_equal; induction HG; cbn; congruence).
  assert (HG' : forall t, 0 <= t < zlen calls -> gives m (zn d0 calls t) (fst (zn o0 outs t)) (snd (zn o0 outs t))).
  { intros t Ht. unfold zn. assert (K : (Z.to_nat t < length calls)%nat) by (unfold zlen in Ht; lia). clear Ht HA LO. revert K. generalize (Z.to_nat t) as k. clear t.
    induction HG as [|c o calls outs H HG IH]; intros k K; [cbn in K; lia|]. destruct k; [exact H|]. cbn. apply IH. cbn in K. lia. }
  destruct (par_phase_ok (t_call d0) (map t_call calls) (fun t => Wc (zn d0 calls t)) (fun t => Rc (zn d0 calls t))
    (fun t b m' => b = fst (zn o0 outs t) /\ map (get m') (changes (zn d0 calls t)) = map (fun l => Ok l) (snd (zn o0 outs t))) m) with (sched := sched)
    as (vals & m' & E & L & HS & HV & HO).
  - rewrite zlen_map. intros t Ht. rewrite (zn_map d0) by exact Ht. apply wp_call. now apply HG'.
  - rewrite zlen_map. intros s t x i Hs Ht N H1. unfold Wc, Rc in *.
    destruct (HA s t (zn d0 calls s) (zn d0 calls t) x (get_ok d0 _ _ Hs) (get_ok d0 _ _ Ht) N H1) as (H2 & H3). intros [H|H]; contradiction.
  - rewrite zlen_map in *.
    assert (F : forall t, 0 <= t < zlen calls -> zn None vals t = fst (zn o0 outs t) /\ map (get m') (changes (zn d0 calls t)) = map (fun l => Ok l) (snd (zn o0 outs t))).
    { intros t Ht. destruct (HV t (zn None vals t) Ht ltac:(apply get_ok; lia)) as (mt & (H1 & H2) & H3 & H4). split; [exact H1|].
      rewrite <- H2. apply map_ext_in. intros a Ha. apply same_array; [congruence|]. intros i. apply H4. exact Ha. }
    exists m'. split; [|split].
    + rewrite E. f_equal. f_equal. apply (list_ext None); [rewrite zlen_map; lia|]. intros t Ht. rewrite (zn_map o0) by lia. apply F. lia.
    + assert (F2 : forall t, 0 <= t < zlen calls -> map (get m') (changes (zn d0 calls t)) = map (fun l => Ok l) (snd (zn o0 outs t))) by (intros t Ht; now apply F).
      clear - F2 LO HG. revert F2. rename HG into HG0. revert LO. induction HG0 as [|c o calls outs H HG0 IH]; intros LO F; [constructor|]. rewrite !zlen_cons in *. constructor.
      * pose proof (zlen_nonneg calls). apply (F 0). lia.
      * apply IH; [lia|]. intros t Ht. specialize (F (t + 1) ltac:(lia)).
        rewrite !zn_cons_pos in F by lia. now rewrite Z.add_simpl_r in F.
    + intros a Ha. apply same_array; [exact HS|]. intros i. apply HO. intros t Ht HW. apply Ha. apply in_flat_map. exists (zn d0 calls t). split; [now apply zn_In|exact HW].
Qed.
End Calls.
End ConcurrentProofs.
